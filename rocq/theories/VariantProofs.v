(** * tv::variant: proofs of the properties *)

From Coq Require Import List Arith Bool Lia.
From Verif Require Import Mem MemLemmas SpecVec Variant SpecVariant VariantLemmas.
Import ListNotations.

Lemma throws_dec {V} (w : world V) : ~ ~ someone_throws w -> someone_throws w.
Proof. intros H. unfold someone_throws in *. destruct (in_dec Bool.bool_dec true (script w)); tauto. Qed.

Section Generic.
Context {V : Type}.
Local Notation M := (M V).
Local Notation world := (world V).
Lemma at_same (quiet : Prop) (w w' : world) h : at_ quiet w h -> at_ quiet w' h -> same (heap w') (heap w) /\ unused_names w'.
Proof. intros (H1 & H2 & _) (H1' & H2' & _). split. - intros b. now rewrite H1, H1'. - intros b Hb. rewrite H1'. auto. Qed.
Lemma at_memory (quiet : Prop) (w : world) h : at_ quiet w h -> same (heap w) h /\ unused_names w.
Proof. intros (H1 & H2 & _). split; auto. intros b Hb. rewrite H1. auto. Qed.
Lemma memory_at (quiet : Prop) (w : world) : unused_names w -> (quiet -> ~ someone_throws w) -> at_ quiet w (heap w).
Proof. intros H Hq. split; [intros b; reflexivity|]. split; auto. Qed.
Lemma wp_noexcept_if {X B} (m : M X B) b (x : X) (w : world) (Q : X -> B -> world -> Prop) (E : X -> world -> Prop) :
  wp m x w Q (fun x w => b = false /\ E x w) -> wp (noexcept_if b m) x w Q E.
Proof.
  unfold wp, noexcept_if, noexcept. destruct b.
  - destruct (m x w); intuition congruence.
  - destruct (m x w); tauto.
Qed.
End Generic.

Section Proofs.
Context {A : Type} (moved : A -> A) (T : types A).
Local Notation V := (nat * A)%type.
Local Notation M := (M V).
Local Notation world := (world V).
Local Notation memory := (@memory V).

Lemma holds_at (quiet : Prop) o k a (others : memory) (w : world) :
  holds (count T) o k a others w -> (quiet -> ~ someone_throws w) ->
  at_ quiet w (upd others (v_at o) (Some [Some (k, a)])).
Proof.
  intros ((H1 & H2 & H3 & H4 & H5) & Hu) Hq.
  assert (E : eqh (heap w) (upd others (v_at o) (Some [Some (k, a)]))).
  { intros b. unfold upd. destruct (b =? v_at o) eqn:E. - apply Nat.eqb_eq in E. now subst. - apply Nat.eqb_neq in E. auto. }
  split; [exact E|]. split; [|exact Hq]. intros b Hb. rewrite <- E. auto.
Qed.
Lemma at_holds (quiet : Prop) o k a (others : memory) (w : world) :
  at_ quiet w (upd others (v_at o) (Some [Some (k, a)])) -> v_index o = k -> k < count T -> others (v_at o) = None ->
  holds (count T) o k a others w.
Proof.
  intros (H1 & H2 & _) Hi Hk Ho. split; [repeat split; auto|].
  - rewrite H1. apply upd_same.
  - intros b Hb. rewrite H1. now apply upd_other.
  - intros b Hb. rewrite H1. auto.
Qed.
Lemma gives_upd (h : memory) b cs c a : h b = None -> gives h c a -> gives (upd h b cs) c a.
Proof.
  intros Hb. destruct c as [nt a'|nt p i|nt p i]; cbn [gives]; auto. intros Hg. rewrite upd_other; auto. congruence.
Qed.
Lemma gives_eqh (h h' : memory) c a : eqh h h' -> gives h c a -> gives h' c a.
Proof. intros E. destruct c as [nt a'|nt p i|nt p i]; cbn [gives]; auto. now rewrite E. Qed.
Lemma nothrow_iff (c : @creator A) : creator_nothrow c = true <-> cannot_throw c.
Proof. destruct c; reflexivity. Qed.

(** ** Construction *)
Lemma construct_ends k c a (w : world) :
  unused_names w -> gives (heap w) c a -> k < count T ->
  ends (construct moved k c tt w)
    (fun _ o w' => holds (count T) o k a (heap w) w')
    (fun _ w' => same (heap w') (heap w) /\ unused_names w' /\ someone_throws w /\ ~ cannot_throw c).
Proof.
  intros Hu Hg Hk. pose proof (memory_at (~ someone_throws w) w Hu (fun q => q)) as H.
  change (wp (construct moved k c) tt w
    (fun _ o w' => holds (count T) o k a (heap w) w')
    (fun _ w' => same (heap w') (heap w) /\ unused_names w' /\ someone_throws w /\ ~ cannot_throw c)).
  unfold construct. apply wp_bind. eapply wp_new_block; eauto. cbn [repeat]. intros w1 b Hb H1.
  apply wp_bind, wp_rethrow. eapply wp_construct_member; eauto. { apply upd_same. }
  eapply (wp_create _ _ c a); eauto. { now apply gives_upd. }
  - intros w2 H2. eexists. split; [exact H2|]. split; [apply upd_same|]. intros w3 H3. apply wp_ret.
    eapply at_ext in H3; [|apply upd_upd]. eapply (at_holds _ (Variant k b)); cbn [v_index v_at]; eauto.
  - intros w2 Hn Hq H2. eapply (wp_deallocate _ b 1); eauto. { apply upd_same. }
    intros w3 H3. eapply at_ext in H3; [|eapply eqh_trans; [apply upd_upd|now apply upd_id]].
    pose proof (at_same _ _ _ _ H H3) as (S1 & S2). split; [exact S1|]. split; [exact S2|]. split; [now apply throws_dec|].
    rewrite <- nothrow_iff. congruence.
Qed.

(** ** Destruction *)
Lemma destruct_ends o k a (others : memory) (w : world) :
  holds (count T) o k a others w ->
  ends (destruct T o w) (fun _ _ w' => same (heap w') others /\ unused_names w') (fun _ _ => False).
Proof.
  intros Hh. pose proof (holds_at False _ _ _ _ _ Hh ltac:(tauto)) as H.
  destruct Hh as ((H1 & H2 & H3 & H4 & H5) & Hu).
  change (wp (destruct T) o w (fun _ _ w' => same (heap w') others /\ unused_names w') (fun _ _ => False)).
  unfold destruct. apply wp_bind. eapply wp_destroy_active; eauto. { apply upd_same. }
  intros w1 Hw1. apply wp_bind, wp_get. eapply (wp_deallocate _ (v_at o) 1); eauto. { apply upd_same. }
  intros w2 Hw2. eapply at_memory. eapply at_ext; [exact Hw2|].
  eapply eqh_trans; [apply upd_upd|]. eapply eqh_trans; [apply upd_upd|]. now apply upd_id.
Qed.

(** ** emplace *)
Lemma emplace_wp (quiet : Prop) o k0 a0 (others : memory) k c a (w : world) (Q : variant -> nat * nat -> world -> Prop) (E : variant -> world -> Prop) :
  at_ quiet w (upd others (v_at o) (Some [Some (k0, a0)])) -> others (v_at o) = None -> v_index o = k0 -> k0 < count T ->
  gives (if creator_nothrow c then others else upd others (v_at o) (Some [Some (k0, a0)])) c a ->
  (forall w', at_ quiet w' (upd others (v_at o) (Some [Some (k, a)])) -> Q (Variant k (v_at o)) (v_at o, k) w') ->
  (forall w', creator_nothrow c = false -> ~ quiet -> at_ quiet w' (upd others (v_at o) (Some [Some (k0, a0)])) -> E o w') ->
  wp (emplace moved T k c) o w Q E.
Proof.
  intros H Ho Hi Hk0 Hg HQ HE. unfold emplace. eapply wp_emplace_impl; eauto.
  intros h w' Q' E' H' Hh HQ'. eapply wp_destroy_active; eauto.
Qed.
Lemma emplace_ends o k0 a0 (others : memory) k c a (w : world) :
  holds (count T) o k0 a0 others w -> k < count T ->
  gives others c a \/ (~ cannot_throw c /\ gives (heap w) c a) ->
  ends (emplace moved T k c o w)
    (fun o' r w' => r = (v_at o, k) /\ v_at o' = v_at o /\ holds (count T) o' k a others w')
    (fun o' w' => untouched o o' w w' /\ someone_throws w /\ ~ cannot_throw c).
Proof.
  intros Hh Hk Hg. pose proof (holds_at (~ someone_throws w) _ _ _ _ _ Hh (fun q => q)) as H.
  destruct Hh as ((H1 & H2 & H3 & H4 & H5) & Hu).
  change (wp (emplace moved T k c) o w
    (fun o' r w' => r = (v_at o, k) /\ v_at o' = v_at o /\ holds (count T) o' k a others w')
    (fun o' w' => untouched o o' w w' /\ someone_throws w /\ ~ cannot_throw c)).
  eapply (emplace_wp _ o k0 a0 others k c a); eauto.
  - destruct (creator_nothrow c) eqn:Hc.
    + destruct Hg as [Hg|[Hc' _]]; auto. apply nothrow_iff in Hc. contradiction.
    + destruct Hg as [Hg|[_ Hg]]. { now apply gives_upd. } eapply gives_eqh; [|exact Hg]. apply H.
  - intros w' H'. cbn [v_at v_index]. split; [reflexivity|]. split; [reflexivity|].
    eapply (at_holds _ (Variant k (v_at o))); cbn [v_at v_index]; eauto.
  - intros w' Hc Hq H'. pose proof (at_same _ _ _ _ H H') as (S1 & S2).
    split; [split; [reflexivity|split; auto]|]. split; [now apply throws_dec|]. rewrite <- nothrow_iff. congruence.
Qed.

(** ** Copy and move construction *)
Lemma all_true (p : nat -> bool) k : all_alternatives T p = true -> k < count T -> p k = true.
Proof. unfold all_alternatives. rewrite forallb_forall. intros H Hk. apply H. apply in_seq. lia. Qed.
Lemma copy_construct_ends t k a (others : memory) (w : world) :
  holds (count T) t k a others w ->
  ends (copy_construct moved T t tt w)
    (fun _ o w' => two_variants (count T) t k a o k a others w')
    (fun _ w' => same (heap w') (heap w) /\ unused_names w' /\ someone_throws w /\ nothrow_copy T k = false).
Proof.
  intros Hh. pose proof (holds_at (~ someone_throws w) _ _ _ _ _ Hh (fun q => q)) as H. pose proof Hh as Hh'.
  destruct Hh as ((H1 & H2 & H3 & H4 & H5) & Hu).
  change (wp (copy_construct moved T t) tt w
    (fun _ o w' => two_variants (count T) t k a o k a others w')
    (fun _ w' => same (heap w') (heap w) /\ unused_names w' /\ someone_throws w /\ nothrow_copy T k = false)).
  unfold copy_construct. apply wp_noexcept_if. unfold copy_move. apply wp_bind. eapply wp_new_block; eauto.
  cbn [repeat]. intros w1 b Hb Hw1. assert (Hbt : b <> v_at t). { intros ->. now rewrite upd_same in Hb. }
  apply wp_bind. apply wp_visited; [congruence|]. rewrite H1. apply wp_bind, wp_rethrow.
  eapply wp_construct_member; eauto. { apply upd_same. }
  eapply (wp_create _ _ _ a); eauto. { cbn [gives]. rewrite upd_other by congruence. apply upd_same. }
  - intros w2 Hw2. eexists. split; [exact Hw2|]. split; [apply upd_same|]. intros w3 Hw3. apply wp_ret.
    eapply at_ext in Hw3; [|apply upd_upd]. destruct Hw3 as (E1 & E2 & _).
    exists (upd others (v_at t) (Some [Some (k, a)])). split; [|split].
    + split; [exact H1|]. split; [exact H2|]. split; [exact H3|]. split; [apply upd_same|]. intros x Hx. now apply upd_other.
    + split; [reflexivity|]. split; [exact H2|]. split; [exact Hb|]. cbn [v_at]. rewrite E1.
      split; [apply upd_same|]. intros x Hx. rewrite E1. now apply upd_other.
    + intros x Hx. rewrite E1. auto.
  - intros w2 Hn Hq Hw2. eapply (wp_deallocate _ b 1); eauto. { apply upd_same. }
    intros w3 Hw3. eapply at_ext in Hw3; [|eapply eqh_trans; [apply upd_upd|now apply upd_id]].
    pose proof (at_same _ _ _ _ H Hw3) as (S1 & S2). cbn [creator_nothrow] in Hn.
    split. { destruct (all_alternatives T (nothrow_copy T)) eqn:Ha; auto. rewrite (all_true _ k Ha) in Hn; auto. }
    split; [exact S1|]. split; [exact S2|]. split; [now apply throws_dec|]. exact Hn.
Qed.

Lemma move_construct_ends t k a (others : memory) (w : world) :
  holds (count T) t k a others w ->
  ends (move_construct moved T t tt w)
    (fun _ o w' => two_variants (count T) t k (moved a) o k a others w')
    (fun _ w' => same (heap w') (heap w) /\ unused_names w' /\ someone_throws w /\ nothrow_move T k = false).
Proof.
  intros Hh. pose proof (holds_at (~ someone_throws w) _ _ _ _ _ Hh (fun q => q)) as H. pose proof Hh as Hh'.
  destruct Hh as ((H1 & H2 & H3 & H4 & H5) & Hu).
  change (wp (move_construct moved T t) tt w
    (fun _ o w' => two_variants (count T) t k (moved a) o k a others w')
    (fun _ w' => same (heap w') (heap w) /\ unused_names w' /\ someone_throws w /\ nothrow_move T k = false)).
  unfold move_construct. apply wp_noexcept_if. unfold copy_move. apply wp_bind. eapply wp_new_block; eauto.
  cbn [repeat]. intros w1 b Hb Hw1. assert (Hbt : b <> v_at t). { intros ->. now rewrite upd_same in Hb. }
  apply wp_bind. apply wp_visited; [congruence|]. rewrite H1. apply wp_bind, wp_rethrow.
  eapply wp_construct_member; eauto. { apply upd_same. }
  eapply (wp_create_move _ _ _ _ _ a); eauto. { rewrite upd_other by congruence. apply upd_same. }
  - intros w2 Hw2. eexists. split; [exact Hw2|]. split. { rewrite upd_other by congruence. apply upd_same. }
    intros w3 Hw3. apply wp_ret. destruct Hw3 as (E1 & E2 & _).
    exists (upd others (v_at t) (Some [Some (k, moved a)])). split; [|split].
    + split; [exact H1|]. split; [exact H2|]. split; [exact H3|]. split; [apply upd_same|]. intros x Hx. now apply upd_other.
    + split; [reflexivity|]. split; [exact H2|]. cbn [v_at].
      split. { rewrite upd_other in Hb by assumption. now rewrite upd_other by assumption. }
      rewrite E1. split; [apply upd_same|]. intros x Hx. rewrite E1. unfold upd.
      apply Nat.eqb_neq in Hx. rewrite Hx. destruct (x =? v_at t); reflexivity.
    + intros x Hx. rewrite E1. auto.
  - intros w2 Hn Hq Hw2. eapply (wp_deallocate _ b 1); eauto. { apply upd_same. }
    intros w3 Hw3. eapply at_ext in Hw3; [|eapply eqh_trans; [apply upd_upd|now apply upd_id]].
    pose proof (at_same _ _ _ _ H Hw3) as (S1 & S2).
    split. { destruct (all_alternatives T (nothrow_move T)) eqn:Ha; auto. rewrite (all_true _ k Ha) in Hn; auto. }
    split; [exact S1|]. split; [exact S2|]. split; [now apply throws_dec|]. exact Hn.
Qed.

(** ** Assignment *)

(** [other] is any variant in the rest of the memory, or the variant itself. *)
Lemma assign_wp (quiet : Prop) o k0 a0 (others : memory) other j b (w : world) (Q : variant -> unit -> world -> Prop) (E : variant -> world -> Prop) :
  at_ quiet w (upd others (v_at o) (Some [Some (k0, a0)])) -> others (v_at o) = None -> v_index o = k0 -> k0 < count T ->
  v_index other = j -> j < count T ->
  (others (v_at other) = Some [Some (j, b)] \/ (other = o /\ b = a0)) ->
  (forall w', at_ quiet w' (upd others (v_at o) (Some [Some (j, b)])) -> Q (Variant j (v_at o)) tt w') ->
  (forall w', (if k0 =? j then nothrow_copy_assign T j else nothrow_copy T j) = false -> ~ quiet ->
     at_ quiet w' (upd others (v_at o) (Some [Some (k0, a0)])) -> E o w') ->
  wp (assign moved T other) o w Q E.
Proof.
  intros H Ho Hi Hk0 Hj Hjn Hs HQ HE. unfold assign. apply wp_bind, wp_get.
  apply wp_bind, wp_visited; [congruence|]. rewrite Hi. apply wp_bind, wp_visited; [congruence|]. rewrite Hj.
  assert (Hr : upd others (v_at o) (Some [Some (k0, a0)]) (v_at other) = Some [Some (j, b)]).
  { destruct Hs as [Hs|[-> ->]]. - rewrite upd_other; auto. congruence. - rewrite upd_same. congruence. }
  destruct (k0 =? j) eqn:Ek.
  - apply Nat.eqb_eq in Ek. apply wp_bind. eapply wp_member; eauto. { apply upd_same. }
    apply wp_bind. eapply wp_member; eauto. apply wp_bind. eapply wp_throws_unless; eauto.
    intros w' H'. eapply wp_set_member; eauto. { apply upd_same. } intros w'' H''.
    replace o with (Variant j (v_at o)) at 1 by (destruct o; cbn in *; congruence).
    apply HQ. eapply at_ext; [exact H''|]. rewrite Ek. apply upd_upd.
  - apply Nat.eqb_neq in Ek. apply wp_bind. eapply (emplace_wp _ o k0 a0 others j _ b); eauto.
    destruct Hs as [Hs|[-> _]]; [|congruence]. destruct (creator_nothrow _); cbn [gives]; auto.
Qed.
Lemma assign_ends o k0 a0 (others : memory) other j b (w : world) :
  holds (count T) o k0 a0 others w -> v_index other = j -> j < count T -> others (v_at other) = Some [Some (j, b)] ->
  ends (assign moved T other o w)
    (fun o' _ w' => v_at o' = v_at o /\ holds (count T) o' j b others w')
    (fun o' w' => untouched o o' w w' /\ someone_throws w /\ (if k0 =? j then nothrow_copy_assign T j else nothrow_copy T j) = false).
Proof.
  intros Hh Hj Hjn Hs. pose proof (holds_at (~ someone_throws w) _ _ _ _ _ Hh (fun q => q)) as H.
  destruct Hh as ((H1 & H2 & H3 & H4 & H5) & Hu).
  change (wp (assign moved T other) o w
    (fun o' _ w' => v_at o' = v_at o /\ holds (count T) o' j b others w')
    (fun o' w' => untouched o o' w w' /\ someone_throws w /\ (if k0 =? j then nothrow_copy_assign T j else nothrow_copy T j) = false)).
  eapply (assign_wp _ o k0 a0 others other j b); eauto.
  - intros w' H'. split; [reflexivity|]. eapply (at_holds _ (Variant j (v_at o))); cbn [v_at v_index]; eauto.
  - intros w' Hc Hq H'. pose proof (at_same _ _ _ _ H H') as (S1 & S2).
    split; [split; [reflexivity|split; auto]|]. split; [now apply throws_dec|]. exact Hc.
Qed.
Lemma copy_assign_ends o k0 a0 (others : memory) other j b (w : world) :
  holds (count T) o k0 a0 others w -> v_index other = j -> j < count T -> others (v_at other) = Some [Some (j, b)] ->
  ends (copy_assign moved T other o w)
    (fun o' _ w' => v_at o' = v_at o /\ holds (count T) o' j b others w')
    (fun o' w' => untouched o o' w w' /\ someone_throws w /\ (if k0 =? j then nothrow_copy_assign T j else nothrow_copy T j) = false).
Proof.
  intros Hh Hj Hjn Hs. pose proof (assign_ends o k0 a0 others other j b w Hh Hj Hjn Hs) as H.
  unfold copy_assign. unfold noexcept_if, noexcept. destruct (all_alternatives T (nothrow_copy_assign T) && all_alternatives T (nothrow_copy T)) eqn:Ha; auto.
  apply andb_true_iff in Ha as [Ha1 Ha2].
  unfold ends in *. destruct (assign moved T other o w); auto. destruct H as (_ & _ & H).
  rewrite (all_true _ j Ha1), (all_true _ j Ha2) in H by assumption. destruct (k0 =? j); discriminate.
Qed.
Lemma move_assign_ends o k0 a0 (others : memory) other j b (w : world) :
  holds (count T) o k0 a0 others w -> v_index other = j -> j < count T -> others (v_at other) = Some [Some (j, b)] ->
  ((forall i, i < count T -> nothrow_move_assign T i = true /\ nothrow_move T i = true) ->
   (if k0 =? j then nothrow_copy_assign T j else nothrow_copy T j) = true) ->
  ends (move_assign moved T other o w)
    (fun o' _ w' => v_at o' = v_at o /\ holds (count T) o' j b others w')
    (fun o' w' => untouched o o' w w' /\ someone_throws w /\ (if k0 =? j then nothrow_copy_assign T j else nothrow_copy T j) = false).
Proof.
  intros Hh Hj Hjn Hs Hc. pose proof (assign_ends o k0 a0 others other j b w Hh Hj Hjn Hs) as H.
  unfold move_assign. unfold noexcept_if, noexcept. destruct (all_alternatives T (nothrow_move_assign T) && all_alternatives T (nothrow_move T)) eqn:Ha; auto.
  apply andb_true_iff in Ha as [Ha1 Ha2]. rewrite Hc in H.
  - unfold ends in *. destruct (assign moved T other o w); auto. destruct H as (_ & _ & H). discriminate.
  - intros i Hi. split; now apply all_true.
Qed.
Lemma self_assign_ends o k0 a0 (others : memory) (w : world) :
  holds (count T) o k0 a0 others w ->
  ends (copy_assign moved T o o w)
    (fun o' _ w' => o' = o /\ holds (count T) o k0 a0 others w')
    (fun o' w' => untouched o o' w w' /\ someone_throws w).
Proof.
  intros Hh. pose proof (holds_at (~ someone_throws w) _ _ _ _ _ Hh (fun q => q)) as H.
  destruct Hh as ((H1 & H2 & H3 & H4 & H5) & Hu).
  change (wp (copy_assign moved T o) o w
    (fun o' _ w' => o' = o /\ holds (count T) o k0 a0 others w')
    (fun o' w' => untouched o o' w w' /\ someone_throws w)).
  apply wp_noexcept_if. eapply (assign_wp _ o k0 a0 others o k0 a0); eauto.
  - intros w' H'. split. { destruct o. cbn in *. congruence. } eapply at_holds; eauto.
  - intros w' Hc Hq H'. pose proof (at_same _ _ _ _ H H') as (S1 & S2). rewrite Nat.eqb_refl in Hc.
    split. { apply andb_false_iff. left. destruct (all_alternatives T (nothrow_copy_assign T)) eqn:Ha; auto.
             rewrite (all_true _ k0 Ha) in Hc; auto. }
    split; [split; [reflexivity|split; auto]|]. now apply throws_dec.
Qed.

(** Assignment of a value. *)
Lemma assign_value_wp (quiet : Prop) o k0 a0 (others : memory) t k c a nt (w : world) (Q : variant -> unit -> world -> Prop) (E : variant -> world -> Prop) :
  at_ quiet w (upd others (v_at o) (Some [Some (k0, a0)])) -> others (v_at o) = None -> v_index o = k0 -> k0 < count T ->
  the_alternative_of_type T t k -> gives others c a ->
  (forall w', at_ quiet w' (upd others (v_at o) (Some [Some (k, a)])) -> Q (Variant k (v_at o)) tt w') ->
  (forall w', (if k0 =? k then nt else creator_nothrow c) = false -> ~ quiet ->
     at_ quiet w' (upd others (v_at o) (Some [Some (k0, a0)])) -> E o w') ->
  wp (assign_value moved T t c nt) o w Q E.
Proof.
  intros H Ho Hi Hk0 Ht Hg HQ HE. unfold assign_value. apply wp_bind, wp_get.
  apply wp_bind, wp_visited; [congruence|]. rewrite Hi. pose proof Ht as (Hk & Hty & Huniq).
  destruct (type_of T k0 =? t) eqn:Et.
  - apply Nat.eqb_eq in Et. pose proof (Huniq _ Hk0 Et) as Ek. rewrite Ek in *. rewrite Nat.eqb_refl in HE.
    apply wp_bind. eapply wp_member; eauto. { apply upd_same. }
    apply wp_bind. eapply (wp_create _ _ _ a); eauto.
    + destruct c as [nt' a'|nt' p i|nt' p i]; cbn [gives] in *; auto. rewrite upd_other; auto. congruence.
    + intros w' H'. eapply wp_set_member; eauto. { apply upd_same. } intros w'' H''.
      replace o with (Variant k (v_at o)) at 1 by (destruct o; cbn in *; congruence).
      apply HQ. eapply at_ext; [exact H''|]. apply upd_upd.
    + intros w' Hn Hq H'. apply HE; auto. destruct c; exact Hn.
  - apply Nat.eqb_neq in Et. rewrite (the_alternative_index T t k Ht).
    assert (Ek : (k0 =? k) = false). { apply Nat.eqb_neq. congruence. } rewrite Ek in HE.
    apply wp_bind. eapply (wp_emplace_impl _ _ _ _ a k0 a0); eauto.
    + intros h w' Q' E' H' Hh HQ'. apply wp_bind, wp_get. eapply wp_destroy_member; eauto.
    + destruct (creator_nothrow c); auto. now apply gives_upd.
Qed.
Lemma assign_value_ends o k0 a0 (others : memory) t k c a nt (w : world) :
  holds (count T) o k0 a0 others w -> the_alternative_of_type T t k -> gives others c a ->
  ends (assign_value moved T t c nt o w)
    (fun o' _ w' => v_at o' = v_at o /\ holds (count T) o' k a others w')
    (fun o' w' => untouched o o' w w' /\ someone_throws w /\ (if k0 =? k then nt = false else ~ cannot_throw c)).
Proof.
  intros Hh Ht Hg. pose proof (holds_at (~ someone_throws w) _ _ _ _ _ Hh (fun q => q)) as H.
  destruct Hh as ((H1 & H2 & H3 & H4 & H5) & Hu).
  change (wp (assign_value moved T t c nt) o w
    (fun o' _ w' => v_at o' = v_at o /\ holds (count T) o' k a others w')
    (fun o' w' => untouched o o' w w' /\ someone_throws w /\ (if k0 =? k then nt = false else ~ cannot_throw c))).
  eapply (assign_value_wp _ o k0 a0 others t k c a); eauto.
  - intros w' H'. split; [reflexivity|]. eapply (at_holds _ (Variant k (v_at o))); cbn [v_at v_index]; eauto. apply Ht.
  - intros w' Hc Hq H'. pose proof (at_same _ _ _ _ H H') as (S1 & S2).
    split; [split; [reflexivity|split; auto]|]. split; [now apply throws_dec|].
    destruct (k0 =? k); auto. rewrite <- nothrow_iff. congruence.
Qed.

(** ** Observers *)
Lemma subscript_ends o k a (others : memory) j (w : world) :
  holds (count T) o k a others w -> subscript j o w = if k =? j then Ret o a w else Bad Dead.
Proof.
  intros ((H1 & H2 & H3 & H4 & H5) & Hu). unfold subscript, bind, get, member, bind, load, find_cell. rewrite H4. cbn.
  destruct (k =? j); reflexivity.
Qed.
Lemma equals_ends t k a o j b (others : memory) (w : world) :
  two_variants (count T) t k a o j b others w ->
  equals T t o tt w = Ret tt (if k =? j then equal T k a b else false) w.
Proof.
  intros (mid & (H1 & H2 & H3 & H4 & H5) & (G1 & G2 & G3 & G4 & G5) & Hu).
  assert (Hne : v_at t <> v_at o) by congruence.
  unfold equals, bind, visited. rewrite H1, G1. rewrite !visit_one_finds by assumption. cbn.
  unfold member, bind, load, find_cell. rewrite (G5 _ Hne), H4. cbn. rewrite !Nat.eqb_refl. cbn.
  rewrite G4. cbn. rewrite !Nat.eqb_refl. reflexivity.
Qed.
Lemma equals_value_ends o k a t b (others : memory) (w : world) :
  holds (count T) o k a others w ->
  equals_value T o t b tt w = Ret tt (if type_of T k =? t then equal T k a b else false) w.
Proof.
  intros ((H1 & H2 & H3 & H4 & H5) & Hu).
  unfold equals_value, bind, visited. rewrite H1. rewrite !visit_one_finds by assumption. cbn.
  unfold member, bind, load, find_cell. rewrite H4. cbn. rewrite !Nat.eqb_refl. reflexivity.
Qed.

(** ** Histories *)
Lemma perform_ends c o k a (others : memory) (w : world) :
  holds (count T) o k a others w -> allowed T others c ->
  ends (perform moved T c o w)
    (fun o' _ w' => v_at o' = v_at o /\ holds (count T) o' (fst (after c)) (snd (after c)) others w')
    (fun o' w' => o' = o /\ holds (count T) o k a others w' /\ someone_throws w).
Proof.
  intros Hh Hal.
  assert (Hun : forall o' w', untouched o o' w w' -> o' = o /\ holds (count T) o k a others w').
  { intros o' w' (-> & S1 & S2). split; [reflexivity|]. destruct Hh as ((H1 & H2 & H3 & H4 & H5) & Hu).
    split; auto. repeat split; auto. - now rewrite S1. - intros b Hb. rewrite S1. auto. }
  destruct c as [j c b|t j c b nt|other j b]; cbn [allowed after perform fst snd] in *.
  - destruct Hal as [Hj Hg]. pose proof (emplace_ends o k a others j c b w Hh Hj (or_introl Hg)) as H.
    unfold bind, ends in *. destruct (emplace moved T j c o w); auto.
    + destruct H as (_ & H). exact H.
    + destruct H as (H & H' & _). apply Hun in H. tauto.
  - destruct Hal as [Hj Hg]. pose proof (assign_value_ends o k a others t j c b nt w Hh Hj Hg) as H.
    unfold ends in *. destruct (assign_value moved T t c nt o w); auto. destruct H as (H & H' & _). apply Hun in H. tauto.
  - destruct Hal as (Hi & Hj & Hs). pose proof (copy_assign_ends o k a others other j b w Hh Hi Hj Hs) as H.
    unfold ends in *. destruct (copy_assign moved T other o w); auto. destruct H as (H & H' & _). apply Hun in H. tauto.
Qed.
Lemma program_ends cs o k a (others : memory) (w : world) :
  holds (count T) o k a others w -> Forall (allowed T others) cs ->
  ends (program moved T cs o w)
    (fun o' _ w' => v_at o' = v_at o /\ exists s, led_to cs (k, a) s /\ holds (count T) o' (fst s) (snd s) others w')
    (fun _ _ => False).
Proof.
  revert o k a w. induction cs as [|c cs IH]; intros o k a w Hh Hall; cbn [program].
  - cbn. split; [reflexivity|]. exists (k, a). split; [constructor|exact Hh].
  - inversion Hall as [|? ? Hc Hcs]; subst. pose proof (perform_ends c o k a others w Hh Hc) as H.
    unfold ends in H. destruct (perform moved T c o w) as [o1 u w1|o1 w1|f]; [| |contradiction].
    + destruct H as (Hv & H). pose proof (IH o1 _ _ w1 H Hcs) as IH'.
      unfold ends in *. destruct (program moved T cs o1 w1); auto. destruct IH' as (Hv' & s & Hs & Hs').
      split; [congruence|]. exists s. split; [|exact Hs']. apply led_effect. now rewrite surjective_pairing with (p := after c).
    + destruct H as (-> & H & _). pose proof (IH o _ _ w1 H Hcs) as IH'.
      unfold ends in *. destruct (program moved T cs o w1); auto. destruct IH' as (Hv' & s & Hs & Hs').
      split; [congruence|]. exists s. split; [|exact Hs']. now apply led_nothing.
Qed.

End Proofs.
