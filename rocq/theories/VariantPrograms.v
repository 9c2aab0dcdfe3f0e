(** * Proofs about programs with several variants *)

From Coq Require Import List Arith Bool Lia.
From Verif Require Import Mem MemLemmas Variant SpecVec SpecSeveral Several SpecVariant VariantLemmas VariantProofs SpecVariantPrograms.
Import ListNotations.

Section Proofs.
Context {A : Type} (moved : A -> A) (T : types A) (q : Prop).
Local Notation V := (nat * A)%type.
Local Notation M := (M V).
Local Notation world := (world V).
Local Notation state := (nat * A)%type.
Local Notation memory := (@memory V).
Local Notation at_ := (at_ q).
Local Notation variant_in := (variant_in (A := A) T).
Local Notation cell l := (Some [Some l]).

(** ** One variant in memory *)
Lemma in_parts o l (r m : memory) : variant_in o l r m ->
  v_index o = fst l /\ fst l < count T /\ r (v_at o) = None /\ eqh m (upd r (v_at o) (cell l)).
Proof.
  intros (H1 & H2 & H3 & H4 & H5). rewrite <- surjective_pairing in H4. repeat split; auto. intros x. unfold upd.
  destruct (Nat.eqb_spec x (v_at o)) as [->|Hx]; auto.
Qed.
Lemma in_intro o l (r m : memory) : v_index o = fst l -> fst l < count T -> r (v_at o) = None -> eqh m (upd r (v_at o) (cell l)) ->
  variant_in o l r m.
Proof.
  intros H1 H2 H3 H4. split; auto. split; auto. split; auto. split.
  - rewrite H4, upd_same. now destruct l.
  - intros b Hb. rewrite H4. now apply upd_other.
Qed.
Lemma in_same o l (r m m' : memory) : same m m' -> variant_in o l r m -> variant_in o l r m'.
Proof.
  intros Hs H. apply in_parts in H as (H1 & H2 & H3 & H4). apply in_intro; auto. intros x. now rewrite <- Hs.
Qed.
Lemma in_swap o l t u (others mid m : memory) :
  variant_in o l mid m -> variant_in t u others mid -> exists mid', variant_in t u mid' m /\ variant_in o l others mid'.
Proof.
  intros Ho Ht. apply in_parts in Ho as (H1 & H2 & H3 & H4). apply in_parts in Ht as (G1 & G2 & G3 & G4).
  assert (Hne : v_at o <> v_at t). { intros E. rewrite G4, E, upd_same in H3. discriminate. }
  exists (upd others (v_at o) (cell l)). split; apply in_intro; auto.
  - rewrite upd_other by congruence. auto.
  - intros x. rewrite H4. unfold upd. destruct (Nat.eqb_spec x (v_at o)) as [->|Hx].
    + destruct (Nat.eqb_spec (v_at o) (v_at t)); [contradiction|reflexivity].
    + rewrite G4. unfold upd. reflexivity.
  - rewrite G4, upd_other in H3 by assumption. exact H3.
  - intros x. reflexivity.
Qed.
Lemma in_cell o l (r m : memory) : variant_in o l r m -> m (v_at o) = cell l.
Proof. intros H. apply in_parts in H as (_ & _ & _ & H). now rewrite H, upd_same. Qed.

Definition here (os : list variant) (ls : list state) (others : memory) (w : world) : Prop :=
  exists h, at_ w h /\ several_in variant_in os ls others h.

(** ** What a construct function does to the memory *)
Definition makes (h : memory) (c : @creator A) (a : A) (h' : memory) : Prop :=
  match c with
  | Make _ a' => a' = a /\ eqh h' h
  | CopyFrom _ p k => h p = cell (k, a) /\ eqh h' h
  | MoveFrom _ p k => h p = cell (k, a) /\ eqh h' (upd h p (cell (k, moved a)))
  end.
Lemma eqh_sym (h h' : memory) : eqh h h' -> eqh h' h.
Proof. intros H b. symmetry. apply H. Qed.
Lemma upd_comm (h : memory) b b' x y : b <> b' -> eqh (upd (upd h b x) b' y) (upd (upd h b' y) b x).
Proof. intros Hb c. unfold upd. destruct (Nat.eqb_spec c b'), (Nat.eqb_spec c b); auto. congruence. Qed.
Lemma upd_eqh (h h' : memory) b x : eqh h h' -> eqh (upd h b x) (upd h' b x).
Proof. intros E c. unfold upd. destruct (c =? b); auto. Qed.
Lemma makes_upd (h h' : memory) c a b x : makes h c a h' -> (match c with Make _ _ => True | CopyFrom _ p _ | MoveFrom _ p _ => p <> b end) ->
  makes (upd h b x) c a (upd h' b x).
Proof.
  destruct c as [nt a'|nt p k|nt p k]; cbn; intros [H1 H2] Hb; (split; [rewrite ?upd_other; auto|]).
  - now apply upd_eqh.
  - now apply upd_eqh.
  - intros y. rewrite (upd_eqh _ _ b x H2 y). apply upd_comm. auto.
Qed.
Lemma makes_upd_new (h h' : memory) c a b x : makes h c a h' -> h b = None -> makes (upd h b x) c a (upd h' b x).
Proof. intros Hm Hb. apply makes_upd; auto. destruct c as [nt a'|nt p k|nt p k]; auto; intros ->; destruct Hm; congruence. Qed.
Lemma makes_new (h h' : memory) c a b : makes h c a h' -> h b = None -> h' b = None.
Proof.
  destruct c as [nt a'|nt p k|nt p k]; cbn; intros [H1 H2] Hb; rewrite H2; auto.
  rewrite upd_other; auto. congruence.
Qed.
Lemma wp_create_gen {X} c a (h h' : memory) (x : X) (w : world) (Q : X -> A -> world -> Prop) (E : X -> world -> Prop) :
  at_ w h -> makes h c a h' -> (forall w', at_ w' h' -> Q x a w') ->
  (forall w', creator_nothrow c = false -> ~ q -> at_ w' h -> E x w') -> wp (create moved c) x w Q E.
Proof.
  intros H Hm HQ HE. destruct c as [nt a'|nt p k|nt p k]; cbn in Hm; destruct Hm as [H1 H2].
  - subst a'. eapply (wp_create _ _ _ a); eauto; try reflexivity. intros w' H'. apply HQ. eapply at_ext; [exact H'|now apply eqh_sym].
  - eapply (wp_create _ _ (CopyFrom nt p k) a); [exact H|exact H1| |exact HE]. intros w' H'. apply HQ. eapply at_ext; [exact H'|now apply eqh_sym].
  - eapply (wp_create_move _ _ _ _ _ a); eauto. intros w' H'. apply HQ. eapply at_ext; [exact H'|now apply eqh_sym].
Qed.

(** ** Construction *)
Lemma fresh_member {X} k c a (h h' : memory) (x : X) (w : world) (Q : X -> nat -> world -> Prop) (E : X -> world -> Prop) :
  at_ w h -> makes h c a h' ->
  (forall w' b, h b = None -> h' b = None -> at_ w' (upd h' b (cell (k, a))) -> Q x b w') ->
  (forall w', creator_nothrow c = false -> ~ q -> at_ w' h -> E x w') ->
  wp (bind (new_block 1) (fun b => bind (rethrow_after (construct_member b k (create moved c)) (deallocate (Some b) 1)) (fun _ => ret b))) x w Q E.
Proof.
  intros H Hm HQ HE. apply wp_bind. eapply wp_new_block; eauto. cbn [repeat]. intros w1 b Hb H1.
  pose proof (makes_new _ _ _ _ _ Hm Hb) as Hb'.
  apply wp_bind, wp_rethrow. eapply wp_construct_member; eauto. { apply upd_same. }
  eapply wp_create_gen; [exact H1|apply (makes_upd_new _ _ _ _ _ _ Hm Hb)| |].
  - intros w2 H2. eexists. split; [exact H2|]. split; [apply upd_same|]. intros w3 H3. apply wp_ret. apply HQ; auto.
    eapply at_ext; [exact H3|]. apply upd_upd.
  - intros w2 Hn Hq H2. eapply (wp_deallocate _ b 1); eauto. { apply upd_same. }
    intros w3 H3. apply HE; auto. eapply at_ext; [exact H3|]. eapply eqh_trans; [apply upd_upd|now apply upd_id].
Qed.
Lemma construct_gen k c a (h h' : memory) (w : world) : at_ w h -> makes h c a h' -> k < count T ->
  wp (construct moved k c) tt w
    (fun _ o w' => exists hh, at_ w' hh /\ variant_in o (k, a) h' hh)
    (fun _ w' => at_ w' h /\ creator_nothrow c = false /\ ~ q).
Proof.
  intros H Hm Hk. unfold construct. apply wp_bind. eapply wp_new_block; eauto. cbn [repeat]. intros w1 b Hb H1.
  pose proof (makes_new _ _ _ _ _ Hm Hb) as Hb'.
  apply wp_bind, wp_rethrow. eapply wp_construct_member; eauto. { apply upd_same. }
  eapply wp_create_gen; [exact H1|apply (makes_upd_new _ _ _ _ _ _ Hm Hb)| |].
  - intros w2 H2. eexists. split; [exact H2|]. split; [apply upd_same|]. intros w3 H3. apply wp_ret. eexists. split; [exact H3|].
    apply in_intro; auto. cbn. apply upd_upd.
  - intros w2 Hn Hq H2. eapply (wp_deallocate _ b 1); eauto. { apply upd_same. }
    intros w3 H3. split; auto. eapply at_ext; [exact H3|]. eapply eqh_trans; [apply upd_upd|now apply upd_id].
Qed.
Lemma copy_move_gen creates t k a (h h' : memory) (w : world) : at_ w h -> v_index t = k -> k < count T -> makes h (creates k) a h' ->
  wp (copy_move moved T creates t) tt w
    (fun _ o w' => exists hh, at_ w' hh /\ variant_in o (k, a) h' hh)
    (fun _ w' => at_ w' h /\ creator_nothrow (creates k) = false /\ ~ q).
Proof.
  intros H Hi Hk Hm. unfold copy_move. apply wp_bind. eapply wp_new_block; eauto. cbn [repeat]. intros w1 b Hb H1.
  pose proof (makes_new _ _ _ _ _ Hm Hb) as Hb'. apply wp_bind. apply wp_visited; [congruence|]. rewrite Hi.
  apply wp_bind, wp_rethrow. eapply wp_construct_member; eauto. { apply upd_same. }
  eapply wp_create_gen; [exact H1|apply (makes_upd_new _ _ _ _ _ _ Hm Hb)| |].
  - intros w2 H2. eexists. split; [exact H2|]. split; [apply upd_same|]. intros w3 H3. apply wp_ret. eexists. split; [exact H3|].
    apply in_intro; auto. cbn. apply upd_upd.
  - intros w2 Hn Hq H2. eapply (wp_deallocate _ b 1); eauto. { apply upd_same. }
    intros w3 H3. split; auto. eapply at_ext; [exact H3|]. eapply eqh_trans; [apply upd_upd|now apply upd_id].
Qed.
Lemma copy_construct_gen t l (rest h : memory) (w : world) : at_ w h -> variant_in t l rest h ->
  wp (copy_construct moved T t) tt w
    (fun _ o w' => exists hh, at_ w' hh /\ variant_in o l h hh)
    (fun _ w' => at_ w' h /\ nothrow_copy T (fst l) = false /\ ~ q).
Proof.
  intros H Ht. pose proof (in_cell _ _ _ _ Ht) as Hc. apply in_parts in Ht as (H1 & H2 & H3 & H4). unfold copy_construct. apply wp_noexcept_if.
  eapply wp_conseq; [apply (copy_move_gen _ t (fst l) (snd l) h h w H H1 H2)| |]; cbv beta.
  - cbn. split; [now destruct l|intros b; reflexivity].
  - intros _ o w' (hh & H' & Hi). exists hh. split; auto.
  - cbn. intros _ w' (H' & Hn & Hq). split; auto. destruct (all_alternatives T (nothrow_copy T)) eqn:E; auto.
    rewrite (all_true T _ (fst l) E) in Hn; auto.
Qed.
Lemma move_construct_gen t l (rest h : memory) (w : world) : at_ w h -> variant_in t l rest h ->
  wp (move_construct moved T t) tt w
    (fun _ o w' => exists hh, at_ w' hh /\ variant_in o l (upd rest (v_at t) (cell (fst l, moved (snd l)))) hh)
    (fun _ w' => at_ w' h /\ nothrow_move T (fst l) = false /\ ~ q).
Proof.
  intros H Ht. pose proof (in_cell _ _ _ _ Ht) as Hc. apply in_parts in Ht as (H1 & H2 & H3 & H4). unfold move_construct. apply wp_noexcept_if.
  eapply wp_conseq; [apply (copy_move_gen _ t (fst l) (snd l) h (upd rest (v_at t) (cell (fst l, moved (snd l)))) w H H1 H2)| |]; cbv beta.
  - cbn. split; [now destruct l|]. intros b. rewrite (upd_eqh _ _ (v_at t) (cell (fst l, moved (snd l))) H4 b). symmetry. apply upd_upd.
  - intros _ o w' (hh & H' & Hi). exists hh. split; auto.
  - cbn. intros _ w' (H' & Hn & Hq). split; auto. destruct (all_alternatives T (nothrow_move T)) eqn:E; auto.
    rewrite (all_true T _ (fst l) E) in Hn; auto.
Qed.
Lemma destruct_gen o l (rest h : memory) (w : world) : at_ w h -> variant_in o l rest h ->
  wp (destruct T) o w (fun _ _ w' => at_ w' rest) (fun _ _ => False).
Proof.
  intros H Ho. apply in_parts in Ho as (H1 & H2 & H3 & H4). eapply at_ext in H; [|exact H4].
  unfold destruct. apply wp_bind. eapply (wp_destroy_active T q (fst l) (snd l)); eauto. { rewrite upd_same. now destruct l. }
  intros w1 Hw1. apply wp_bind, wp_get. eapply (wp_deallocate _ (v_at o) 1); eauto. { apply upd_same. }
  intros w2 Hw2. eapply at_ext; [exact Hw2|].
  eapply eqh_trans; [apply upd_upd|]. eapply eqh_trans; [apply upd_upd|]. now apply upd_id.
Qed.

(** ** emplace *)
Lemma emplace_impl_gen k c a l destroy_old (rest h h' : memory) o (w : world) :
  at_ w h -> variant_in o l rest h -> k < count T ->
  (forall (h : memory) x w' (Q' : variant -> unit -> world -> Prop) E', at_ w' h -> h (v_at o) = cell (fst l, x) ->
     (forall w'', at_ w'' (upd h (v_at o) (Some [None])) -> Q' o tt w'') -> wp destroy_old o w' Q' E') ->
  (if creator_nothrow c then makes rest c a h' else exists x, makes h c a (upd h' (v_at o) (cell (fst l, x)))) ->
  h' (v_at o) = None ->
  wp (emplace_impl moved k c destroy_old) o w
    (fun o' _ w' => exists hh, at_ w' hh /\ variant_in o' (k, a) h' hh)
    (fun o' w' => creator_nothrow c = false /\ ~ q /\ o' = o /\ at_ w' h).
Proof.
  intros H Ho Hk Hd Hm Hh'. pose proof (in_cell _ _ _ _ Ho) as Hc. apply in_parts in Ho as (H1 & H2 & H3 & H4).
  unfold emplace_impl. destruct (creator_nothrow c) eqn:Hn.
  - apply wp_bind. eapply (Hd _ (snd l)); eauto. { now destruct l. } intros w1 Hw1.
    assert (Hw1' : at_ w1 (upd rest (v_at o) (Some [None]))).
    { eapply at_ext; [exact Hw1|]. eapply eqh_trans; [apply upd_eqh, H4|apply upd_upd]. }
    eapply wp_replace; eauto. { apply upd_same. }
    eapply wp_create_gen; [exact Hw1'|apply (makes_upd_new _ _ _ _ _ _ Hm H3)| |].
    + intros w2 Hw2. eexists. split; [exact Hw2|]. split; [apply upd_same|]. split; [reflexivity|].
      intros w3 Hw3. eexists. split; [exact Hw3|]. apply in_intro; auto. cbn. apply upd_upd.
    + intros. congruence.
  - destruct Hm as (x & Hm). apply wp_local. unfold single_element_storage.
    eapply (fresh_member k c a h); eauto.
    intros w1 b Hb Hb1 Hw1.
    assert (Hbo : b <> v_at o) by congruence.
    assert (Hb' : h' b = None). { now rewrite upd_other in Hb1. }
    apply wp_bind. apply wp_fst. cbn [fst snd]. eapply (Hd _ x); [exact Hw1| |]. { rewrite upd_other by congruence. apply upd_same. }
    intros w2 Hw2. apply wp_bind, wp_get. apply wp_fst. cbn [fst snd].
    eapply wp_replace; eauto. { apply upd_same. }
    apply wp_bind. eapply (wp_relocate _ b 0 [] []); eauto. { rewrite upd_other by congruence. apply upd_same. }
    intros w3 Hw3. apply wp_ret. cbn [snd]. eexists. split; [exact Hw3|].
    split. { rewrite upd_other by congruence. apply upd_same. } split; [reflexivity|]. intros w4 Hw4.
    cbn [fst snd]. unfold end_of_storage. apply wp_bind, wp_get. eapply (wp_deallocate _ b 1); eauto.
    { rewrite upd_other by congruence. apply upd_same. }
    intros w5 Hw5. eexists. split; [exact Hw5|]. apply in_intro; auto. cbn [v_at].
    intros y. unfold upd. destruct (Nat.eqb_spec y b) as [E1|E1]; destruct (Nat.eqb_spec y (v_at o)) as [E2|E2]; auto; try congruence.
    now rewrite E1, Hb'.
Qed.
Lemma emplace_gen k c a l (rest h h' : memory) o (w : world) :
  at_ w h -> variant_in o l rest h -> k < count T ->
  (if creator_nothrow c then makes rest c a h' else exists x, makes h c a (upd h' (v_at o) (cell (fst l, x)))) ->
  h' (v_at o) = None ->
  wp (emplace moved T k c) o w
    (fun o' _ w' => exists hh, at_ w' hh /\ variant_in o' (k, a) h' hh)
    (fun o' w' => creator_nothrow c = false /\ ~ q /\ o' = o /\ at_ w' h).
Proof.
  intros H Ho Hk Hm Hh'. unfold emplace. eapply emplace_impl_gen; eauto. pose proof Ho as (H1 & H2 & _).
  intros h0 x w' Q' E' H' Hh HQ'. eapply wp_destroy_active; eauto.
Qed.

(** ** Assignment *)
Definition elsewhere (c : @creator A) (p : nat) : Prop :=
  match c with Make _ _ => True | CopyFrom _ p' _ | MoveFrom _ p' _ => p' <> p end.
Lemma makes_eqh (h h1 g g1 : memory) c a : makes h c a h1 -> eqh h g -> eqh h1 g1 -> makes g c a g1.
Proof.
  intros Hm E E1. destruct c as [nt a'|nt p k|nt p k]; cbn in *; destruct Hm as [H1 H2]; (split; [rewrite <- ?E; auto|]); intros x; rewrite <- E1, H2.
  - apply E.
  - apply E.
  - now apply upd_eqh.
Qed.
Lemma makes_rest c a o l x (rest h rest1 h1 : memory) : makes h c a h1 -> variant_in o l rest h ->
  eqh h1 (upd rest1 (v_at o) (cell (fst l, x))) -> rest1 (v_at o) = None -> elsewhere c (v_at o) -> makes rest c a rest1.
Proof.
  intros Hm Ho E1 Hr He. apply in_parts in Ho as (H1 & H2 & H3 & H4).
  eapply makes_eqh; [apply (makes_upd _ _ _ _ (v_at o) None Hm He)| |].
  - eapply eqh_trans; [apply upd_eqh, H4|]. eapply eqh_trans; [apply upd_upd|]. now apply upd_id.
  - eapply eqh_trans; [apply upd_eqh, E1|]. eapply eqh_trans; [apply upd_upd|]. now apply upd_id.
Qed.
Lemma emplace_any k c a l x (rest h rest1 h1 : memory) o (w : world) :
  at_ w h -> variant_in o l rest h -> k < count T -> makes h c a h1 ->
  eqh h1 (upd rest1 (v_at o) (cell (fst l, x))) -> rest1 (v_at o) = None -> (creator_nothrow c = true -> elsewhere c (v_at o)) ->
  wp (emplace moved T k c) o w
    (fun o' _ w' => exists hh, at_ w' hh /\ variant_in o' (k, a) rest1 hh)
    (fun o' w' => creator_nothrow c = false /\ ~ q /\ o' = o /\ at_ w' h).
Proof.
  intros H Ho Hk Hm E1 Hr He. eapply emplace_gen; eauto. destruct (creator_nothrow c).
  - eapply makes_rest; eauto.
  - exists x. eapply makes_eqh; [exact Hm| |exact E1]. intros y; reflexivity.
Qed.
Lemma assign_value_gen t k c a nt l x (rest h rest1 h1 : memory) o (w : world) :
  at_ w h -> variant_in o l rest h -> the_alternative_of_type T t k -> makes h c a h1 ->
  eqh h1 (upd rest1 (v_at o) (cell (fst l, x))) -> rest1 (v_at o) = None -> (fst l <> k -> elsewhere c (v_at o)) ->
  wp (assign_value moved T t c nt) o w
    (fun o' _ w' => exists hh, at_ w' hh /\ variant_in o' (k, a) rest1 hh)
    (fun o' w' => (if fst l =? k then nt else creator_nothrow c) = false /\ ~ q /\ o' = o /\ at_ w' h).
Proof.
  intros H Ho Ht Hm E1 Hr He. pose proof (in_cell _ _ _ _ Ho) as Hc. pose proof Ho as (Hi & Hk0 & _).
  unfold assign_value. apply wp_bind, wp_get. apply wp_bind, wp_visited; [congruence|]. rewrite Hi. pose proof Ht as (Hk & Hty & Huniq).
  destruct (Nat.eqb_spec (type_of T (fst l)) t) as [Et|Et].
  - pose proof (Huniq _ Hk0 Et) as Ek. rewrite Ek, Nat.eqb_refl. rewrite Ek in *.
    apply wp_bind. eapply (wp_member q (v_at o) k (snd l)); eauto. { rewrite Hc. rewrite <- Ek. now destruct l. }
    apply wp_bind. eapply (wp_create_gen _ a h h1); eauto.
    + destruct c; exact Hm.
    + intros w' H'. eapply (wp_set_member q (v_at o) k x); eauto. { now rewrite E1, upd_same. } intros w'' H''. eexists. split; [exact H''|].
      apply in_intro; auto. intros y. rewrite (upd_eqh _ _ (v_at o) (cell (k, a)) E1 y). apply upd_upd.
    + intros w' Hn Hq H'. destruct c; auto.
  - assert (Ek : fst l <> k) by congruence. destruct (Nat.eqb_spec (fst l) k); [contradiction|]. rewrite (the_alternative_index T t k Ht).
    apply wp_bind. eapply wp_conseq; [eapply (emplace_impl_gen k c a l _ rest h rest1); eauto| |]; cbv beta.
    + intros h0 y w' Q' E' H' Hh HQ'. apply wp_bind, wp_get. eapply wp_destroy_member; eauto.
    + destruct (creator_nothrow c). { eapply makes_rest; eauto. } exists x. eapply makes_eqh; [exact Hm| |exact E1]. intros y; reflexivity.
    + intros o' _ w' Hx. apply wp_ret. exact Hx.
    + auto.
Qed.

Definition readable_at (t : variant) (u : state) (o : variant) (l : state) (rest : memory) : Prop :=
  v_index t = fst u /\ fst u < count T /\ (rest (v_at t) = cell u \/ (t = o /\ u = l)).
Lemma assign_gen o l t u (rest h : memory) (w : world) : at_ w h -> variant_in o l rest h -> readable_at t u o l rest ->
  wp (assign moved T t) o w
    (fun o' _ w' => exists hh, at_ w' hh /\ variant_in o' u rest hh)
    (fun o' w' => assigns_safely T (fst l) (fst u) = false /\ ~ q /\ o' = o /\ at_ w' h).
Proof.
  intros H Ho (Hi & Hu & Ht). apply in_parts in Ho as (H1 & H2 & H3 & H4).
  eapply (assign_wp moved T q o (fst l) (snd l) rest t (fst u) (snd u)); auto.
  - eapply at_ext; [exact H|]. eapply eqh_trans; [exact H4|]. destruct l. intros y; reflexivity.
  - destruct Ht as [Ht|[-> ->]]; auto. left. rewrite Ht. now destruct u.
  - intros w' H'. eexists. split; [exact H'|]. apply in_intro; auto. cbn. destruct u. intros y; reflexivity.
  - intros w' Hn Hq H'. split; auto. split; auto. split; auto. eapply at_ext; [exact H'|]. eapply eqh_trans; [|apply eqh_sym, H4]. destruct l. intros y; reflexivity.
Qed.
Lemma copy_assign_gen o l t u (rest h : memory) (w : world) : at_ w h -> variant_in o l rest h -> readable_at t u o l rest ->
  wp (copy_assign moved T t) o w
    (fun o' _ w' => exists hh, at_ w' hh /\ variant_in o' u rest hh)
    (fun o' w' => assigns_safely T (fst l) (fst u) = false /\ ~ q /\ o' = o /\ at_ w' h).
Proof.
  intros H Ho Ht. unfold copy_assign. apply wp_noexcept_if. eapply wp_conseq; [apply (assign_gen o l t u rest h w H Ho Ht)| |]; cbv beta; auto.
  intros o' w' (Hn & Hx). split; auto. destruct Ht as (_ & Hu & _). unfold assigns_safely in Hn.
  destruct (all_alternatives T (nothrow_copy_assign T)) eqn:E1, (all_alternatives T (nothrow_copy T)) eqn:E2; auto.
  rewrite (all_true T _ (fst u) E1), (all_true T _ (fst u) E2) in Hn by assumption. destruct (fst l =? fst u); discriminate.
Qed.
Lemma move_assign_gen o l t u (rest h : memory) (w : world) : at_ w h -> variant_in o l rest h -> readable_at t u o l rest ->
  survives T (fst l) (fst u) = true ->
  wp (move_assign moved T t) o w
    (fun o' _ w' => exists hh, at_ w' hh /\ variant_in o' u rest hh)
    (fun o' w' => assigns_safely T (fst l) (fst u) = false /\ ~ q /\ o' = o /\ at_ w' h).
Proof.
  intros H Ho Ht Hs. unfold move_assign. apply wp_noexcept_if. eapply wp_conseq; [apply (assign_gen o l t u rest h w H Ho Ht)| |]; cbv beta; auto.
  intros o' w' (Hn & Hx). split; auto. unfold survives in Hs. unfold all_alternatives.
  destruct (forallb (nothrow_move_assign T) (seq 0 (count T)) && forallb (nothrow_move T) (seq 0 (count T))); auto. congruence.
Qed.
Lemma in_elsewhere o l t u (rest mid m : memory) : variant_in o l mid m -> variant_in t u rest mid -> v_at o <> v_at t /\ mid (v_at t) = cell u.
Proof.
  intros Ho Ht. pose proof (in_cell _ _ _ _ Ht) as Hc. apply in_parts in Ho as (_ & _ & H & _). split; auto. congruence.
Qed.
Lemma in_readable t u o l (r1 r2 rest : memory) : variant_in t u r1 r2 -> rest (v_at t) = cell u -> readable_at t u o l rest.
Proof. intros (H1 & H2 & _) Hr. split; auto. Qed.

Lemma swap_gen o l t u (rest mid h : memory) (w : world) : at_ w h -> variant_in o l mid h -> variant_in t u rest mid ->
  survives T (fst l) (fst u) = true -> survives T (fst u) (fst l) = true ->
  wp (swap moved T) (o, t) w
    (fun p _ w' => exists hh mm, at_ w' hh /\ variant_in (fst p) u mm hh /\ variant_in (snd p) l rest mm)
    (fun p w' => ~ q /\ exists l' hh, at_ w' hh /\ snd p = t /\ variant_in (fst p) l' mid hh /\
       ((nothrow_move T (fst l) = false /\ l' = l) \/
        (assigns_safely T (fst l) (fst u) = false /\ l' = (fst l, moved (snd l))) \/
        (assigns_safely T (fst u) (fst l) = false /\ l' = u))).
Proof.
  intros H Ho Ht Hs1 Hs2. unfold swap. apply wp_local. apply wp_bind, wp_get, wp_unit. cbn [fst snd].
  eapply wp_conseq; [apply (move_construct_gen o l mid h w H Ho)| |]; cbv beta.
  2:{ intros _ w' (H' & Hn & Hq). split; auto. exists l, h. cbn [fst snd]. auto 8. }
  set (lm := (fst l, moved (snd l))). intros _ tmp w1 (h1 & Hw1 & Htmp).
  assert (Hom : variant_in o lm mid (upd mid (v_at o) (cell lm))).
  { apply in_parts in Ho as (G1 & G2 & G3 & _). apply in_intro; auto. intros y; reflexivity. }
  destruct (in_swap _ _ _ _ _ _ _ Htmp Hom) as (mid' & Ho1 & Htmp1).
  apply wp_bind, wp_get. cbn [fst snd]. apply wp_bind. apply wp_fst. cbn [fst snd]. apply wp_fst. cbn [fst snd].
  assert (Hrd : readable_at t u o lm mid').
  { eapply in_readable; [exact Ht|]. destruct (in_elsewhere _ _ _ _ _ _ _ Htmp1 Ht) as [Hne Hc].
    apply in_parts in Htmp1 as (_ & _ & _ & G). rewrite G. rewrite upd_other by congruence. exact Hc. }
  eapply wp_conseq; [apply (move_assign_gen o lm t u mid' h1 w1 Hw1 Ho1 Hrd Hs1)| |]; cbv beta.
  2:{ intros o' w2 (Hn & Hq & -> & Hw2). cbn [fst snd]. eapply wp_conseq; [apply (destruct_gen tmp l _ h1 w2 Hw2 Htmp)| |]; cbv beta; [|contradiction].
      intros _ _ w3 Hw3. cbn [fst snd]. split; auto. exists lm, (upd mid (v_at o) (cell lm)). auto 9. }
  intros o' _ w2 (h2 & Hw2 & Ho2). apply wp_bind, wp_get. cbn [fst snd]. apply wp_fst. cbn [fst snd]. apply wp_snd. cbn [fst snd].
  destruct (in_swap _ _ _ _ _ _ _ Htmp1 Ht) as (mid2 & Ht2 & Htmp2).
  destruct (in_swap _ _ _ _ _ _ _ Ho2 Ht2) as (mid3 & Ht3 & Ho3).
  assert (Hrd2 : readable_at tmp l t u mid3).
  { eapply in_readable; [exact Htmp|]. destruct (in_elsewhere _ _ _ _ _ _ _ Ho3 Htmp2) as [Hne Hc].
    apply in_parts in Ho3 as (_ & _ & _ & G). rewrite G. rewrite upd_other by congruence. exact Hc. }
  eapply wp_conseq; [apply (move_assign_gen t u tmp l mid3 h2 w2 Hw2 Ht3 Hrd2 Hs2)| |]; cbv beta.
  2:{ intros t' w3 (Hn & Hq & -> & Hw3). cbn [fst snd]. destruct (in_swap _ _ _ _ _ _ _ Ho2 Htmp1) as (m & G1 & G2).
      eapply wp_conseq; [apply (destruct_gen tmp l _ h2 w3 Hw3 G1)| |]; cbv beta; [|contradiction].
      intros _ _ w4 Hw4. cbn [fst snd]. split; auto. exists u, m. auto 9. }
  intros t' _ w3 (h3 & Hw3 & Ht4). cbn [fst snd].
  destruct (in_swap _ _ _ _ _ _ _ Ho3 Htmp2) as (m4 & G1 & G2).
  destruct (in_swap _ _ _ _ _ _ _ Ht4 G1) as (m5 & G3 & G4).
  eapply wp_conseq; [apply (destruct_gen tmp l _ h3 w3 Hw3 G3)| |]; cbv beta; [|contradiction].
  intros _ _ w4 Hw4. destruct (in_swap _ _ _ _ _ _ _ G4 G2) as (m6 & G5 & G6). cbn [fst snd]. exists m5, m6. auto.
Qed.

(** ** Steps *)
Lemma here_variants os ls others w : here os ls others w -> variants T os ls others w.
Proof.
  intros (h & H & Hs). destruct (at_memory _ _ _ H) as [He Hu]. split; auto. eapply (several_same variant_in in_same); [|exact Hs].
  intros b. symmetry. apply He.
Qed.
Lemma wp_another (m : M unit variant) os ls others w h h' ls1 l :
  several_in variant_in os ls others h -> several_in variant_in os ls1 others h' -> forall Th : Prop,
  wp m tt w (fun _ o w' => exists hh, at_ w' hh /\ variant_in o l h' hh) (fun _ w' => at_ w' h /\ Th) ->
  wp (another m) os w (fun os' _ w' => here os' (ls1 ++ [l]) others w') (fun os' w' => Th /\ here os' ls others w').
Proof.
  intros Hs Hs1 Th Hm. unfold another. apply wp_bind, wp_unit. eapply wp_conseq; [exact Hm| |].
  - cbv beta. intros _ o w' (hh & H' & Ho). apply wp_bind, wp_get, wp_put. exists hh. split; auto. eapply (several_end variant_in in_swap); eauto.
  - cbv beta. intros _ w' [H' HT]. split; auto. exists h. auto.
Qed.
Lemma wp_one {B} i (m : M variant B) os w (o : variant) Q E : nth_error os i = Some o ->
  wp m o w (fun o' a w' => Q (replace_at i o' os) a w') (fun o' w' => E (replace_at i o' os) w') -> wp (one_of i m) os w Q E.
Proof. intros Ho. unfold wp, one_of. rewrite Ho. destruct (m o w); auto. Qed.
Lemma wp_two {B} i j (m : M (variant * variant) B) os w (o t : variant) Q E : nth_error os i = Some o -> nth_error os j = Some t ->
  wp m (o, t) w (fun p a w' => Q (replace_at j (snd p) (replace_at i (fst p) os)) a w')
    (fun p w' => E (replace_at j (snd p) (replace_at i (fst p) os)) w') -> wp (two_of i j m) os w Q E.
Proof. intros Ho Ht. unfold wp, two_of. rewrite Ho, Ht. destruct (m (o, t) w); auto. Qed.
Lemma wp_look {B} j os (o : variant) (k : variant -> M (list variant) B) w Q E : nth_error os j = Some o ->
  wp (k o) os w Q E -> wp (looking_at j k) os w Q E.
Proof. intros Ho. unfold wp, looking_at, bind, get. now rewrite Ho. Qed.

Lemma source_ok nothrow s os ls others h : several_in variant_in os ls others h -> readable s (map fst ls) = true ->
  exists c a h1, creator_nothrow c = nothrow /\ value_of s ls = Some a /\ makes h c a h1 /\ several_in variant_in os (used moved s ls) others h1 /\
    (forall k w Q E, wp (k c) os w Q E -> wp (from_source nothrow s k) os w Q E) /\
    (forall i o, nth_error os i = Some o -> reads s i = false -> elsewhere c (v_at o)) /\
    length (used moved s ls) = length ls /\
    (forall i l, nth_error ls i = Some l -> exists x, nth_error (used moved s ls) i = Some (fst l, x)).
Proof.
  intros Hin Hr. pose proof (several_lengths variant_in _ _ _ _ Hin) as Hlen.
  assert (Hne : forall j t u i o, nth_error os j = Some t -> nth_error ls j = Some u -> nth_error os i = Some o -> j <> i -> v_at t <> v_at o).
  { intros j t u i o Hj Hju Hi Hji. assert (Hjl : j < length os) by (apply nth_error_Some; congruence).
    assert (Hil : i < length os) by (apply nth_error_Some; congruence).
    destruct (focus_two variant_in in_swap i j _ _ _ _ Hil Hjl Hji Hin) as (o' & l' & t' & u' & mid & rest & E1 & E2 & E3 & E4 & F1 & F2 & _).
    destruct (in_elsewhere _ _ _ _ _ _ _ F1 F2). congruence. }
  assert (Hsrc : forall j n, (match nth_error (map fst ls) j with Some k => k =? n | None => false end) = true ->
            exists t u rest, nth_error os j = Some t /\ nth_error ls j = Some u /\ fst u = n /\ variant_in t u rest h /\
              (forall o' l' m', variant_in o' l' rest m' -> several_in variant_in (replace_at j o' os) (replace_at j l' ls) others m')).
  { intros j n Hn. rewrite nth_error_map in Hn. destruct (nth_error ls j) as [u|] eqn:Eu; [|discriminate]. cbn in Hn. apply Nat.eqb_eq in Hn.
    assert (Hj : j < length os). { rewrite Hlen. apply nth_error_Some. congruence. }
    destruct (focus_one variant_in in_swap j _ _ _ _ Hj Hin) as (t & u' & rest & E1 & E2 & F & _ & Hback).
    exists t, u, rest. assert (u' = u) by congruence. subst u'. auto 6. }
  destruct s as [a|j n|j n]; cbn [readable value_of used from_source reads] in *.
  - exists (Make nothrow a), a, h. split; auto. split; auto. split. { split; auto. intros y; reflexivity. } split; auto. split; auto. split. { intros; exact I. }
    split; auto. intros i [k x] Hi. cbn. eauto.
  - destruct (Hsrc j n Hr) as (t & u & rest & E1 & E2 & Hn & F & _). pose proof (in_cell _ _ _ _ F) as Hc.
    exists (CopyFrom nothrow (v_at t) n), (snd u), h. split; auto. rewrite E2. split; auto. split. { cbn. split. { rewrite Hc. subst n. now destruct u. } intros y; reflexivity. }
    split; auto. split. { intros k w Q E Hk. eapply wp_look; eauto. } split. { intros i o Hi Hji. apply Nat.eqb_neq in Hji. cbn. eapply Hne; eauto. }
    split; auto. intros i [k x] Hi. cbn. eauto.
  - destruct (Hsrc j n Hr) as (t & u & rest & E1 & E2 & Hn & F & Hback). pose proof (in_cell _ _ _ _ F) as Hc.
    exists (MoveFrom nothrow (v_at t) n), (snd u), (upd h (v_at t) (cell (n, moved (snd u)))). split; auto. rewrite E2. split; auto.
    split. { cbn. split. { rewrite Hc. subst n. now destruct u. } intros y; reflexivity. }
    split. { apply in_parts in F as (G1 & G2 & G3 & G4). rewrite <- (replace_same j t os E1). apply Hback. apply in_intro; auto.
             subst n. intros y. rewrite (upd_eqh _ _ (v_at t) (cell (fst u, moved (snd u))) G4 y). apply upd_upd. }
    split. { intros k w Q E Hk. eapply wp_look; eauto. } split. { intros i o Hi Hji. apply Nat.eqb_neq in Hji. cbn. eapply Hne; eauto. }
    assert (Hjl : j < length ls) by (apply nth_error_Some; congruence).
    split. { now apply length_replace. }
    intros i l Hi. destruct (Nat.eq_dec i j) as [->|Hij].
    + rewrite nth_replace by assumption. replace l with u by congruence. eauto.
    + rewrite nth_replace_other by auto. exists (snd l). rewrite Hi. now destruct l.
Qed.

Lemma step_ok s os ls others w h :
  at_ w h -> several_in variant_in os ls others h -> possible T s (map fst ls) = true ->
  wp (do_step moved T s) os w
    (fun os' _ w' => here os' (then_ moved s ls) others w')
    (fun os' w' => ~ q /\ exists ls', or_else moved T s ls ls' /\ here os' ls' others w').
Proof.
  intros H Hin Hp. pose proof (several_lengths variant_in _ _ _ _ Hin) as Hlen.
  assert (Hnth : forall i l, nth_error ls i = Some l -> nth i (map fst ls) 0 = fst l).
  { intros i l Hi. apply nth_error_nth. now rewrite nth_error_map, Hi. }
  destruct s as [k nt s|j|j|i|i k nt s|i k nt nta s|i j|i j|i j]; cbn [possible do_step then_ or_else] in *;
    rewrite ?map_length, <- ?Hlen in Hp;
    repeat match goal with H : _ && _ = true |- _ => apply andb_prop in H; destruct H end;
    repeat match goal with
           | H : (_ <? _) = true |- _ => apply Nat.ltb_lt in H
           | H : negb (_ =? _) = true |- _ => apply negb_true_iff, Nat.eqb_neq in H
           end.
  - (* New *) destruct (source_ok nt s _ _ _ _ Hin ltac:(eassumption)) as (c & a & h1 & Hc & Hv & Hm & Hin1 & Hrun & _). rewrite Hv. apply Hrun.
    eapply wp_conseq; [eapply (wp_another _ _ _ _ _ _ _ _ (k, a) Hin Hin1); apply (construct_gen k c a h h1 w H Hm); assumption| |]; cbv beta; auto.
    intros os' w' ((Hn & Hq) & Hh). split; auto. exists ls. split; auto. split; auto. congruence.
  - (* NewCopy *) destruct (focus_one variant_in in_swap j _ _ _ _ Hp Hin) as (t & u & rest & Hnt & Hnu & Ht & _). rewrite Hnu. eapply wp_look; [exact Hnt|].
    eapply wp_conseq; [eapply (wp_another _ _ _ _ _ _ _ _ u Hin Hin); apply (copy_construct_gen t u rest h w H Ht)| |]; cbv beta; auto.
    intros os' w' ((Hn & Hq) & Hh). split; auto. exists ls. split; eauto.
  - (* NewMove *) destruct (focus_one variant_in in_swap j _ _ _ _ Hp Hin) as (t & u & rest & Hnt & Hnu & Ht & _ & Hback). rewrite Hnu. eapply wp_look; [exact Hnt|].
    eapply wp_conseq; [eapply (wp_another _ _ _ _ _ _ _ (replace_at j (fst u, moved (snd u)) ls) u Hin); [|apply (move_construct_gen t u rest h w H Ht)]| |]; cbv beta; auto.
    + rewrite <- (replace_same j t os Hnt). apply Hback. apply in_parts in Ht as (G1 & G2 & G3 & G4). apply in_intro; auto. intros y; reflexivity.
    + intros os' w' ((Hn & Hq) & Hh). split; auto. exists ls. split; eauto.
  - (* End *) destruct (focus_one variant_in in_swap i _ _ _ _ Hp Hin) as (o & l & rest & Hno & Hnl & Ho & Hr & _).
    apply wp_bind. eapply wp_one; [exact Hno|]. eapply wp_conseq; [apply (destruct_gen o l rest h w H Ho)| |]; cbv beta; [|contradiction].
    intros o' _ w' H'. apply wp_bind, wp_get, wp_put. exists rest. split; auto.
    assert (Hrm : remove_at i (replace_at i o' os) = remove_at i os).
    { clear - Hp. revert os Hp. induction i as [|i IH]; intros [|x os] Hp; cbn [length] in *; try lia; [reflexivity|].
      rewrite replace_S, !remove_S. f_equal. apply IH. lia. }
    rewrite Hrm. exact Hr.
  - (* Emplace *) assert (Hi : i < length os) by assumption. destruct (focus_one variant_in in_swap i _ _ _ _ Hi Hin) as (o & l & rest & Hno & Hnl & Ho & _).
    destruct (source_ok nt s _ _ _ _ Hin ltac:(eassumption)) as (c & a & h1 & Hc & Hv & Hm & Hin1 & Hrun & Helse & Hlu & Hkeep). rewrite Hv. apply Hrun.
    destruct (focus_one variant_in in_swap i _ _ _ _ Hi Hin1) as (o1 & l1 & rest1 & Hno1 & Hnl1 & Ho1 & _ & Hback). assert (o1 = o) by congruence. subst o1.
    destruct (Hkeep i l Hnl) as (x & Hx). assert (l1 = (fst l, x)) by congruence. subst l1. apply in_parts in Ho1 as (_ & _ & G3 & G4).
    eapply wp_one; [exact Hno|]. apply wp_bind.
    eapply wp_conseq; [eapply (emplace_any k c a l x rest h rest1 h1 o w H Ho ltac:(assumption) Hm G4 G3)| |]; cbv beta.
    + intros Hn. apply (Helse i o Hno). rewrite <- Hc, Hn in *. match goal with Hb : negb _ = true |- _ => apply negb_true_iff in Hb; rewrite andb_true_r in Hb; exact Hb end.
    + intros o' _ w' (hh & H' & Hi'). apply wp_ret. exists hh. auto.
    + intros o' w' (Hn & Hq & -> & H'). split; auto. exists ls. split. { split; auto. congruence. } exists h. split; auto. rewrite replace_same; auto.
  - (* AssignValue *) assert (Hi : i < length os) by assumption. destruct (focus_one variant_in in_swap i _ _ _ _ Hi Hin) as (o & l & rest & Hno & Hnl & Ho & _).
    destruct (source_ok nt s _ _ _ _ Hin ltac:(eassumption)) as (c & a & h1 & Hc & Hv & Hm & Hin1 & Hrun & Helse & Hlu & Hkeep). rewrite Hv. apply Hrun.
    destruct (focus_one variant_in in_swap i _ _ _ _ Hi Hin1) as (o1 & l1 & rest1 & Hno1 & Hnl1 & Ho1 & _ & Hback). assert (o1 = o) by congruence. subst o1.
    destruct (Hkeep i l Hnl) as (x & Hx). assert (l1 = (fst l, x)) by congruence. subst l1. apply in_parts in Ho1 as (_ & _ & G3 & G4).
    assert (Hal : the_alternative_of_type T (type_of T k) k).
    { match goal with Hb : only_of_its_type T k = true |- _ => unfold only_of_its_type in Hb; apply andb_prop in Hb; destruct Hb as [B1 B2] end.
      apply Nat.ltb_lt in B1. rewrite forallb_forall in B2. split; auto. split; auto. intros n Hn Hty. specialize (B2 n ltac:(apply in_seq; lia)).
      rewrite Hty, Nat.eqb_refl in B2. cbn in B2. now apply Nat.eqb_eq. }
    eapply wp_one; [exact Hno|].
    eapply wp_conseq; [eapply (assign_value_gen _ k c a nta l x rest h rest1 h1 o w H Ho Hal Hm G4 G3)| |]; cbv beta.
    + intros Hn. apply (Helse i o Hno). destruct s as [b|j n|j n]; cbn [reads readable assignable] in *; auto.
      * destruct (Nat.eqb_spec j i) as [->|]; auto. exfalso.
        match goal with Hr : match nth_error (map fst ls) i with _ => _ end = true |- _ => rewrite nth_error_map, Hnl in Hr; cbn in Hr; apply Nat.eqb_eq in Hr end.
        match goal with Hr : (n =? k) = true |- _ => apply Nat.eqb_eq in Hr end. congruence.
      * match goal with Hr : (n =? k) && _ = true |- _ => apply andb_prop in Hr; destruct Hr as [_ Hr]; now apply negb_true_iff in Hr | _ => idtac end.
    + intros o' _ w' (hh & H' & Hi'). exists hh. auto.
    + intros o' w' (Hn & Hq & -> & H'). split; auto. exists ls. split. { split; auto. exists l. split; auto. now rewrite <- Hc. } exists h. split; auto. rewrite replace_same; auto.
  - (* CopyAssign *) assert (Hi : i < length os) by assumption. assert (Hj : j < length os) by assumption. destruct (Nat.eq_dec j i) as [->|Hij].
    + destruct (focus_one variant_in in_swap i _ _ _ _ Hi Hin) as (o & l & rest & Hno & Hnl & Ho & _ & Hback). rewrite Hnl.
      eapply wp_look; [exact Hno|]. eapply wp_one; [exact Hno|]. eapply wp_conseq; [apply (copy_assign_gen o l o l rest h w H Ho)| |]; cbv beta.
      * destruct Ho as (G1 & G2 & _). split; auto.
      * intros o' _ w' (hh & H' & Hx). exists hh. auto.
      * intros o' w' (Hn & Hq & -> & H'). split; auto. exists ls. split. { split; auto. exists l, l. auto. } exists h. split; auto. rewrite replace_same; auto.
    + destruct (focus_two variant_in in_swap i j _ _ _ _ Hi Hj Hij Hin) as (o & l & t & u & mid & rest & Hno & Hnl & Hnt & Hnu & Ho & Ht & Hback & _).
      rewrite Hnu. eapply wp_look; [exact Hnt|]. eapply wp_one; [exact Hno|].
      eapply wp_conseq; [apply (copy_assign_gen o l t u mid h w H Ho)| |]; cbv beta.
      * eapply in_readable; [exact Ht|]. eapply in_cell; eauto.
      * intros o' _ w' (hh & H' & Hx). exists hh. split; auto. eapply Hback; eauto.
      * intros o' w' (Hn & Hq & -> & H'). split; auto. exists ls. split. { split; auto. exists l, u. auto. } exists h. split; auto. rewrite replace_same; auto.
  - (* MoveAssign *) assert (Hi : i < length os) by assumption. assert (Hj : j < length os) by assumption. destruct (Nat.eq_dec j i) as [->|Hij].
    + destruct (focus_one variant_in in_swap i _ _ _ _ Hi Hin) as (o & l & rest & Hno & Hnl & Ho & _ & Hback). rewrite Hnl. rewrite !(Hnth i l Hnl) in *.
      eapply wp_look; [exact Hno|]. eapply wp_one; [exact Hno|]. eapply wp_conseq; [apply (move_assign_gen o l o l rest h w H Ho)| |]; cbv beta; auto.
      * destruct Ho as (G1 & G2 & _). split; auto.
      * intros o' _ w' (hh & H' & Hx). exists hh. auto.
      * intros o' w' (Hn & Hq & -> & H'). split; auto. exists ls. split. { split; auto. exists l, l. auto. } exists h. split; auto. rewrite replace_same; auto.
    + destruct (focus_two variant_in in_swap i j _ _ _ _ Hi Hj Hij Hin) as (o & l & t & u & mid & rest & Hno & Hnl & Hnt & Hnu & Ho & Ht & Hback & _).
      rewrite Hnu. rewrite (Hnth i l Hnl), (Hnth j u Hnu) in *. eapply wp_look; [exact Hnt|]. eapply wp_one; [exact Hno|].
      eapply wp_conseq; [apply (move_assign_gen o l t u mid h w H Ho)| |]; cbv beta; auto.
      * eapply in_readable; [exact Ht|]. eapply in_cell; eauto.
      * intros o' _ w' (hh & H' & Hx). exists hh. split; auto. eapply Hback; eauto.
      * intros o' w' (Hn & Hq & -> & H'). split; auto. exists ls. split. { split; auto. exists l, u. auto. } exists h. split; auto. rewrite replace_same; auto.
  - (* Swap *) assert (Hi : i < length os) by assumption. assert (Hj : j < length os) by assumption.
    destruct (focus_two variant_in in_swap i j _ _ _ _ Hi Hj ltac:(auto) Hin) as (o & l & t & u & mid & rest & Hno & Hnl & Hnt & Hnu & Ho & Ht & Hback & Hback2).
    rewrite Hnl, Hnu. rewrite (Hnth i l Hnl), (Hnth j u Hnu) in *. eapply wp_two; [exact Hno|exact Hnt|].
    eapply wp_conseq; [apply (swap_gen o l t u rest mid h w H Ho Ht); assumption| |]; cbv beta.
    + intros p _ w' (hh & mm & H' & G1 & G2). exists hh. split; auto. eapply Hback2; eauto.
    + intros p w' (Hq & l' & hh & H' & Hs & Hx & Hc). split; auto. exists (replace_at i l' ls). split.
      * exists l, u. split; auto. split; auto. destruct Hc as [[C1 C2]|[[C1 C2]|[C1 C2]]]; subst l'; auto. left. split; auto. now apply replace_same.
      * exists hh. split; auto. rewrite Hs. rewrite (replace_same j t). { eapply Hback; eauto. } rewrite nth_replace_other; auto.
Qed.

(** ** Programs *)
Lemma indexes_same os ls others h : several_in variant_in os ls others h -> map v_index os = map fst ls.
Proof. intros H. eapply (several_map variant_in); [|exact H]. intros o l r m (H1 & _). exact H1. Qed.
Lemma program_ok ss : forall os ls others w, here os ls others w ->
  wp (program moved T ss) os w (fun os' _ w' => exists ls', accounts moved T ss ls ls' /\ here os' ls' others w') (fun _ _ => False).
Proof.
  induction ss as [|s ss IH]; intros os ls others w Ha; cbn [program].
  - apply wp_ret. exists ls. split; auto. constructor.
  - apply wp_bind, wp_get. pose proof Ha as (h & H & Hin). rewrite (indexes_same _ _ _ _ Hin). destruct (possible T s (map fst ls)) eqn:Hp.
    + apply wp_bind. pose proof (step_ok s os ls others w h H Hin Hp) as Hs. unfold wp in Hs |- *. unfold attempt.
      destruct (do_step moved T s os w) as [os1 [] w1|os1 w1|]; [| |contradiction].
      * eapply wp_conseq. { apply (IH _ _ _ _ Hs). } 2: auto.
        cbv beta. intros o' _ w' (ls' & He & H'). exists ls'. split; auto. now apply accounts_returns.
      * destruct Hs as [_ (ls1 & Hi & Hv1)]. eapply wp_conseq. { apply (IH _ _ _ _ Hv1). } 2: auto.
        cbv beta. intros o' _ w' (ls' & He & H'). exists ls'. split; auto. eapply accounts_throws; eauto.
    + eapply wp_conseq. { apply (IH _ _ _ _ Ha). } 2: auto. cbv beta. intros o' _ w' (ls' & He & H'). exists ls'. split; auto. now apply accounts_skips.
Qed.
Lemma program_plain (Hq : q) ss : forall os ls others w, here os ls others w ->
  wp (program moved T ss) os w (fun os' _ w' => here os' (plainly moved T ss ls) others w') (fun _ _ => False).
Proof.
  induction ss as [|s ss IH]; intros os ls others w Ha; cbn [program plainly] in *.
  - apply wp_ret. exact Ha.
  - apply wp_bind, wp_get. pose proof Ha as (h & H & Hin). rewrite (indexes_same _ _ _ _ Hin). destruct (possible T s (map fst ls)) eqn:Hp.
    + apply wp_bind. pose proof (step_ok s os ls others w h H Hin Hp) as Hs. unfold wp in Hs |- *. unfold attempt.
      destruct (do_step moved T s os w) as [os1 [] w1|os1 w1|]; [| |contradiction].
      * now apply IH.
      * now destruct Hs.
    + now apply IH.
Qed.
Lemma ends_program n : forall os ls others w, length os = n -> here os ls others w ->
  wp (program moved T (repeat (End 0) n)) os w (fun os' _ w' => os' = [] /\ at_ w' others) (fun _ _ => False).
Proof.
  induction n as [|n IH]; intros os ls others w Hn (h & H & Hin).
  - destruct os; [|discriminate]. destruct ls; [|destruct Hin]. apply wp_ret. split; auto. eapply at_ext; [exact H|exact Hin].
  - cbn [repeat program]. apply wp_bind, wp_get. destruct os as [|o os]; [discriminate|]. destruct ls as [|l ls]; [destruct Hin|].
    change (possible T (End 0) (map v_index (o :: os))) with true. cbv iota. apply wp_bind.
    pose proof (step_ok (End 0) (o :: os) (l :: ls) others w h H Hin eq_refl) as Hs. unfold attempt, wp in Hs |- *.
    assert (Hd : match do_step moved T (End 0) (o :: os) w with Ret os' _ _ => os' = os | _ => True end).
    { cbn [do_step]. unfold one_of, bind, get, put. cbn [nth_error]. destruct (destruct T o w) as [o1 [] w1|o1 w1|]; auto. }
    destruct (do_step moved T (End 0) (o :: os) w) as [os1 [] w1|os1 w1|]; [| |contradiction].
    + subst os1. change (then_ moved (End 0) (l :: ls)) with ls in Hs. eapply IH; [|apply Hs]. now injection Hn.
    + destruct Hs as [_ (ls' & [] & _)].
Qed.
End Proofs.

(** ** For a world *)
Section World.
Context {A : Type} (moved : A -> A) (T : types A).
Local Notation V := (nat * A)%type.
Lemma variants_here os ls others (w : world V) : variants T os ls others w -> here T (~ someone_throws w) os ls others w.
Proof. intros [Hs Hu]. exists (heap w). split; auto. now apply memory_at. Qed.
Lemma program_variants ss os ls others (w : world V) :
  variants T os ls others w ->
  ends (program moved T ss os w)
    (fun os' _ w' => exists ls', accounts moved T ss ls ls' /\ variants T os' ls' others w') (fun _ _ => False).
Proof.
  intros Ha. pose proof (program_ok moved T (~ someone_throws w) ss os ls others w (variants_here _ _ _ _ Ha)) as H. unfold wp in H. unfold ends.
  destruct (program moved T ss os w) as [os' [] w'|os' w'|]; try contradiction. destruct H as (ls' & H1 & H2). exists ls'. split; auto. eapply here_variants; eauto.
Qed.
Lemma program_variants_plain ss os ls others (w : world V) :
  variants T os ls others w -> ~ someone_throws w ->
  ends (program moved T ss os w) (fun os' _ w' => variants T os' (plainly moved T ss ls) others w') (fun _ _ => False).
Proof.
  intros Ha Hq. pose proof (program_plain moved T (~ someone_throws w) Hq ss os ls others w (variants_here _ _ _ _ Ha)) as H. unfold wp in H. unfold ends.
  destruct (program moved T ss os w) as [os' [] w'|os' w'|]; try contradiction. eapply here_variants; eauto.
Qed.
Lemma whole_ok ss (w : world V) :
  unused_names w -> ends (whole moved T ss tt w) (fun _ _ w' => same (heap w') (heap w)) (fun _ _ => False).
Proof.
  intros Hu. unfold whole. assert (Ha : variants T [] [] (heap w) w). { split; auto. intros b. reflexivity. }
  pose proof (program_ok moved T (~ someone_throws w) ss [] [] (heap w) w (variants_here _ _ _ _ Ha)) as H. unfold wp in H. unfold ends.
  destruct (program moved T ss [] w) as [os [] w1|os w1|]; try contradiction.
  destruct H as (ls & _ & Ha1). pose proof (ends_program moved T (~ someone_throws w) (length os) os ls (heap w) w1 eq_refl Ha1) as H. unfold wp in H.
  destruct (program moved T (repeat (End 0) (length os)) os w1); try contradiction. destruct H as [_ H]. apply (at_memory _ _ _ H).
Qed.
End World.
