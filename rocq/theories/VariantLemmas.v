(** * Lemmas about tv::variant *)

From Coq Require Import List Arith Bool Lia.
From Verif Require Import Mem MemLemmas SpecVec Variant SpecVariant.
Import ListNotations.

(** ** visit *)
Lemma visit_search_finds fuel n search offset :
  search < n -> offset <= search -> search < offset + 16 * fuel -> visit_search fuel n search offset = Some search.
Proof.
  revert offset. induction fuel as [|fuel IH]; intros offset Hn Ho Hf. { lia. }
  cbn [visit_search]. replace (offset <=? search) with true by (symmetry; apply Nat.leb_le; lia).
  cbn [andb]. destruct (search - offset <? 16) eqn:E.
  - replace (offset + (search - offset)) with search by lia.
    replace (n - 1 <? search) with false by (symmetry; apply Nat.ltb_ge; lia). reflexivity.
  - apply Nat.ltb_ge in E. replace (n - 1 <? offset + 16) with false by (symmetry; apply Nat.ltb_ge; lia).
    apply IH; lia.
Qed.
Lemma visit_one_finds n search : search < n -> visit_one n search = Some search.
Proof. intros H. apply visit_search_finds; lia. Qed.
Lemma visit_implementation_finds variants elements :
  Forall (fun v => snd v < fst v) variants ->
  visit_implementation variants elements = Some (elements ++ map snd variants).
Proof.
  intros H. revert elements. induction H as [|[n i] vs Hi Hvs IH]; intros elements; cbn [visit_implementation map snd].
  - now rewrite app_nil_r.
  - cbn [fst snd] in Hi. rewrite visit_one_finds by assumption. rewrite IH. now rewrite <- app_assoc.
Qed.

(** ** get_index *)
Lemma get_index_found t ts v :
  snd (fold_left (fun s t' => match s with (false, value) => (t =? t', S value) | (true, value) => (true, value) end) ts (true, v)) = v.
Proof. induction ts; cbn; auto. Qed.
Lemma get_index_fold t ts k v :
  nth_error ts k = Some t -> (forall i, i < k -> nth_error ts i <> Some t) ->
  snd (fold_left (fun s t' => match s with (false, value) => (t =? t', S value) | (true, value) => (true, value) end) ts (false, v)) = S (v + k).
Proof.
  revert k v. induction ts as [|t' ts IH]; intros k v Hk Hi. { now destruct k. }
  cbn [fold_left]. destruct k as [|k].
  - cbn in Hk. injection Hk as ->. rewrite Nat.eqb_refl. rewrite get_index_found. lia.
  - destruct (t =? t') eqn:E.
    + apply Nat.eqb_eq in E. subst. elim (Hi 0); [lia|reflexivity].
    + rewrite (IH k); [lia|exact Hk|]. intros i Hik. apply (Hi (S i)). lia.
Qed.
Lemma get_index_finds t ts k :
  nth_error ts k = Some t -> (forall i, i < k -> nth_error ts i <> Some t) -> get_index t ts = k.
Proof. intros H1 H2. unfold get_index. rewrite (get_index_fold t ts k 0) by assumption. lia. Qed.

Lemma nth_error_seq_map {B} (f : nat -> B) n i : i < n -> nth_error (map f (seq 0 n)) i = Some (f i).
Proof.
  intros H. rewrite nth_error_map. rewrite (nth_error_nth' _ 0) by now rewrite seq_length.
  now rewrite seq_nth.
Qed.

Section Lemmas.
Context {A : Type} (moved : A -> A) (T : types A) (quiet : Prop).
Local Notation V := (nat * A)%type.
Local Notation M := (M V).
Local Notation world := (world V).
Local Notation contents := (@contents V).
Local Notation at_ := (at_ quiet).
Local Notation create := (create moved).
Local Notation replace_active_member := replace_active_member.
Local Notation emplace_impl := (emplace_impl moved).

Lemma the_alternative_index t k : the_alternative_of_type T t k -> get_index t (map (type_of T) (seq 0 (count T))) = k.
Proof.
  intros (Hk & Ht & Hu). apply get_index_finds.
  - rewrite nth_error_seq_map by assumption. now rewrite Ht.
  - intros i Hi. rewrite nth_error_seq_map by lia. intros E. injection E as E. specialize (Hu i ltac:(lia) E). lia.
Qed.

Lemma wp_member {X} p k a (h : contents) (x : X) (w : world) (Q : X -> A -> world -> Prop) (E : X -> world -> Prop) :
  at_ w h -> h p = Some [Some (k, a)] -> Q x a w -> wp (member p k) x w Q E.
Proof.
  intros H Hp HQ. unfold member. apply wp_bind. eapply wp_load; eauto; [reflexivity|].
  cbn [fst snd]. rewrite Nat.eqb_refl. now apply wp_ret.
Qed.
Lemma wp_set_member {X} p k a a' (h : contents) (x : X) (w : world) (Q : X -> unit -> world -> Prop) (E : X -> world -> Prop) :
  at_ w h -> h p = Some [Some (k, a)] -> (forall w', at_ w' (upd h p (Some [Some (k, a')])) -> Q x tt w') ->
  wp (set_member p k a') x w Q E.
Proof.
  intros H Hp HQ. unfold set_member. apply wp_bind. eapply wp_member; eauto.
  eapply (wp_store _ p 0 [] []); eauto.
Qed.
Lemma wp_destroy_member {X} p k a (h : contents) (x : X) (w : world) (Q : X -> unit -> world -> Prop) (E : X -> world -> Prop) :
  at_ w h -> h p = Some [Some (k, a)] -> (forall w', at_ w' (upd h p (Some [None])) -> Q x tt w') ->
  wp (destroy_member p k) x w Q E.
Proof.
  intros H Hp HQ. unfold destroy_member. apply wp_bind. eapply wp_member; eauto.
  eapply (wp_destroy _ p 0 [] []); eauto.
Qed.
Lemma wp_throws_unless {X} b (h : contents) (x : X) (w : world) (Q : X -> unit -> world -> Prop) (E : X -> world -> Prop) :
  at_ w h -> (forall w', at_ w' h -> Q x tt w') -> (forall w', b = false -> ~ quiet -> at_ w' h -> E x w') ->
  wp (throws_unless b) x w Q E.
Proof. intros H HQ HE. unfold throws_unless. destruct b; [apply wp_ret; auto|]. eapply wp_may_throw; eauto. Qed.
Lemma wp_create {X} c a (h : contents) (x : X) (w : world) (Q : X -> A -> world -> Prop) (E : X -> world -> Prop) :
  at_ w h -> gives h c a -> (forall w', at_ w' h -> Q x a w') ->
  (forall w', creator_nothrow c = false -> ~ quiet -> at_ w' h -> E x w') -> wp (create c) x w Q E.
Proof.
  intros H Hg HQ HE. destruct c as [b a'|b p k|b p k]; cbn [gives] in Hg; [| |contradiction].
  - subst. cbn [Variant.create]. apply wp_bind. eapply wp_throws_unless; eauto.
  - cbn [Variant.create]. apply wp_bind. eapply wp_member; eauto.
    apply wp_bind. eapply wp_throws_unless; eauto.
Qed.
Lemma wp_create_move {X} b p k a (h : contents) (x : X) (w : world) (Q : X -> A -> world -> Prop) (E : X -> world -> Prop) :
  at_ w h -> h p = Some [Some (k, a)] -> (forall w', at_ w' (upd h p (Some [Some (k, moved a)])) -> Q x a w') ->
  (forall w', b = false -> ~ quiet -> at_ w' h -> E x w') -> wp (create (MoveFrom b p k)) x w Q E.
Proof.
  intros H Hg HQ HE. cbn [Variant.create]. apply wp_bind. eapply wp_member; eauto.
  apply wp_bind. eapply wp_throws_unless; eauto. intros w' H'.
  apply wp_bind. eapply wp_set_member; eauto.
Qed.
Lemma wp_construct_member {X} p k (make : M X A) (h : contents) (x : X) (w : world) (Q : X -> unit -> world -> Prop) (E : X -> world -> Prop) :
  at_ w h -> h p = Some [None] ->
  wp make x w (fun x a w' => exists h', at_ w' h' /\ h' p = Some [None] /\
     forall w'', at_ w'' (upd h' p (Some [Some (k, a)])) -> Q x tt w'') E ->
  wp (construct_member p k make) x w Q E.
Proof.
  intros H Hp Hm. unfold construct_member. apply wp_bind. eapply (wp_require_raw _ p 0 [] []); eauto.
  apply wp_bind. eapply wp_conseq; [exact Hm| |auto]. cbv beta. intros x' a w' (h' & H' & Hp' & HQ).
  eapply (wp_begin_life _ p 0 [] []); eauto.
Qed.
Lemma wp_visited {X} k (x : X) (w : world) (Q : X -> nat -> world -> Prop) (E : X -> world -> Prop) :
  k < count T -> Q x k w -> wp (visited T k) x w Q E.
Proof. intros H HQ. unfold visited. rewrite visit_one_finds by assumption. now apply wp_ret. Qed.

Lemma wp_destroy_active k a (h : contents) o (w : world) (Q : variant -> unit -> world -> Prop) (E : variant -> world -> Prop) :
  at_ w h -> v_index o = k -> k < count T -> h (v_at o) = Some [Some (k, a)] ->
  (forall w', at_ w' (upd h (v_at o) (Some [None])) -> Q o tt w') -> wp (destroy_active T) o w Q E.
Proof.
  intros H Hi Hk Hp HQ. unfold destroy_active. apply wp_bind, wp_get. apply wp_bind.
  apply wp_visited; [congruence|]. rewrite Hi. eapply wp_destroy_member; eauto.
Qed.

Lemma wp_replace k (make : M variant A) (h : contents) o (w : world) (Q : variant -> nat * nat -> world -> Prop) (E : variant -> world -> Prop) :
  at_ w h -> h (v_at o) = Some [None] ->
  wp make (Variant k (v_at o)) w (fun x a w' => exists h', at_ w' h' /\ h' (v_at o) = Some [None] /\ x = Variant k (v_at o) /\
     forall w'', at_ w'' (upd h' (v_at o) (Some [Some (k, a)])) -> Q (Variant k (v_at o)) (v_at o, k) w'') E ->
  wp (replace_active_member k make) o w Q E.
Proof.
  intros H Hp Hm. unfold Variant.replace_active_member. apply wp_bind, wp_get. apply wp_bind, wp_put.
  apply wp_bind. eapply wp_construct_member; eauto.
  eapply wp_conseq; [exact Hm| |auto]. cbv beta. intros x' a w' (h' & H' & Hp' & -> & HQ).
  exists h'. split; [assumption|]. split; [assumption|]. intros w'' H''.
  apply wp_bind. eapply wp_member; eauto. { apply upd_same. } apply wp_ret. auto.
Qed.

Lemma wp_storage {X} k c a (h : contents) (x : X) (w : world) (Q : X -> nat -> world -> Prop) (E : X -> world -> Prop) :
  at_ w h -> gives h c a ->
  (forall w' b, h b = None -> at_ w' (upd h b (Some [Some (k, a)])) -> Q x b w') ->
  (forall w', creator_nothrow c = false -> ~ quiet -> at_ w' h -> E x w') ->
  wp (single_element_storage moved k c) x w Q E.
Proof.
  intros H Hg HQ HE. unfold single_element_storage. apply wp_bind. eapply wp_new_block; eauto.
  cbn [repeat]. intros w1 b Hb H1. apply wp_bind. apply wp_rethrow.
  eapply wp_construct_member; eauto. { apply upd_same. }
  eapply wp_create; eauto.
  - instantiate (1 := a). destruct c as [nt a'|nt p i|nt p i]; cbn [gives] in *; auto.
    rewrite upd_other; auto. intros ->. rewrite Hg in Hb. discriminate.
  - intros w2 H2. exists (upd h b (Some [None])). split; [assumption|]. split; [apply upd_same|].
    intros w3 H3. apply wp_ret. apply HQ; [assumption|]. eapply at_ext; [exact H3|]. apply upd_upd.
  - intros w2 Hn Hq H2. eapply (wp_deallocate _ b 1); eauto. { apply upd_same. }
    intros w3 H3. apply HE; auto. eapply at_ext; [exact H3|].
    eapply eqh_trans; [apply upd_upd|]. now apply upd_id.
Qed.

(** emplace_impl: [destroy_old] is anything that ends the life of the alternative. *)
Lemma wp_emplace_impl k c a k0 a0 destroy_old (others : contents) o (w : world) (Q : variant -> nat * nat -> world -> Prop) (E : variant -> world -> Prop) :
  at_ w (upd others (v_at o) (Some [Some (k0, a0)])) -> others (v_at o) = None ->
  (forall (h : contents) w' (Q' : variant -> unit -> world -> Prop) E', at_ w' h -> h (v_at o) = Some [Some (k0, a0)] ->
     (forall w'', at_ w'' (upd h (v_at o) (Some [None])) -> Q' o tt w'') -> wp destroy_old o w' Q' E') ->
  gives (if creator_nothrow c then others else upd others (v_at o) (Some [Some (k0, a0)])) c a ->
  (forall w', at_ w' (upd others (v_at o) (Some [Some (k, a)])) -> Q (Variant k (v_at o)) (v_at o, k) w') ->
  (forall w', creator_nothrow c = false -> ~ quiet -> at_ w' (upd others (v_at o) (Some [Some (k0, a0)])) -> E o w') ->
  wp (emplace_impl k c destroy_old) o w Q E.
Proof.
  intros H Ho Hd Hg HQ HE. unfold Variant.emplace_impl. destruct (creator_nothrow c) eqn:Hc.
  - apply wp_bind. eapply Hd; eauto. { apply upd_same. } intros w1 H1.
    eapply at_ext in H1; [|apply upd_upd].
    eapply wp_replace; eauto. { apply upd_same. }
    eapply (wp_create _ a); eauto.
    + destruct c as [nt a'|nt p i|nt p i]; cbn [gives] in *; auto.
      rewrite upd_other; auto. intros ->. congruence.
    + intros w2 H2. eexists. split; [exact H2|]. split; [apply upd_same|]. split; [reflexivity|].
      intros w3 H3. apply HQ. eapply at_ext; [exact H3|]. apply upd_upd.
    + intros. congruence.
  - apply wp_local. eapply (wp_storage _ _ a); eauto. intros w1 b Hb H1.
    assert (Hbo : b <> v_at o). { intros ->. now rewrite upd_same in Hb. }
    assert (Hob : others b = None). { now rewrite upd_other in Hb. }
    apply wp_bind. apply wp_fst. cbn [fst snd]. eapply Hd; eauto. { rewrite upd_other by congruence. apply upd_same. }
    intros w2 H2. apply wp_bind, wp_get. apply wp_fst. cbn [fst snd].
    eapply wp_replace; eauto. { apply upd_same. }
    apply wp_bind. eapply (wp_relocate _ b 0 [] []); eauto. { rewrite upd_other by congruence. apply upd_same. }
    intros w3 H3. apply wp_ret. cbn [snd]. eexists. split; [exact H3|].
    split. { rewrite upd_other by congruence. apply upd_same. } split; [reflexivity|]. intros w4 H4.
    cbn [fst snd]. unfold end_of_storage. apply wp_bind, wp_get. eapply (wp_deallocate _ b 1); eauto.
    { rewrite upd_other by congruence. apply upd_same. }
    intros w5 H5. apply HQ. eapply at_ext; [exact H5|].
    intros x. unfold upd. destruct (x =? b) eqn:E1; destruct (x =? v_at o) eqn:E2; auto.
    + apply Nat.eqb_eq in E1, E2. congruence.
    + apply Nat.eqb_eq in E1. subst. now rewrite Hob.
Qed.

End Lemmas.
