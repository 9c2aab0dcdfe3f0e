(** * Pointers to elements stay valid *)

From Coq Require Import List Arith Bool Lia.
From Verif Require Import Mem MemLemmas Vec VecLemmas VecLemmas2 VecLemmas3 VecInst SpecVec VecProofs VecProofs2 VecProofs3.
Import ListNotations.

Lemma vec_bounds {V} minc maxc o (vs : list V) others m : is_vector_in minc maxc o vs others m -> minc <= maxc.
Proof. intros [_ H]. destruct (u_pointer (b_storage o)); [destruct H as (_ & (k & _ & _ & Hr) & _)|destruct H as (_ & _ & Hm & _)]; lia. Qed.

Section Proofs.
Context {V : Type} (moved : V -> V) (minc maxc : nat) (Hmm : minc <= maxc).
Local Notation world := (world V).
Local Notation memory := (@memory V).
Local Notation C := (bounded_vector (V := V) moved minc maxc).
Local Notation is_vec := (is_vector (V := V) minc maxc).

Lemma vec_points o vs (others : memory) (w : world) i v : is_vec o vs others w -> points_to w (bv_data o) i v <-> nth_error vs i = Some v.
Proof.
  intros [[Hs H] _]. unfold points_to, bv_data. destruct (u_pointer (b_storage o)) as [b|].
  - destruct H as (_ & (k & Hb & _) & _). split.
    + intros (b' & cells & [= <-] & Hc & Hn). rewrite Hb in Hc. injection Hc as <-.
      destruct (Nat.lt_ge_cases i (length vs)) as [Hi|Hi].
      * rewrite nth_error_app1 in Hn by now rewrite map_length. rewrite nth_error_map in Hn. destruct (nth_error vs i); cbn in Hn; congruence.
      * rewrite nth_error_app2 in Hn by now rewrite map_length. apply nth_error_In in Hn. apply repeat_spec in Hn. discriminate.
    + intros Hn. exists b. eexists. split; auto. split; [exact Hb|].
      assert (i < length vs) by (apply nth_error_Some; congruence).
      rewrite nth_error_app1 by now rewrite map_length. rewrite nth_error_map, Hn. reflexivity.
  - destruct H as (-> & _). split. { intros (b & c & ? & _). discriminate. } now destruct i.
Qed.

Lemma points_stay k o vs o' vs' (others : memory) (w w' : world) i v :
  is_vec o vs others w -> is_vec o' vs' others w' -> b_storage o' = b_storage o ->
  i < k -> firstn k vs' = firstn k vs ->
  points_to w (bv_data o) i v -> points_to w' (bv_data o) i v.
Proof.
  intros H H' Hst Hi Hf Hp. replace (bv_data o) with (bv_data o') by (unfold bv_data; now rewrite Hst).
  apply (vec_points _ _ _ _ _ _ H'). apply (vec_points _ _ _ _ _ _ H) in Hp.
  assert (Hnth : forall (l : list V), nth_error (firstn k l) i = nth_error l i).
  { clear - Hi. intros l. revert i l Hi. induction k as [|k IH]; intros i l Hi; [lia|]. destruct l, i; cbn; auto. apply IH. lia. }
  now rewrite <- Hnth, Hf, Hnth.
Qed.

Lemma ends_storage {A} (m : M V bvector A) o w Q E :
  match m o w with Ret o' _ _ | Exc o' _ => b_storage o' = b_storage o | Bad _ => True end ->
  ends (m o w) Q E -> ends (m o w) (fun o' a w' => Q o' a w' /\ b_storage o' = b_storage o) (fun o' w' => E o' w' /\ b_storage o' = b_storage o).
Proof. unfold ends. destruct (m o w); auto. Qed.
Lemma ends_mono {X A} (r : out V X A) (Q Q' : X -> A -> world -> Prop) (E E' : X -> world -> Prop) :
  ends r Q E -> (forall x a w, Q x a w -> Q' x a w) -> (forall x w, E x w -> E' x w) -> ends r Q' E'.
Proof. unfold ends. destruct r; auto. Qed.
Lemma untouched_points o o' (w w' : world) p i v : untouched (O := bvector) o o' w w' -> points_to w p i v -> points_to w' p i v.
Proof. intros (_ & H & _) (b & cells & -> & Hb & Hn). exists b, cells. rewrite H. auto. Qed.

Lemma push_back_points mk v0 o vs others w i v :
  is_vec o vs others w -> makes (heap w) mk v0 -> length vs < capacity_of o ->
  points_to w (bv_data o) i v ->
  ends (push_back moved C mk o w)
    (fun o' _ w' => bv_data o' = bv_data o /\ points_to w' (bv_data o) i v)
    (fun o' w' => bv_data o' = bv_data o /\ points_to w' (bv_data o) i v).
Proof.
  intros Hv Hm Hc Hp. pose proof (push_back_vec moved minc maxc Hmm mk v0 o vs others w Hv Hm (or_introl Hc)) as H.
  apply (ends_storage _ _ _ _ _ (push_back_stays moved minc maxc mk o vs others w Hv Hc)) in H.
  eapply ends_mono; [exact H| |]; cbv beta.
  - intros o' _ w' [[Hv' _] Hst]. split. { unfold bv_data. now rewrite Hst. }
    assert (i < length vs). { apply (vec_points _ _ _ _ _ _ Hv) in Hp. apply nth_error_Some. congruence. }
    eapply (points_stay (length vs)); eauto. rewrite firstn_app, Nat.sub_diag. cbn. now rewrite app_nil_r.
  - intros o' w' [[Hu _] Hst]. split. { unfold bv_data. now rewrite Hst. } eapply untouched_points; eauto.
Qed.

Lemma append_points mks us o vs others w i v :
  minc < maxc -> is_vec o vs others w -> Forall2 (makes (heap w)) mks us -> length (vs ++ us) <= capacity_of o ->
  points_to w (bv_data o) i v ->
  ends (append moved C (Source mks true) o w)
    (fun o' _ w' => bv_data o' = bv_data o /\ points_to w' (bv_data o) i v)
    (fun o' w' => bv_data o' = bv_data o /\ points_to w' (bv_data o) i v).
Proof.
  intros Hlt Hv Hm Hc Hp. pose proof (append_vec moved minc maxc Hmm mks us o vs others w Hlt Hv Hm) as H.
  assert (Hc' : length vs + length mks <= capacity_of o). { clear - Hm Hc. rewrite app_length in Hc. replace (length mks) with (length us); auto. clear Hc. induction Hm; cbn; lia. }
  apply (ends_storage _ _ _ _ _ (append_stays moved minc maxc mks o vs others w Hv Hc')) in H.
  eapply ends_mono; [exact H| |]; cbv beta.
  - intros o' _ w' [[Hv' _] Hst]. split. { unfold bv_data. now rewrite Hst. }
    assert (i < length vs). { apply (vec_points _ _ _ _ _ _ Hv) in Hp. apply nth_error_Some. congruence. }
    eapply (points_stay (length vs)); eauto. rewrite firstn_app, Nat.sub_diag. cbn. now rewrite app_nil_r.
  - intros o' w' [[Hu _] Hst]. split. { unfold bv_data. now rewrite Hst. } eapply untouched_points; eauto.
Qed.

Lemma firstn_front (a b : list V) k : k <= length a -> firstn k (a ++ b) = firstn k a.
Proof. intros H. rewrite firstn_app. replace (k - length a) with 0 by lia. cbn. apply app_nil_r. Qed.

Lemma insert_points mks us o l1 l2 others w i v :
  is_vec o (l1 ++ l2) others w -> Forall2 (makes others) mks us -> mks <> [] \/ l2 = [] ->
  length (l1 ++ us ++ l2) <= capacity_of o -> i < length l1 ->
  points_to w (bv_data o) i v ->
  ends (insert moved C (length l1) mks o w)
    (fun o' _ w' => bv_data o' = bv_data o /\ points_to w' (bv_data o) i v)
    (fun o' w' => bv_data o' = bv_data o /\ points_to w' (bv_data o) i v).
Proof.
  intros Hv Hm Hne Hc Hi Hp. pose proof (insert_vec moved minc maxc Hmm mks us o l1 l2 others w Hv Hm Hne) as H.
  assert (Hc' : length (l1 ++ l2) + length mks <= capacity_of o).
  { clear - Hm Hc. rewrite !app_length in *. replace (length mks) with (length us); [lia|]. clear Hc. induction Hm; cbn; lia. }
  apply (ends_storage _ _ _ _ _ (insert_stays moved minc maxc (length l1) mks o _ others w Hv Hc')) in H.
  eapply ends_mono; [exact H| |]; cbv beta.
  - intros o' r w' [(_ & Hv' & _) Hst]. split. { unfold bv_data. now rewrite Hst. }
    eapply (points_stay (length l1)); eauto. rewrite !firstn_front; auto.
  - intros o' w' [[Hu _] Hst]. split. { unfold bv_data. now rewrite Hst. } eapply untouched_points; eauto.
Qed.

Lemma pop_back_points o vs u others w i v :
  is_vec o (vs ++ [u]) others w -> i < length vs -> points_to w (bv_data o) i v ->
  ends (pop_back C o w) (fun o' _ w' => bv_data o' = bv_data o /\ points_to w' (bv_data o) i v) (fun _ _ => False).
Proof.
  intros Hv Hi Hp. pose proof (pop_back_vec moved minc maxc Hmm o vs u others w Hv) as H.
  apply (keeps_ends b_storage _ _ _ _ _ (keeps_pop_back moved minc maxc)) in H.
  eapply ends_mono; [exact H| |]; cbv beta.
  - intros o' _ w' [[Hv' _] Hst]. split. { unfold bv_data. now rewrite Hst. }
    eapply (points_stay (length vs)); eauto. symmetry. now apply firstn_front.
  - intros o' w' [[] _].
Qed.
Lemma erase_points o l1 ds ss others w i v :
  is_vec o (l1 ++ ds ++ ss) others w -> i < length l1 -> points_to w (bv_data o) i v ->
  ends (erase moved C (length l1) (length l1 + length ds) o w)
    (fun o' _ w' => bv_data o' = bv_data o /\ points_to w' (bv_data o) i v) (fun _ _ => False).
Proof.
  intros Hv Hi Hp. pose proof (erase_vec moved minc maxc Hmm o l1 ds ss others w Hv) as H.
  apply (keeps_ends b_storage _ _ _ _ _ (keeps_erase moved minc maxc _ _)) in H.
  eapply ends_mono; [exact H| |]; cbv beta.
  - intros o' r w' [(_ & Hv' & _) Hst]. split. { unfold bv_data. now rewrite Hst. }
    eapply (points_stay (length l1)); eauto. rewrite !firstn_front; auto.
  - intros o' w' [[] _].
Qed.
Lemma erase_if_points p o l1 l2 others w i v :
  is_vec o (l1 ++ l2) others w -> without p l1 = l1 -> i < length l1 -> points_to w (bv_data o) i v ->
  ends (erase_if moved C p o w)
    (fun o' _ w' => bv_data o' = bv_data o /\ points_to w' (bv_data o) i v) (fun o' _ => bv_data o' = bv_data o).
Proof.
  intros Hv Hw Hi Hp. pose proof (erase_if_vec moved minc maxc Hmm p o _ others w Hv) as H.
  apply (keeps_ends b_storage _ _ _ _ _ (keeps_erase_if moved minc maxc _)) in H.
  eapply ends_mono; [exact H| |]; cbv beta.
  - intros o' r w' [(Hv' & _) Hst]. split. { unfold bv_data. now rewrite Hst. }
    eapply (points_stay (length l1)); eauto. unfold without in *. rewrite filter_app, Hw, !firstn_front; auto.
  - intros o' w' [_ Hst]. unfold bv_data. now rewrite Hst.
Qed.
Lemma clear_capacity o vs others w :
  is_vec o vs others w ->
  ends (clear C o w) (fun o' _ w' => bv_data o' = bv_data o /\ capacity_of o' = capacity_of o) (fun _ _ => False).
Proof.
  intros Hv. pose proof (clear_vec moved minc maxc Hmm o vs others w Hv) as H.
  apply (keeps_ends b_storage _ _ _ _ _ (keeps_clear moved minc maxc)) in H.
  eapply ends_mono; [exact H| |]; cbv beta.
  - intros o' _ w' [[_ Hc] Hst]. split; auto. unfold bv_data. now rewrite Hst.
  - intros o' w' [[] _].
Qed.
End Proofs.
