(** * Proofs about the unique functions *)

From Coq Require Import List Arith Bool Lia.
From Verif Require Import Mem MemLemmas SpecSort SortLemmas Unique SpecUnique.
Import ListNotations.
Local Open Scope nat_scope.

(** ** Lists *)
Section Lists.
Context {V : Type}.

Fixpoint keep (equal : V -> V -> bool) (u : V) (l : list V) : list V :=
  match l with [] => [] | v :: l => if equal u v then keep equal u l else v :: keep equal v l end.
Definition dedup (equal : V -> V -> bool) (l : list V) : list V :=
  match l with [] => [] | u :: l => u :: keep equal u l end.

Lemma keep_length equal u l : length (keep equal u l) <= length l.
Proof. revert u. induction l as [|v l IH]; intros u; cbn; [lia|]. destruct (equal u v); cbn; [specialize (IH u) | specialize (IH v)]; lia. Qed.
Lemma dedup_length equal l : length (dedup equal l) <= length l.
Proof. destruct l as [|u l]; cbn; [lia|]. pose proof (keep_length equal u l). lia. Qed.

Lemma keep_runs equal u p l : equivalence equal -> equal u p = true -> keep equal u l = run_starts equal (Some p) l.
Proof.
  intros (Hr & Hs & Ht). revert u p. induction l as [|v l IH]; intros u p Hup; cbn; [reflexivity|].
  assert (He : equal u v = equal p v).
  { destruct (equal p v) eqn:E; [eapply Ht; eauto|]. destruct (equal u v) eqn:E'; [|reflexivity].
    rewrite <- E. symmetry. eapply Ht; [|exact E']. rewrite Hs. exact Hup. }
  rewrite He. destruct (equal p v) eqn:E; [apply IH; congruence | f_equal; apply IH; apply Hr].
Qed.
Lemma dedup_runs equal l : equivalence equal -> dedup equal l = run_starts equal None l.
Proof. intros H. destruct l as [|u l]; cbn; [reflexivity|]. f_equal. apply keep_runs; auto. apply H. Qed.

Context (less : V -> V -> bool).
Notation nl := (fun a b => negb (less a b)).
Fixpoint skip (x : V) (l : list V) : list V :=
  match l with [] => [] | v :: t => if less x v then l else skip x t end.
Lemma skip_length x l : length (skip x l) <= length l.
Proof. induction l as [|v l IH]; cbn; [lia|]. destruct (less x v); cbn; lia. Qed.
Lemma keep_skip x l : keep (not_less less) x l = dedup (not_less less) (skip x l).
Proof. unfold not_less. induction l as [|v l IH]; cbn; [reflexivity|]. destruct (less x v); cbn; auto. Qed.
Lemma dedup_cons x l : dedup (not_less less) (x :: l) = x :: dedup (not_less less) (skip x l).
Proof. cbn [dedup]. now rewrite keep_skip. Qed.

Fixpoint umerge (fuel : nat) (l1 l2 : list V) : list V :=
  match fuel with
  | 0 => []
  | S fuel =>
      match l1, l2 with
      | v1 :: t1, v2 :: t2 =>
          if less v2 v1 then v2 :: umerge fuel (skip v2 l1) (skip v2 t2)
          else v1 :: umerge fuel (skip v1 t1) (skip v1 l2)
      | _ :: _, [] => dedup (not_less less) l1
      | [], _ => dedup (not_less less) l2
      end
  end.
Lemma umerge_length fuel l1 l2 : length (umerge fuel l1 l2) <= length l1 + length l2.
Proof.
  revert l1 l2. induction fuel as [|fuel IH]; intros l1 l2; cbn [umerge length]; [lia|].
  destruct l1 as [|v1 t1]; [apply dedup_length|]. destruct l2 as [|v2 t2]; [rewrite Nat.add_0_r; apply dedup_length|].
  destruct (less v2 v1); cbn [length].
  - specialize (IH (skip v2 (v1 :: t1)) (skip v2 t2)). pose proof (skip_length v2 (v1 :: t1)). pose proof (skip_length v2 t2). cbn [length] in *. lia.
  - specialize (IH (skip v1 t1) (skip v1 (v2 :: t2))). pose proof (skip_length v1 (v2 :: t2)). pose proof (skip_length v1 t1). cbn [length] in *. lia.
Qed.

(** ** The first elements of their classes *)
Context (Hlt : strict_weak_order less).
Notation eqv := (equivalent less).
Lemma eqv_refl a : eqv a a = true.
Proof. unfold equivalent. now rewrite (lt_irrefl less Hlt). Qed.
Lemma eqv_sym a b : eqv a b = eqv b a.
Proof. unfold equivalent. apply andb_comm. Qed.
Lemma eqv_trans a b c : eqv a b = true -> eqv b c = true -> eqv a c = true.
Proof. apply Hlt. Qed.

Lemma first_iff l v : first_of_its_class less l v <-> hd_error (filter (eqv v) l) = Some v.
Proof.
  split.
  - intros (i & Hi & Hj). revert i Hi Hj. induction l as [|u l IH]; intros i Hi Hj; [destruct i; discriminate|].
    cbn [filter]. destruct i as [|i].
    + injection Hi as ->. rewrite eqv_refl. reflexivity.
    + pose proof (Hj 0 u (Nat.lt_0_succ _) eq_refl) as Hu. rewrite eqv_sym in Hu. rewrite Hu.
      apply (IH i Hi). intros j w Hji Hw. apply (Hj (S j) w); [lia | exact Hw].
  - induction l as [|u l IH]; [discriminate|]. cbn [filter]. destruct (eqv v u) eqn:E.
    + intros H. injection H as ->. exists 0. split; [reflexivity | intros; lia].
    + intros H. destruct (IH H) as (i & Hi & Hj). exists (S i). split; [exact Hi|].
      intros [|j] w Hji Hw; [injection Hw as <-; now rewrite eqv_sym | apply (Hj j w); [lia | exact Hw]].
Qed.

Lemma increasing_cons x l : increasing less (x :: l) <-> (forall v, In v l -> less x v = true) /\ increasing less l.
Proof.
  split.
  - intros H. split.
    + intros v Hv. destruct (In_nth_error _ _ Hv) as (k & Hk). apply (H 0 (S k) x v); [lia | reflexivity | exact Hk].
    + intros i j a b Hij Ha Hb. apply (H (S i) (S j) a b); [lia | exact Ha | exact Hb].
  - intros (H1 & H2) i j a b Hij Ha Hb. destruct j as [|j]; [lia|]. destruct i as [|i].
    + injection Ha as <-. apply H1. eapply nth_error_In, Hb.
    + apply (H2 i j a b); [lia | exact Ha | exact Hb].
Qed.
Lemma increasing_nil : increasing less [].
Proof. intros i j a b _ H. destruct i; discriminate. Qed.
Lemma increasing_ordered l : increasing less l -> ordered less l.
Proof. intros H i j a b Hij Ha Hb. apply (lt_asym less Hlt). eapply H; eauto. Qed.

Lemma uniques_in l r v : uniques less l r -> In v r -> In v l.
Proof. intros (_ & H) Hv. apply H in Hv. destruct Hv as (i & Hi & _). eapply nth_error_In, Hi. Qed.
Lemma uniques_nil : uniques less [] [].
Proof. split; [apply increasing_nil|]. intros v. split; [intros [] | intros (i & Hi & _); destruct i; discriminate]. Qed.
Lemma uniques_step x l m r :
  (forall v, eqv v x = true -> hd_error (filter (eqv v) l) = Some x) ->
  (forall v, eqv v x = false -> filter (eqv v) l = filter (eqv v) m) ->
  (forall u, In u m -> less x u = true) -> uniques less m r -> uniques less l (x :: r).
Proof.
  intros H1 H2 H3 HU. split.
  - apply increasing_cons. split; [|apply HU]. intros v Hv. apply H3. eapply uniques_in; eauto.
  - intros v. rewrite first_iff. split.
    + intros [->|Hv]; [apply H1, eqv_refl|].
      assert (E : eqv v x = false).
      { unfold equivalent. rewrite (H3 v); [now rewrite andb_false_r|]. eapply uniques_in; eauto. }
      rewrite (H2 v E). apply first_iff, HU, Hv.
    + intros H. destruct (eqv v x) eqn:E.
      * rewrite (H1 v E) in H. injection H as ->. now left.
      * rewrite (H2 v E) in H. right. apply HU, first_iff, H.
Qed.

Lemma skip_filter x l v : (forall u, In u l -> less u x = false) -> eqv v x = false -> filter (eqv v) (skip x l) = filter (eqv v) l.
Proof.
  intros H Hv. induction l as [|u l IH]; cbn [skip]; [reflexivity|]. destruct (less x u) eqn:E; [reflexivity|].
  rewrite IH by (intros w Hw; apply H; now right). cbn [filter].
  destruct (eqv v u) eqn:E'; [|reflexivity].
  exfalso. assert (eqv v x = true); [|congruence]. eapply eqv_trans; [exact E'|].
  unfold equivalent. rewrite E, (H u); [reflexivity | now left].
Qed.
Lemma ordered_tail x l : ordered less (x :: l) -> ordered less l /\ forall u, In u l -> less u x = false.
Proof. intros H. apply ordered_cons in H. tauto. Qed.
Lemma skip_ordered x l : ordered less l -> ordered less (skip x l) /\ forall u, In u (skip x l) -> less x u = true.
Proof.
  induction l as [|v l IH]; intros H; cbn [skip]; [split; [exact H | intros u []]|].
  destruct (ordered_tail _ _ H) as (Ht & Hb).
  destruct (less x v) eqn:E; [|apply IH, Ht]. split; [exact H|].
  intros u [<-|Hu]; [exact E|]. eapply (lt_ge_trans less Hlt); [exact E | apply Hb, Hu].
Qed.
Lemma eqv_lt v x u : eqv v x = true -> less x u = true -> eqv v u = false.
Proof.
  intros H1 H2. destruct (eqv v u) eqn:E; [|reflexivity]. exfalso.
  assert (eqv x u = true) as H by (eapply eqv_trans; [rewrite eqv_sym; exact H1 | exact E]).
  unfold equivalent in H. rewrite H2 in H. discriminate.
Qed.
Lemma filter_none (f : V -> bool) l : (forall u, In u l -> f u = false) -> filter f l = [].
Proof. induction l as [|u l IH]; intros H; cbn; [reflexivity|]. rewrite (H u) by now left. apply IH. intros w Hw. apply H. now right. Qed.
Lemma hd_cons x l v : eqv v x = true -> hd_error (filter (eqv v) (x :: l)) = Some x.
Proof. intros H. cbn. now rewrite H. Qed.

(** [x] is the least element of [x :: l]; the elements equivalent to it go *)
Lemma uniques_dedup l : ordered less l -> uniques less l (dedup (not_less less) l).
Proof.
  remember (length l) as n eqn:En. revert l En. induction n as [n IH] using lt_wf_ind. intros l -> Ho.
  destruct l as [|x l]; [apply uniques_nil|]. rewrite dedup_cons.
  destruct (ordered_tail _ _ Ho) as (Ht & Hb). destruct (skip_ordered x l Ht) as (Hs & Hg).
  apply uniques_step with (m := skip x l).
  - intros v. apply hd_cons.
  - intros v Hv. rewrite skip_filter by auto. cbn. now rewrite Hv.
  - exact Hg.
  - apply (IH (length (skip x l))); auto. pose proof (skip_length x l). cbn. lia.
Qed.

Lemma uniques_merge fuel l1 l2 : length l1 + length l2 < fuel -> ordered less l1 -> ordered less l2 -> uniques less (l1 ++ l2) (umerge fuel l1 l2).
Proof.
  revert l1 l2. induction fuel as [|fuel IH]; intros l1 l2 Hf Ho1 Ho2; [lia|]. cbn [umerge].
  destruct l1 as [|v1 t1]; [apply uniques_dedup, Ho2|].
  destruct l2 as [|v2 t2]; [rewrite app_nil_r; apply uniques_dedup, Ho1|].
  destruct (ordered_tail _ _ Ho1) as (Ht1 & Hb1). destruct (ordered_tail _ _ Ho2) as (Ht2 & Hb2).
  destruct (less v2 v1) eqn:E.
  - destruct (skip_ordered v2 _ Ho1) as (Hs1 & Hg1). destruct (skip_ordered v2 _ Ht2) as (Hs2 & Hg2).
    assert (Hbig : forall u, In u (v1 :: t1) -> less v2 u = true).
    { intros u [<-|Hu]; [exact E|]. eapply (lt_ge_trans less Hlt); [exact E | apply Hb1, Hu]. }
    apply uniques_step with (m := skip v2 (v1 :: t1) ++ skip v2 t2).
    + intros v Hv. rewrite filter_app, (filter_none (eqv v) (v1 :: t1)); [apply hd_cons, Hv|]. intros u Hu. eapply eqv_lt; eauto.
    + intros v Hv. rewrite !filter_app, !skip_filter; auto.
      * cbn [filter]. rewrite Hv. reflexivity.
      * intros u Hu. apply (lt_asym less Hlt). auto.
    + intros u Hu. apply in_app_or in Hu. destruct Hu; auto.
    + apply IH; auto. pose proof (skip_length v2 (v1 :: t1)). pose proof (skip_length v2 t2). cbn [length] in *. lia.
  - destruct (skip_ordered v1 _ Ht1) as (Hs1 & Hg1). destruct (skip_ordered v1 _ Ho2) as (Hs2 & Hg2).
    assert (Hbig : forall u, In u (v2 :: t2) -> less u v1 = false).
    { intros u [<-|Hu]; [exact E|]. eapply (ge_trans less Hlt); [exact E | apply Hb2, Hu]. }
    apply uniques_step with (m := skip v1 t1 ++ skip v1 (v2 :: t2)).
    + intros v Hv. cbn [app]. apply hd_cons, Hv.
    + intros v Hv. rewrite !filter_app, !skip_filter; auto. cbn [filter]. rewrite Hv. reflexivity.
    + intros u Hu. apply in_app_or in Hu. destruct Hu; auto.
    + apply IH; auto. pose proof (skip_length v1 (v2 :: t2)). pose proof (skip_length v1 t1). cbn [length] in *. lia.
Qed.

Lemma skip_skip x y l : less x y = true -> skip y (skip x l) = skip y l.
Proof.
  intros H. induction l as [|v l IH]; cbn [skip]; [reflexivity|].
  destruct (less x v) eqn:E; [reflexivity|]. rewrite IH. destruct (less y v) eqn:E'; [|reflexivity].
  rewrite (lt_trans less Hlt x y v H E') in E. discriminate.
Qed.
Lemma skip_all x l : (forall u, In u l -> less x u = true) -> skip x l = l.
Proof. destruct l as [|v l]; cbn; [reflexivity|]. intros H. now rewrite H by now left. Qed.

(** The elements [p] at the beginning, which are less than those of [q] and not greater than those of [l2], stay. *)
Lemma uniques_prefix p x q l2 r : increasing less (p ++ x :: q) -> (forall u w, In u (p ++ [x]) -> In w l2 -> less w u = false) -> ordered less l2 ->
  uniques less (q ++ skip x l2) r -> uniques less ((p ++ x :: q) ++ l2) (p ++ x :: r).
Proof.
  revert l2. induction p as [|y p IH]; intros l2 Hi Hb Ho HU; cbn [app] in *.
  - apply increasing_cons in Hi as (Hx & Hi). destruct (skip_ordered x l2 Ho) as (Hs & Hg).
    apply uniques_step with (m := q ++ skip x l2); auto.
    + intros v Hv. apply hd_cons, Hv.
    + intros v Hv. rewrite filter_app, skip_filter; auto; [|intros u Hu; apply (Hb x); auto; now left].
      cbn [filter]. rewrite Hv, filter_app. reflexivity.
    + intros u Hu. apply in_app_or in Hu. destruct Hu; auto.
  - apply increasing_cons in Hi as (Hy & Hi). destruct (skip_ordered y l2 Ho) as (Hs & Hg).
    apply uniques_step with (m := (p ++ x :: q) ++ skip y l2).
    + intros v Hv. apply hd_cons, Hv.
    + intros v Hv. rewrite filter_app, skip_filter; auto; [|intros u Hu; apply (Hb y); auto; now left].
      cbn [filter]. rewrite Hv, filter_app. reflexivity.
    + intros u Hu. apply in_app_or in Hu. destruct Hu; auto.
    + apply IH; auto.
      * intros u w Hu Hw. apply (Hb u w); [now right|].
        clear -Hw. induction l2 as [|a l2 IH]; cbn [skip] in Hw; [exact Hw|]. destruct (less y a); [exact Hw | right; auto].
      * rewrite skip_skip; auto. apply Hy, in_or_app. right. now left.
Qed.

Lemma dedup_prefix p x l : increasing less (p ++ [x]) -> dedup (not_less less) (p ++ x :: l) = p ++ dedup (not_less less) (x :: l).
Proof.
  induction p as [|y p IH]; intros Hi; cbn [app] in *; [reflexivity|]. apply increasing_cons in Hi as (Hy & Hi).
  rewrite dedup_cons, <- IH by auto. f_equal. f_equal.
  destruct p as [|z p]; cbn [app skip]; rewrite Hy; auto; now left.
Qed.
End Lists.
