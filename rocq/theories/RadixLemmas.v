(** * Stable sorting by one key and then by another, and counting sort *)

From Coq Require Import List Arith Bool Permutation Lia ZArith.
From Verif Require Import Mem MemLemmas SpecSort SortLemmas DoubleBuffer.
Import ListNotations.
Local Open Scope nat_scope.

Section Orders.
Context {V : Type}.
Implicit Types (lt : V -> V -> bool).

Lemma equivalent_ext lt lt' : (forall a b, lt a b = lt' a b) -> forall a b, equivalent lt a b = equivalent lt' a b.
Proof. intros H a b. unfold equivalent. now rewrite !H. Qed.
Lemma ordered_ext lt lt' l : (forall a b, lt a b = lt' a b) -> ordered lt l -> ordered lt' l.
Proof. intros H Ho i j a b Hij Ha Hb. rewrite <- H. eauto. Qed.
Lemma stable_ext lt lt' l l' : (forall a b, lt a b = lt' a b) -> stable_sorting lt l l' -> stable_sorting lt' l l'.
Proof.
  intros H [[Hp Ho] Hf]. split; [split; [exact Hp|eapply ordered_ext; eauto]|].
  intro z. rewrite !(filter_ext _ _ (fun a => eq_sym (equivalent_ext lt lt' H z a))). apply Hf.
Qed.
Lemma swo_ext lt lt' : (forall a b, lt a b = lt' a b) -> strict_weak_order lt -> strict_weak_order lt'.
Proof.
  intros H (H1 & H2 & H3). split; [|split].
  - intro a. now rewrite <- H.
  - intros a b c. rewrite <- !H. apply H2.
  - intros a b c. rewrite <- !(equivalent_ext lt lt' H). apply H3.
Qed.

(** First by one order, then by another. *)
Definition lex lt1 lt2 : V -> V -> bool := fun a b => lt1 a b || (negb (lt1 b a) && lt2 a b).

Lemma equivalent_lex lt1 lt2 a b : strict_weak_order lt1 ->
  equivalent (lex lt1 lt2) a b = equivalent lt1 a b && equivalent lt2 a b.
Proof.
  intro H. unfold equivalent, lex.
  destruct (lt1 a b) eqn:E1, (lt1 b a) eqn:E2, (lt2 a b), (lt2 b a); try reflexivity.
Qed.
Lemma swo_lex lt1 lt2 : strict_weak_order lt1 -> strict_weak_order lt2 -> strict_weak_order (lex lt1 lt2).
Proof.
  intros H1 H2. split; [|split].
  - intro a. unfold lex. rewrite (lt_irrefl lt1 H1), (lt_irrefl lt2 H2). reflexivity.
  - intros a b c. unfold lex. intros Hab Hbc.
    apply orb_true_iff in Hab. apply orb_true_iff in Hbc. apply orb_true_iff.
    destruct Hab as [Hab|Hab], Hbc as [Hbc|Hbc].
    + left. eapply (lt_trans lt1 H1); eauto.
    + apply andb_true_iff in Hbc as [Hbc _]. apply negb_true_iff in Hbc. left. eapply (lt_ge_trans lt1 H1); eauto.
    + apply andb_true_iff in Hab as [Hab _]. apply negb_true_iff in Hab. left. eapply (ge_lt_trans lt1 H1); eauto.
    + apply andb_true_iff in Hab as [Hab Hab2]. apply andb_true_iff in Hbc as [Hbc Hbc2].
      apply negb_true_iff in Hab. apply negb_true_iff in Hbc. right. apply andb_true_iff. split.
      * apply negb_true_iff. eapply (ge_trans lt1 H1); eauto.
      * eapply (lt_trans lt2 H2); eauto.
  - intros a b c. rewrite !(equivalent_lex _ _ _ _ H1). rewrite !andb_true_iff. intros [A1 A2] [B1 B2].
    split; [apply (proj2 (proj2 H1) a b c)|apply (proj2 (proj2 H2) a b c)]; assumption.
Qed.

Lemma filter_filter {A} (f g : A -> bool) l : filter f (filter g l) = filter (fun a => g a && f a) l.
Proof. induction l as [|a l IH]; [reflexivity|]. cbn. destruct (g a) eqn:E; cbn; rewrite ?E; cbn; rewrite IH; [|reflexivity]. destruct (f a); reflexivity. Qed.

Lemma ordered_sub lt (f : V -> bool) l : ordered lt l -> ordered lt (filter f l).
Proof.
  induction l as [|a l IH]; intro H; [exact H|].
  apply ordered_cons in H as [Ha Hl]. cbn. destruct (f a); [|apply IH, Hl].
  apply ordered_cons. split; [|apply IH, Hl]. intros b Hb. apply filter_In in Hb as [Hb _]. apply Ha, Hb.
Qed.
(** A list is ordered when no two of its elements are out of order, which may be seen in the class of one of them. *)
Lemma filter_positions (f : V -> bool) l i j a b : i < j -> nth_error l i = Some a -> nth_error l j = Some b ->
  f a = true -> f b = true -> exists i' j', i' < j' /\ nth_error (filter f l) i' = Some a /\ nth_error (filter f l) j' = Some b.
Proof.
  intros Hij Ha Hb Fa Fb.
  apply nth_error_split in Hb as (l1 & l2 & -> & Hl).
  rewrite nth_error_app1 in Ha by lia.
  apply nth_error_split in Ha as (l3 & l4 & -> & Hl3).
  exists (length (filter f l3)), (length (filter f l3) + S (length (filter f l4))).
  split; [lia|].
  rewrite !filter_app. cbn. rewrite Fa, Fb. rewrite <- app_assoc. cbn. split.
  - rewrite nth_error_app2, Nat.sub_diag by lia. reflexivity.
  - rewrite nth_error_app2 by lia. replace (length (filter f l3) + S (length (filter f l4)) - length (filter f l3)) with (S (length (filter f l4))) by lia.
    cbn. rewrite nth_error_app2, Nat.sub_diag by lia. reflexivity.
Qed.

(** Sorting stably by the less significant key first. *)
Lemma stable_then lt1 lt2 l l1 l2 : strict_weak_order lt1 -> strict_weak_order lt2 ->
  stable_sorting lt2 l l1 -> stable_sorting lt1 l1 l2 -> stable_sorting (lex lt1 lt2) l l2.
Proof.
  intros H1 H2 [[P1 O1] F1] [[P2 O2] F2]. split; [split|].
  - etransitivity; eauto.
  - intros i j a b Hij Ha Hb. unfold lex. apply orb_false_iff. split; [eapply O2; eauto|].
    destruct (lt1 a b) eqn:E; [reflexivity|]. cbn.
    assert (Hba : lt1 b a = false) by (eapply O2; eauto).
    destruct (filter_positions (equivalent lt1 a) l2 i j a b Hij Ha Hb) as (i' & j' & Hij' & Ha' & Hb').
    + unfold equivalent. now rewrite (lt_irrefl lt1 H1).
    + unfold equivalent. now rewrite E, Hba.
    + rewrite F2 in Ha', Hb'. eapply (ordered_sub lt2 (equivalent lt1 a) l1 O1 i' j'); eauto.
  - intro z.
    rewrite !(filter_ext _ _ (fun a => equivalent_lex lt1 lt2 z a H1)).
    transitivity (filter (equivalent lt2 z) (filter (equivalent lt1 z) l2)); [now rewrite filter_filter|].
    rewrite F2. rewrite filter_filter.
    transitivity (filter (equivalent lt1 z) (filter (equivalent lt2 z) l1)); [rewrite filter_filter; apply filter_ext; intro; apply andb_comm|].
    rewrite F1, filter_filter. apply filter_ext. intro. apply andb_comm.
Qed.
End Orders.

(** ** Counting sort *)
Section Groups.
Context {V : Type} (d : V -> nat).

(** By a number *)
Definition by_d : V -> V -> bool := fun a b => d a <? d b.
Lemma by_d_swo : strict_weak_order by_d.
Proof.
  unfold by_d. split; [|split].
  - intro a. apply Nat.ltb_irrefl.
  - intros a b c. rewrite !Nat.ltb_lt. lia.
  - intros a b c. unfold equivalent. rewrite !andb_true_iff, !negb_true_iff, !Nat.ltb_ge. lia.
Qed.
Lemma equivalent_by a b : equivalent by_d a b = (d b =? d a).
Proof.
  unfold equivalent, by_d. destruct (Nat.eqb_spec (d b) (d a)) as [E|E]; rewrite ?E.
  - now rewrite Nat.ltb_irrefl.
  - destruct (Nat.ltb_spec (d a) (d b)), (Nat.ltb_spec (d b) (d a)); try reflexivity. lia.
Qed.

Definition group (i : nat) (l : list V) : list V := filter (fun v => d v =? i) l.
(** The groups from [i] on, one after the other. *)
Definition groups (i n : nat) (l : list V) : list V := flat_map (fun j => group j l) (seq i n).

Lemma groups_S i n l : groups i (S n) l = group i l ++ groups (S i) n l.
Proof. reflexivity. Qed.
Lemma in_group i l v : In v (group i l) <-> In v l /\ d v = i.
Proof. unfold group. rewrite filter_In, Nat.eqb_eq. reflexivity. Qed.
Lemma in_groups i n l v : In v (groups i n l) <-> In v l /\ i <= d v < i + n.
Proof.
  unfold groups. rewrite in_flat_map. split.
  - intros (j & Hj & Hv). apply in_seq in Hj. apply in_group in Hv as [Hv <-]. auto.
  - intros [Hv Hd]. exists (d v). split; [apply in_seq; lia|]. now apply in_group.
Qed.
Lemma group_group i j l : group i (group j l) = if i =? j then group j l else [].
Proof.
  unfold group. rewrite filter_filter. destruct (Nat.eqb_spec i j) as [<-|E].
  - apply filter_ext. intro v. apply andb_diag.
  - induction l as [|v l IH]; [reflexivity|]. cbn. destruct (Nat.eqb_spec (d v) j), (Nat.eqb_spec (d v) i); cbn; try assumption. lia.
Qed.
Lemma group_groups z i n l : group z (groups i n l) = if (i <=? z) && (z <? i + n) then group z l else [].
Proof.
  revert i. induction n as [|n IH]; intro i.
  - change (group z (groups i 0 l)) with (@nil V). destruct (Nat.leb_spec i z), (Nat.ltb_spec z (i + 0)); try reflexivity. lia.
  - rewrite groups_S. unfold group at 1. rewrite filter_app. fold (group z (group i l)) (group z (groups (S i) n l)).
    rewrite group_group, IH.
    destruct (Nat.eqb_spec z i) as [->|E].
    + destruct (Nat.leb_spec (S i) i); [lia|]. cbn [andb].
      destruct (Nat.leb_spec i i), (Nat.ltb_spec i (i + S n)); try lia. cbn. apply app_nil_r.
    + destruct (Nat.leb_spec (S i) z), (Nat.leb_spec i z), (Nat.ltb_spec z (S i + n)), (Nat.ltb_spec z (i + S n)); try lia; reflexivity.
Qed.
Lemma groups_perm i n l : (forall v, In v l -> i <= d v < i + n) -> Permutation l (groups i n l).
Proof.
  revert l. induction l as [|v l IH]; intro H.
  - replace (groups i n []) with (@nil V); [constructor|]. unfold groups. clear. induction (seq i n) as [|a s IH]; [reflexivity|]. cbn. exact IH.
  - etransitivity; [apply perm_skip, IH; intros; apply H; now right|]. clear IH.
    assert (Hv : i <= d v < i + n) by (apply H; now left). clear H.
    revert i Hv. induction n as [|n IH]; intros i Hv; [lia|].
    rewrite !groups_S. unfold group at 2. cbn [filter]. fold (group i l).
    destruct (Nat.eqb_spec (d v) i) as [E|E].
    + cbn. apply perm_skip, Permutation_app_head.
      replace (groups (S i) n (v :: l)) with (groups (S i) n l); [reflexivity|].
      unfold groups. clear -E. assert (H : forall j, In j (seq (S i) n) -> j <> d v) by (intros j Hj; apply in_seq in Hj; lia).
      induction (seq (S i) n) as [|j s IH]; [reflexivity|]. cbn. rewrite IH by (intros; apply H; now right).
      f_equal. destruct (Nat.eqb_spec (d v) j); [|reflexivity]. exfalso. apply (H j); [now left|auto].
    + etransitivity; [apply Permutation_middle|]. apply Permutation_app_head, IH. lia.
Qed.
Lemma groups_ordered i n l : ordered by_d (groups i n l).
Proof.
  revert i. induction n as [|n IH]; intro i; [apply ordered_nil|].
  rewrite groups_S. apply ordered_app. split; [|split].
  - intros k j a b _ Ha Hb. apply nth_error_In in Ha, Hb. apply in_group in Ha as [_ Ha], Hb as [_ Hb]. unfold by_d. apply Nat.ltb_ge. lia.
  - apply IH.
  - intros a b Ha Hb. apply in_group in Ha as [_ Ha]. apply in_groups in Hb as [_ Hb]. unfold by_d. apply Nat.ltb_ge. lia.
Qed.
Lemma groups_stable n l : (forall v, In v l -> d v < n) -> stable_sorting by_d l (groups 0 n l).
Proof.
  intro H. split; [split|].
  - apply groups_perm. intros v Hv. specialize (H v Hv). lia.
  - apply groups_ordered.
  - intro z. rewrite !(filter_ext _ _ (fun a => equivalent_by z a)).
    fold (group (d z) (groups 0 n l)) (group (d z) l). rewrite group_groups. cbn [Nat.leb andb].
    destruct (Nat.ltb_spec (d z) (0 + n)) as [E|E]; [reflexivity|].
    unfold group. symmetry. clear -E H. induction l as [|v l IH]; [reflexivity|]. cbn.
    destruct (Nat.eqb_spec (d v) (d z)) as [E'|_]; [|apply IH; intros; apply H; now right].
    specialize (H v (or_introl eq_refl)). lia.
Qed.
End Groups.
