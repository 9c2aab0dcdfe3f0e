(** * Searching and partitioning: proofs *)

From Coq Require Import List Arith Bool Lia Permutation.
From Verif Require Import Mem MemLemmas SpecVec VecLemmas Sort SpecSort SortLemmas SortProofs Algo.
Import ListNotations.
Local Open Scope nat_scope.

(** ** Lists *)
Lemma nth_error_default {A} (l : list A) i d a : nth_error l i = Some a -> nth i l d = a.
Proof. intros H. rewrite (nth_error_nth l i d H). reflexivity. Qed.
Lemma holds_map_nth {A} (cs : list A) refs c d : holds cs refs c -> map (fun i => nth i cs d) refs = c.
Proof. intros H. induction H as [|q a refs c H1 H IH]; cbn; auto. rewrite IH. f_equal. now apply nth_error_default. Qed.
Lemma in_refs (i : nat) refs : In i refs \/ ~ In i refs.
Proof. destruct (in_dec Nat.eq_dec i refs); auto. Qed.
Lemma NoDup_join {A} (l l' : list A) : NoDup l -> NoDup l' -> (forall a, In a l -> ~ In a l') -> NoDup (l ++ l').
Proof.
  intros N N' D. induction N as [|a l Ha N IH]; cbn; auto. constructor.
  - rewrite in_app_iff. intros [K|K]; [auto|]. eapply D; [left; reflexivity|exact K].
  - apply IH. intros c Hc. apply D. now right.
Qed.
(** Elements move among the places [refs] only: then all elements are still there. *)
Lemma frame_perm {A} refs (cs cs' c c' : list A) :
  NoDup refs -> holds cs refs c -> holds cs' refs c' -> frame refs cs cs' -> Permutation c c' -> Permutation cs cs'.
Proof.
  intros N H H' [L F] P. destruct cs as [|d cs0]. { destruct cs'; [auto|discriminate]. }
  set (cs := d :: cs0) in *. set (n := length cs).
  set (others := filter (fun i => negb (existsb (Nat.eqb i) refs)) (seq 0 n)).
  assert (Hin : forall i, In i others <-> i < n /\ ~ In i refs).
  { intros i. unfold others. rewrite filter_In, in_seq, negb_true_iff. split.
    - intros [Hi K]. split; [lia|]. intros Hr. apply not_true_iff_false in K. apply K, existsb_exists. exists i. split; auto. apply Nat.eqb_refl.
    - intros [Hi K]. split; [lia|]. apply not_true_iff_false. intros E. apply existsb_exists in E as (j & Hj & E).
      apply Nat.eqb_eq in E. now subst j. }
  assert (Hs : Permutation (seq 0 n) (refs ++ others)).
  { apply NoDup_Permutation; [apply seq_NoDup| |].
    - apply NoDup_join; auto.
      + apply NoDup_filter, seq_NoDup.
      + intros i Hi. rewrite Hin. tauto.
    - intros i. rewrite in_seq, in_app_iff, Hin. split.
      + intros Hi. destruct (in_refs i refs); auto. right. split; auto. lia.
      + intros [Hi|Hi]; [|lia]. split; [lia|]. cbn.
        apply In_nth_error in Hi as [k Hk]. pose proof (holds_nth _ _ _ _ _ H Hk) as E.
        assert (Hk' : k < length refs) by (apply nth_error_Some; congruence). rewrite (Forall2_len _ _ _ H) in Hk'.
        apply nth_error_Some in Hk'. change (i < length cs). apply nth_error_Some. now rewrite E. }
  assert (Hall : forall l : list A, length l = n -> Permutation l (map (fun i => nth i l d) refs ++ map (fun i => nth i l d) others)).
  { intros l Hl. rewrite <- map_app, <- (Permutation_map (fun i => nth i l d) Hs). rewrite <- Hl. now rewrite (map_nth_seq l d). }
  rewrite (Hall cs eq_refl), (Hall cs' L). rewrite (holds_map_nth _ _ _ d H), (holds_map_nth _ _ _ d H').
  apply Permutation_app; auto. erewrite map_ext_in; [apply Permutation_refl|].
  intros i Hi. apply Hin in Hi as [Hi Hr]. specialize (F i Hr). cbn beta.
  destruct (nth_error cs i) as [a|] eqn:E.
  - rewrite (nth_error_default _ _ _ _ E). symmetry. apply nth_error_default. congruence.
  - apply nth_error_None in E. fold n in E. lia.
Qed.

(** The list with the elements [i] and [j] exchanged. *)
Definition swapl {A} (l : list A) (i j : nat) : list A :=
  match nth_error l i, nth_error l j with
  | Some a, Some b => set_nth (set_nth l i b) j a
  | _, _ => l
  end.
Lemma swapl_length {A} (l : list A) i j : length (swapl l i j) = length l.
Proof. unfold swapl. destruct (nth_error l i), (nth_error l j); auto. now rewrite !length_set_nth. Qed.
Lemma swapl_nth {A} (l : list A) i j k : i < length l -> j < length l ->
  nth_error (swapl l i j) k = if k =? j then nth_error l i else if k =? i then nth_error l j else nth_error l k.
Proof.
  intros Hi Hj. unfold swapl.
  destruct (nth_error l i) as [a|] eqn:Ei; [|apply nth_error_None in Ei; lia].
  destruct (nth_error l j) as [b|] eqn:Ej; [|apply nth_error_None in Ej; lia].
  destruct (Nat.eqb_spec k j) as [->|D].
  - rewrite nth_error_set_nth, Nat.eqb_refl, length_set_nth. apply Nat.ltb_lt in Hj. now rewrite Hj.
  - rewrite nth_set_other by auto. destruct (Nat.eqb_spec k i) as [->|D'].
    + eapply nth_set_same; eauto.
    + now rewrite nth_set_other.
Qed.
Lemma swapl_perm {A} (l : list A) i j : Permutation l (swapl l i j).
Proof.
  unfold swapl.
  destruct (nth_error l i) as [a|] eqn:Ei; [|apply Permutation_refl].
  destruct (nth_error l j) as [b|] eqn:Ej; [|apply Permutation_refl].
  destruct (Nat.eq_dec i j) as [->|D].
  - assert (b = a) by congruence. subst b. replace (set_nth (set_nth l j a) j a) with l; auto.
    apply nth_error_ext. intros k. destruct (Nat.eq_dec k j) as [->|D].
    + rewrite (nth_set_same (set_nth l j a) j a a); [exact Ei|]. eapply nth_set_same; eauto.
    + now rewrite !nth_set_other.
  - assert (Ei' : nth_error (set_nth l i b) j = Some b) by (rewrite nth_set_other; auto).
    eapply (frame_perm [i; j] l _ [a; b] [b; a]).
    + constructor; [cbn; intros [K|[]]; congruence|]. constructor; [cbn; tauto|constructor].
    + constructor; auto.
    + constructor. { rewrite nth_set_other by auto. eapply nth_set_same; eauto. } constructor; [eapply nth_set_same; eauto|constructor].
    + split. { now rewrite !length_set_nth. } intros k Hk. cbn in Hk. rewrite !nth_set_other; auto.
    + constructor.
Qed.
Lemma map_swapl {A B} (f : A -> B) l i j : map f (swapl l i j) = swapl (map f l) i j.
Proof.
  unfold swapl. rewrite !nth_error_map. destruct (nth_error l i), (nth_error l j); cbn; auto.
  now rewrite !set_nth_comm_map.
Qed.
Lemma set_nth_mid {A} (pre l post : list A) i a : i < length l ->
  set_nth (pre ++ l ++ post) (length pre + i) a = pre ++ set_nth l i a ++ post.
Proof.
  intros H. destruct (nth_error l i) as [c|] eqn:E; [|apply nth_error_None in E; lia].
  destruct (nth_error_split l i E) as (l1 & l2 & -> & <-).
  rewrite (set_nth_app l1 c l2) by auto. rewrite <- !app_assoc. cbn [app]. rewrite app_assoc.
  rewrite (set_nth_app (pre ++ l1)) by now rewrite app_length. now rewrite <- app_assoc.
Qed.
Lemma nth_error_middle {A} (pre l post : list A) i : i < length l -> nth_error (pre ++ l ++ post) (length pre + i) = nth_error l i.
Proof. intros H. rewrite nth_error_app2 by lia. rewrite nth_error_app1 by lia. f_equal. lia. Qed.

Section Proofs.
Context {V : Type} (moved : V -> V) (quiet : Prop).
Local Notation M := (M V).
Local Notation world := (world V).
Local Notation at_ := (@at_ V quiet).

Section Range.
Context (h : @contents V) (b : nat) (pre post : list (option V)).
Local Notation o := (length pre).

(** In [w] the range has the elements [l]; the rest of the memory is [h]. *)
Definition R (w : world) (l : list V) : Prop := at_ w (upd h b (Some (pre ++ map Some l ++ post))).

Lemma R_cell (l : list V) i v : nth_error l i = Some v -> nth_error (pre ++ map Some l ++ post) (o + i) = Some (Some v).
Proof.
  intros H. rewrite nth_error_middle. { rewrite nth_error_map, H. reflexivity. }
  rewrite map_length. eapply nth_lt; eauto.
Qed.
Lemma R_load {X} (x : X) w l i v (Q : X -> V -> world -> Prop) E :
  R w l -> nth_error l i = Some v -> Q x v w -> wp (load (Some b) (o + i)) x w Q E.
Proof. intros H Hi HQ. eapply wp_load; [exact H|apply upd_same|apply R_cell, Hi|exact HQ]. Qed.
Lemma R_less {X} (x : X) lt w l i j u v (Q : X -> bool -> world -> Prop) (E : X -> world -> Prop) :
  R w l -> nth_error l i = Some u -> nth_error l j = Some v ->
  (forall w', R w' l -> Q x (lt u v) w') -> (forall w', ~ quiet -> R w' l -> E x w') ->
  wp (less_at lt (Some b) (o + i) (Some b) (o + j)) x w Q E.
Proof.
  intros H Hi Hj HQ HE. eapply wp_less_at; [exact H|apply upd_same|apply R_cell; eauto|apply upd_same|apply R_cell; eauto| |]; auto.
Qed.
Lemma R_swap {X} (x : X) w l i j (Q : X -> unit -> world -> Prop) E :
  R w l -> i < length l -> j < length l -> (forall w', R w' (swapl l i j) -> Q x tt w') ->
  wp (swap_at (Some b) (o + i) (o + j)) x w Q E.
Proof.
  intros H Hi Hj HQ.
  destruct (nth_error l i) as [u|] eqn:Ei; [|apply nth_error_None in Ei; lia].
  destruct (nth_error l j) as [v|] eqn:Ej; [|apply nth_error_None in Ej; lia].
  unfold swap_at. apply wp_bind. eapply R_load; eauto. apply wp_bind. eapply R_load; eauto.
  apply wp_bind. eapply wp_store_nth; [exact H|apply upd_same|apply R_cell; eauto|]. intros w1 H1.
  rewrite set_nth_mid in H1 by (now rewrite map_length). rewrite <- set_nth_comm_map in H1.
  assert (Hj1 : exists v1, nth_error (set_nth l i v) j = Some v1).
  { destruct (nth_error (set_nth l i v) j) eqn:K; eauto. apply nth_error_None in K. rewrite length_set_nth in K. lia. }
  destruct Hj1 as [v1 Hj1].
  eapply wp_store_nth; [exact H1|apply upd_same|apply R_cell; eauto|]. intros w2 H2.
  rewrite set_nth_mid in H2 by (now rewrite map_length, length_set_nth). rewrite <- set_nth_comm_map in H2.
  apply HQ. unfold R, swapl. rewrite Ei, Ej. eapply at_ext; [exact H2|]. eapply eqh_trans; [apply upd_upd|apply upd_upd].
Qed.

(** [test] reads only, and gives [f i] at the element [i]. *)
Definition tests {X} (l : list V) (test : nat -> M X bool) (f : nat -> bool) : Prop :=
  forall i (x : X) w (Q : X -> bool -> world -> Prop) (E : X -> world -> Prop), i < length l -> R w l ->
    (forall w', R w' l -> Q x (f i) w') -> (forall w', ~ quiet -> R w' l -> E x w') -> wp (test (o + i)) x w Q E.
(** The predicate [pr] on element [i]. *)
Definition on (l : list V) (pr : V -> bool) (i : nat) : bool :=
  match nth_error l i with Some v => pr v | None => false end.
Lemma tests_at {X} (l : list V) pr : tests (X := X) l (test_at (Some b) pr) (on l pr).
Proof.
  intros i x w Q E Hi H HQ HE. unfold test_at, on in *.
  destruct (nth_error l i) as [v|] eqn:Ei; [|apply nth_error_None in Ei; lia].
  apply wp_bind. eapply R_load; eauto. apply wp_bind. eapply wp_may_throw; [exact H| |].
  - intros w' H'. apply wp_ret. apply HQ. exact H'.
  - intros w' Hq H'. apply HE; auto.
Qed.
Lemma tests_not {X} (l : list V) (test : nat -> M X bool) f : tests l test f -> tests l (not_fn test) (fun i => negb (f i)).
Proof. intros T i x w Q E Hi H HQ HE. unfold not_fn. apply wp_bind. eapply T; [exact Hi|exact H| |exact HE]. intros w' H'. apply wp_ret. auto. Qed.
Lemma tests_less {X} (l : list V) lt m v : nth_error l m = Some v ->
  tests (X := X) l (fun i => less_at lt (Some b) i (Some b) (o + m)) (on l (fun u => lt u v)).
Proof.
  intros Hm i x w Q E Hi H HQ HE. unfold on in *.
  destruct (nth_error l i) as [u|] eqn:Ei; [|apply nth_error_None in Ei; lia]. eapply R_less; eauto.
Qed.

Lemma wp_distance {X} (x : X) i j w (Q : X -> nat -> world -> Prop) E :
  i <= j -> Q x (j - i) w -> wp (distance i j) x w Q E.
Proof. intros H HQ. unfold distance. apply Nat.leb_le in H. rewrite H. now apply wp_ret. Qed.

(** ** find *)
Lemma wp_find_if {X} (x : X) l (test : nat -> M X bool) f first last w (Q : X -> nat -> world -> Prop) (E : X -> world -> Prop) :
  tests l test f -> R w l -> first <= last <= length l ->
  (forall r w', first <= r <= last -> (forall i, first <= i < r -> f i = false) -> (r < last -> f r = true) -> R w' l -> Q x (o + r) w') ->
  (forall w', ~ quiet -> R w' l -> E x w') ->
  wp (find_if test (o + first) (o + last)) x w Q E.
Proof.
  intros T H L HQ HE. unfold find_if. apply wp_bind, wp_distance; [lia|].
  replace (o + last - (o + first)) with (last - first) by lia.
  assert (G : forall n first0 w, first <= first0 -> n = last - first0 -> first0 <= last -> R w l -> (forall i, first <= i < first0 -> f i = false) ->
    wp (find_if_loop test (o + first0) n) x w Q E).
  { clear w H. induction n as [|n IH]; intros first0 w L0 Hn L1 H F; cbn [find_if_loop].
    - apply wp_ret. apply HQ; auto; lia.
    - apply wp_bind. eapply T; [lia|exact H| |exact HE]. intros w' H'. destruct (f first0) eqn:Ef.
      + apply wp_ret. apply HQ; auto; lia.
      + replace (S (o + first0)) with (o + S first0) by lia. apply IH; auto; try lia.
        intros i Hi. destruct (Nat.eq_dec i first0) as [->|]; auto. apply F. lia. }
  apply G; auto; try lia.
Qed.
Lemma wp_find_if_not {X} (x : X) l (test : nat -> M X bool) f first last w (Q : X -> nat -> world -> Prop) (E : X -> world -> Prop) :
  tests l test f -> R w l -> first <= last <= length l ->
  (forall r w', first <= r <= last -> (forall i, first <= i < r -> f i = true) -> (r < last -> f r = false) -> R w' l -> Q x (o + r) w') ->
  (forall w', ~ quiet -> R w' l -> E x w') ->
  wp (find_if_not test (o + first) (o + last)) x w Q E.
Proof.
  intros T H L HQ HE. unfold find_if_not. eapply wp_find_if; [apply tests_not; exact T|exact H|exact L| |exact HE].
  intros r w' Hr F1 F2 H'. apply HQ; auto.
  - intros i Hi. specialize (F1 i Hi). cbv beta in F1. destruct (f i); [reflexivity|discriminate].
  - intros K. specialize (F2 K). cbv beta in F2. destruct (f r); [discriminate|reflexivity].
Qed.
Lemma wp_find_last_if {X} (x : X) l (test : nat -> M X bool) f first last w (Q : X -> nat -> world -> Prop) (E : X -> world -> Prop) :
  tests l test f -> R w l -> first <= last <= length l ->
  (forall r w', first <= r < last -> f r = true -> (forall i, r < i < last -> f i = false) -> R w' l -> Q x (o + r) w') ->
  (forall w', (forall i, first <= i < last -> f i = false) -> R w' l -> Q x (o + last) w') ->
  (forall w', ~ quiet -> R w' l -> E x w') ->
  wp (find_last_if test (o + first) (o + last)) x w Q E.
Proof.
  intros T H L HQ HN HE. unfold find_last_if. apply wp_bind, wp_distance; [lia|].
  replace (o + last - (o + first)) with (last - first) by lia.
  assert (G : forall n w, first + n <= last -> R w l -> (forall i, first + n <= i < last -> f i = false) ->
    wp (find_last_if_loop test (o + first) n (o + last)) x w Q E).
  { clear w H. induction n as [|n IH]; intros w L1 H F; cbn [find_last_if_loop].
    - apply wp_ret. apply HN; auto. intros i Hi. apply F. lia.
    - rewrite <- Nat.add_assoc. apply wp_bind. eapply T; [lia|exact H| |exact HE]. intros w' H'. destruct (f (first + n)) eqn:Ef.
      + apply wp_ret. apply HQ; auto; try lia. intros i Hi. apply F. lia.
      + apply IH; auto; try lia.
        intros i Hi. destruct (Nat.eq_dec i (first + n)) as [->|]; auto. apply F. lia. }
  apply G; auto; try lia.
Qed.

(** ** partition_point *)
Lemma wp_partition_point {X} (x : X) l (test : nat -> M X bool) f first count w (Q : X -> nat -> world -> Prop) (E : X -> world -> Prop) :
  tests l test f -> R w l -> first + count <= length l ->
  (forall i j, first <= i -> i < j < first + count -> f j = true -> f i = true) ->
  (forall r w', first <= r <= first + count -> (forall i, first <= i < r -> f i = true) -> (forall i, r <= i < first + count -> f i = false) ->
     R w' l -> Q x (o + r) w') ->
  (forall w', ~ quiet -> R w' l -> E x w') ->
  wp (partition_point test (o + first) count) x w Q E.
Proof.
  intros T H L Hm HQ HE. unfold partition_point.
  assert (G : forall fuel first0 c w, first <= first0 -> c < fuel -> first0 + c <= first + count -> R w l ->
    (forall i, first <= i < first0 -> f i = true) -> (forall i, first0 + c <= i < first + count -> f i = false) ->
    wp (partition_point_loop fuel test (o + first0) c) x w Q E).
  { clear w H. induction fuel as [|fuel IH]; intros first0 c w L0 Hf L1 H F1 F2; [lia|]. cbn [partition_point_loop].
    destruct (Nat.eqb_spec c 0) as [->|N].
    - apply wp_ret. apply HQ; auto; try lia. intros i Hi. apply F2. lia.
    - assert (Hs : c / 2 < c) by (apply Nat.div_lt; lia). set (step := c / 2) in *. clearbody step.
      rewrite <- Nat.add_assoc. apply wp_bind. eapply T; [lia|exact H| |exact HE]. intros w' H'. destruct (f (first0 + step)) eqn:Ef.
      + replace (S (o + (first0 + step))) with (o + S (first0 + step)) by lia. apply IH; auto; try lia.
        * intros i Hi. destruct (Nat.eq_dec i (first0 + step)) as [->|]; auto. apply Hm with (first0 + step); auto; lia.
        * intros i Hi. apply F2. lia.
      + apply IH; auto; try lia. intros i Hi. destruct (f i) eqn:Ei; auto.
        destruct (Nat.eq_dec i (first0 + step)) as [->|]; [congruence|].
        rewrite (Hm (first0 + step) i) in Ef; auto; lia. }
  apply G; auto; try lia.
Qed.

(** ** min_element *)
Lemma wp_min_element {X} (x : X) l (lt : V -> V -> bool) w (Q : X -> nat -> world -> Prop) (E : X -> world -> Prop) :
  R w l ->
  (l = [] -> Q x o w) ->
  (forall r v w', nth_error l r = Some v ->
     (* the comparisons that were made: with everything after [r] it was the smallest *)
     (exists s : nat -> nat, s 0 = 0 /\ s (length l - 1) = r /\
        forall i u c, i < length l - 1 -> nth_error l (s i) = Some u -> nth_error l (S i) = Some c ->
          s (S i) = if lt c u then S i else s i) ->
     R w' l -> Q x (o + r) w') ->
  (forall w', ~ quiet -> R w' l -> E x w') ->
  wp (min_element lt (Some b) o (length l)) x w Q E.
Proof.
  intros H H0 HQ HE. destruct l as [|a l0]; cbn [length min_element]. { apply wp_ret. auto. }
  set (l := a :: l0) in *. clear H0.
  assert (Hl : length l = S (length l0)) by reflexivity.
  set (sel := fix sel (n : nat) : nat := match n with 0 => 0 | S n => match nth_error l (sel n), nth_error l (S n) with
                           | Some u, Some c => if lt c u then S n else sel n | _, _ => sel n end end).
  assert (Hle : forall n : nat, sel n <= n).
  { induction n as [|n IH]; cbn; auto. destruct (nth_error l (sel n)); [|lia]. destruct (nth_error l0 n); [|lia]. destruct (lt _ _); lia. }
  assert (G : forall n k w, k + n = length l0 -> R w l ->
    wp (min_element_loop lt (Some b) (o + sel k) (o + S k) n) x w Q E).
  { clear w H. induction n as [|n IH]; intros k w Hk H; cbn [min_element_loop].
    - apply wp_ret. assert (Hv : exists v, nth_error l (sel k) = Some v).
      { destruct (nth_error l (sel k)) eqn:K; eauto. apply nth_error_None in K. specialize (Hle k). lia. }
      destruct Hv as [v Hv]. apply (HQ (sel k) v); auto. exists sel. split; [reflexivity|].
      replace (length l - 1) with k by lia. split; [reflexivity|].
      intros i u c Hi Hu Hc. change (sel (S i)) with (match nth_error l (sel i), nth_error l (S i) with
                           | Some u, Some c => if lt c u then S i else sel i | _, _ => sel i end). now rewrite Hu, Hc.
    - assert (Hu : exists u, nth_error l (sel k) = Some u).
      { destruct (nth_error l (sel k)) eqn:K; eauto. apply nth_error_None in K. specialize (Hle k). lia. }
      assert (Hc : exists c, nth_error l (S k) = Some c).
      { destruct (nth_error l (S k)) eqn:K; eauto. apply nth_error_None in K. lia. }
      destruct Hu as [u Hu], Hc as [c Hc]. apply wp_bind. eapply R_less; eauto. intros w' H'.
      replace (if lt c u then o + S k else o + sel k) with (o + sel (S k)).
      { replace (S (o + S k)) with (o + S (S k)) by lia. apply IH; auto. lia. }
      change (sel (S k)) with (match nth_error l (sel k), nth_error l (S k) with
                           | Some u, Some c => if lt c u then S k else sel k | _, _ => sel k end).
      rewrite Hu, Hc. destruct (lt c u); reflexivity. }
  replace (S o) with (o + 1) by lia. specialize (G (length l0) 0 w (eq_refl _) H).
  change (sel 0) with 0 in G. rewrite Nat.add_0_r in G. exact G.
Qed.

(** ** partition *)
Lemma wp_advance_last {X} (x : X) l (test : nat -> M X bool) f first last w (Q : X -> nat -> world -> Prop) (E : X -> world -> Prop) :
  tests l test f -> R w l -> first <= last <= length l ->
  (forall r w', first <= r <= last -> (first < r -> r < last /\ f r = true) -> (r = first -> first < last -> f first = false \/ f r = true) ->
     (forall i, r < i < last -> f i = false) -> R w' l -> Q x (o + r) w') ->
  (forall w', ~ quiet -> R w' l -> E x w') ->
  wp (advance_last test (o + first) (last - first)) x w Q E.
Proof.
  intros T H L HQ HE.
  assert (G : forall n w, first + n <= last -> R w l -> (forall i, first + n <= i < last -> f i = false) ->
    wp (advance_last test (o + first) n) x w Q E).
  { clear w H. induction n as [|n IH]; intros w L1 H F; cbn [advance_last].
    - apply wp_ret. apply HQ; auto; try lia.
      + intros _ K. left. apply F. lia.
      + intros i Hi. apply F. lia.
    - rewrite <- Nat.add_assoc. apply wp_bind. eapply T; [lia|exact H| |exact HE]. intros w' H'. destruct (f (first + n)) eqn:Ef.
      + apply wp_ret. apply HQ; auto; try lia.
        * intros K. split; auto. lia.
        * intros i Hi. apply F. lia.
      + apply IH; auto; try lia.
        intros i Hi. destruct (Nat.eq_dec i (first + n)) as [->|]; auto. apply F. lia. }
  apply G; auto; try lia.
Qed.

(** The elements before [r] fulfil the predicate and those from [r] on do not. *)
Definition split_at (pr : V -> bool) (l : list V) (r : nat) : Prop :=
  r <= length l /\ (forall i, i < r -> on l pr i = true) /\ (forall i, r <= i -> on l pr i = false).
Lemma on_out (l : list V) pr i : length l <= i -> on l pr i = false.
Proof. intros H. unfold on. apply nth_error_None in H. now rewrite H. Qed.
Lemma on_lt (l : list V) pr i : on l pr i = true -> i < length l.
Proof. unfold on. intros H. destruct (nth_error l i) eqn:E; [|discriminate]. eapply nth_lt; eauto. Qed.
Lemma on_swapl (l : list V) pr i j k : i < length l -> j < length l ->
  on (swapl l i j) pr k = if k =? j then on l pr i else if k =? i then on l pr j else on l pr k.
Proof. intros Hi Hj. unfold on. rewrite swapl_nth by auto. destruct (k =? j); auto. destruct (k =? i); auto. Qed.

Lemma wp_partition {X} (x : X) l pr n w (Q : X -> nat -> world -> Prop) (E : X -> world -> Prop) :
  R w l -> n = length l ->
  (forall l' r w', Permutation l l' -> split_at pr l' r -> R w' l' -> Q x (o + r) w') ->
  (forall l' w', ~ quiet -> Permutation l l' -> R w' l' -> E x w') ->
  wp (partition (Some b) (test_at (Some b) pr) o (o + n)) x w Q E.
Proof.
  intros H -> HQ HE. unfold partition. apply wp_bind.
  replace (find_if_not (test_at (Some b) pr) o) with (find_if_not (X := X) (test_at (Some b) pr) (o + 0)) by (now rewrite Nat.add_0_r).
  eapply wp_find_if_not; [apply tests_at|exact H|lia| |eauto].
  intros r1 w1 Hr1 F1 F1' H1. apply wp_bind, wp_distance; [lia|].
  replace (o + length l - (o + r1)) with (length l - r1) by lia. apply wp_bind.
  eapply wp_advance_last; [apply tests_at|exact H1|lia| |eauto].
  intros r2 w2 Hr2 F2 F2' F3 H2. replace (o + length l - o) with (length l) by lia.
  assert (Hinit : r1 = r2 -> split_at pr l r1).
  { intros E2. split; [lia|]. split; [intros i Hi; apply F1; lia|]. intros i Hi.
    destruct (le_lt_dec (length l) i) as [G|G]; [now apply on_out|].
    destruct (Nat.eq_dec i r1) as [->|]; [apply F1'; lia|]. apply F3. lia. }
  assert (Hstep : r1 < r2 -> on l pr r1 = false /\ on l pr r2 = true /\ (forall i, i < r1 -> on l pr i = true) /\ (forall i, r2 < i -> on l pr i = false)).
  { intros K. split; [apply F1'; lia|]. split; [now apply F2|]. split; [intros i Hi; apply F1; lia|].
    intros i Hi. destruct (le_lt_dec (length l) i) as [G|G]; [now apply on_out|]. apply F3. lia. }
  assert (Hle : r1 <= r2) by lia.
  assert (Hf : r2 - r1 < S (length l)) by lia.
  clear F1 F1' F2 F2' F3 H1 w w1 H Hr1 Hr2.
  assert (P : Permutation l l) by apply Permutation_refl. revert P H2 Hinit Hstep Hle Hf.
  generalize (S (length l)) as fuel. intros fuel. generalize l at 2 3 4 5 6 7 8 as l1. intros l1. revert l1 r1 r2 w2.
  induction fuel as [|fuel IH]; intros l1 r1 r2 w2 P H2 Hinit Hstep Hle Hf; [lia|]. cbn [partition_loop].
  destruct (Nat.eqb_spec (o + r1) (o + r2)) as [K|K].
  { apply wp_ret. eapply HQ; eauto. apply Hinit. lia. }
  assert (Lr : r1 < r2) by lia. destruct (Hstep Lr) as (S1 & S2 & S3 & S4).
  assert (L2 : r2 < length l1) by (eapply on_lt; eauto).
  apply wp_bind. eapply R_swap; [exact H2|lia|lia|]. intros w3 H3.
  set (l2 := swapl l1 r1 r2) in *.
  assert (P2 : Permutation l l2) by (etransitivity; [exact P|apply swapl_perm]).
  assert (Len : length l2 = length l1) by apply swapl_length.
  assert (On : forall k, on l2 pr k = if k =? r2 then false else if k =? r1 then true else on l1 pr k).
  { intros k. unfold l2. rewrite on_swapl by lia. now rewrite S1, S2. }
  assert (B1 : forall i, i <= r1 -> on l2 pr i = true).
  { intros i Hi. rewrite On. destruct (Nat.eqb_spec i r2); [lia|]. destruct (Nat.eqb_spec i r1); auto. apply S3. lia. }
  assert (B2 : forall i, r2 <= i -> on l2 pr i = false).
  { intros i Hi. rewrite On. destruct (Nat.eqb_spec i r2); auto. destruct (Nat.eqb_spec i r1); [lia|]. apply S4. lia. }
  apply wp_bind. eapply wp_find_if_not; [apply tests_at|exact H3|lia| |].
  2:{ intros w' Hq H'. eapply HE; eauto. }
  intros r3 w4 Hr3 F3 F3' H4.
  destruct (Nat.eqb_spec (o + r3) (o + r2)) as [K3|K3].
  { apply wp_ret. eapply HQ; eauto. assert (r3 = r2) by lia. subst r3. split; [lia|]. split; auto.
    intros i Hi. destruct (le_lt_dec i r1); auto. apply F3. lia. }
  apply wp_bind, wp_distance; [lia|]. replace (o + r2 - (o + r3)) with (r2 - r3) by lia.
  apply wp_bind. eapply wp_advance_last; [apply tests_at|exact H4|lia| |].
  2:{ intros w' Hq H'. eapply HE; eauto. }
  intros r4 w5 Hr4 F4 F4' F5 H5.
  assert (Hr3n : on l2 pr r3 = false) by (apply F3'; lia).
  assert (C1 : forall i, i < r3 -> on l2 pr i = true).
  { intros i Hi. destruct (le_lt_dec i r1); auto. apply F3. lia. }
  assert (C2 : forall i, r4 < i -> on l2 pr i = false).
  { intros i Hi. destruct (le_lt_dec r2 i); auto. }
  assert (r1 < r3).
  { destruct (le_lt_dec r3 r1) as [G|G]; auto. specialize (B1 r3 G). congruence. }
  eapply (IH l2 r3 r4 w5); auto; try lia.
  - intros E4. split; [lia|]. split; auto. intros i Hi. destruct (Nat.eq_dec i r3) as [->|]; auto. apply C2. lia.
  - intros E4. split; [|split; [|split]]; auto. now apply F4.
Qed.

Lemma wp_partition_forward {X} (x : X) l pr n w (Q : X -> nat -> world -> Prop) (E : X -> world -> Prop) :
  R w l -> n = length l ->
  (forall l' r w', Permutation l l' -> split_at pr l' r -> R w' l' -> Q x (o + r) w') ->
  (forall l' w', ~ quiet -> Permutation l l' -> R w' l' -> E x w') ->
  wp (partition_forward (Some b) (test_at (Some b) pr) o (o + n)) x w Q E.
Proof.
  intros H -> HQ HE. unfold partition_forward. apply wp_bind.
  replace (find_if_not (test_at (Some b) pr) o) with (find_if_not (X := X) (test_at (Some b) pr) (o + 0)) by (now rewrite Nat.add_0_r).
  eapply wp_find_if_not; [apply tests_at|exact H|lia| |eauto].
  intros r w1 Hr F1 F2 H1.
  destruct (Nat.eqb_spec (o + r) (o + length l)) as [K|K].
  { apply wp_ret. eapply HQ; eauto. assert (r = length l) by lia. subst r. split; [lia|]. split.
    - intros i Hi. apply F1. lia.
    - intros i Hi. now apply on_out. }
  apply wp_bind, wp_distance; [lia|].
  replace (o + length l - S (o + r)) with (length l - S r) by lia. replace (S (o + r)) with (o + S r) by lia.
  assert (G : forall n l1 r it w, it + n = length l1 -> r < it -> Permutation l l1 -> R w l1 ->
    (forall i, i < r -> on l1 pr i = true) -> (forall i, r <= i < it -> on l1 pr i = false) ->
    wp (partition_forward_loop (Some b) (test_at (Some b) pr) (o + r) (o + it) n) x w Q E).
  { clear - HQ HE. induction n as [|n IH]; intros l1 r it w Hn L P H F1 F2; cbn [partition_forward_loop].
    - apply wp_ret. eapply HQ; eauto. split; [lia|]. split; auto. intros i Hi.
      destruct (le_lt_dec (length l1) i); [now apply on_out|]. apply F2. lia.
    - apply wp_bind. eapply tests_at; [|exact H| |]; [lia| |].
      2:{ intros w' Hq H'. eapply HE; eauto. }
      intros w' H'. replace (S (o + it)) with (o + S it) by lia. destruct (on l1 pr it) eqn:Eit.
      + apply wp_bind. eapply R_swap; [exact H'|lia|lia|]. intros w2 H2.
        replace (S (o + r)) with (o + S r) by lia.
        assert (On : forall k, on (swapl l1 it r) pr k = if k =? r then true else if k =? it then false else on l1 pr k).
        { intros k. rewrite on_swapl by lia. rewrite Eit. rewrite (F2 r) by lia. reflexivity. }
        apply (IH (swapl l1 it r)); auto; try lia.
        * rewrite swapl_length. lia.
        * etransitivity; [exact P|apply swapl_perm].
        * intros i Hi. rewrite On. destruct (Nat.eqb_spec i r); auto. destruct (Nat.eqb_spec i it); [lia|]. apply F1. lia.
        * intros i Hi. rewrite On. destruct (Nat.eqb_spec i r); [lia|]. destruct (Nat.eqb_spec i it); auto. apply F2. lia.
      + apply IH with (l1 := l1); auto; try lia. intros i Hi. destruct (Nat.eq_dec i it) as [->|]; auto. apply F2. lia. }
  apply (G _ l); auto; try lia.
  - intros i Hi. apply F1. lia.
  - intros i Hi. assert (i = r) by lia. subst i. apply F2. lia.
Qed.

(** ** iterator_partition *)
Lemma wp_iterator_partition {X} (x : X) lt l m v n w (Q : X -> nat -> world -> Prop) (E : X -> world -> Prop) :
  strict_weak_order lt -> R w l -> n = length l -> nth_error l m = Some v ->
  (forall l' r w', Permutation l l' -> split_at (fun u => lt u v) l' r -> R w' l' -> Q x (o + r) w') ->
  (forall l' w', ~ quiet -> Permutation l l' -> R w' l' -> E x w') ->
  wp (iterator_partition lt (Some b) o (o + m) (o + n)) x w Q E.
Proof.
  intros Hlt H -> Hm HQ HE. unfold iterator_partition. apply wp_bind.
  assert (Lm : m < length l) by (eapply nth_lt; eauto).
  replace ((o =? o + length l) || negb (o + m =? o + length l)) with true.
  2:{ symmetry. apply orb_true_iff. right. apply negb_true_iff, Nat.eqb_neq. lia. }
  change (require true) with (ret (V := V) (X := X) tt). apply wp_ret.
  set (pr := fun u => lt u v).
  assert (G : forall fuel l1 first mid last w, last - first < fuel -> first <= mid -> mid < length l1 -> first <= last <= length l1 ->
    Permutation l l1 -> R w l1 -> nth_error l1 mid = Some v ->
    (forall i, i < first -> on l1 pr i = true) -> (forall i, last <= i -> on l1 pr i = false) ->
    wp (iterator_partition_loop fuel lt (Some b) (o + first) (o + mid) (o + last)) x w Q E).
  { clear - HQ HE Hlt. induction fuel as [|fuel IH]; intros l1 first mid last w Hf L1 L2 L3 P H Hm F1 F2; [lia|].
    cbn [iterator_partition_loop]. apply wp_bind.
    assert (Om : on l1 pr mid = false) by (unfold on; rewrite Hm; apply Hlt).
    eapply wp_find_if_not; [apply tests_less; exact Hm|exact H|lia| |].
    2:{ intros w' Hq H'. eapply HE; eauto. }
    intros f1 w1 Hf1 G1 G1' H1. fold pr in G1, G1'.
    assert (Of : on l1 pr f1 = false).
    { destruct (Nat.eq_dec f1 mid) as [->|]; auto. apply G1'. lia. }
    assert (Lf : f1 <= last).
    { destruct (le_lt_dec f1 last) as [K|K]; auto. specialize (F2 last (le_n _)). rewrite G1 in F2; [discriminate|lia]. }
    assert (B1 : forall i, i < f1 -> on l1 pr i = true).
    { intros i Hi. destruct (le_lt_dec first i); auto. }
    destruct (Nat.eqb_spec (o + f1) (o + last)) as [K|K].
    { apply wp_ret. eapply HQ; eauto. assert (f1 = last) by lia. subst f1. split; [lia|]. split; auto. }
    replace (S (o + f1)) with (o + S f1) by lia.
    apply wp_bind. eapply wp_find_last_if; [apply tests_less; exact Hm|exact H1|lia| | |].
    3:{ intros w' Hq H'. eapply HE; eauto. }
    2:{ intros w2 G2 H2. rewrite Nat.eqb_refl. apply wp_ret. eapply HQ; eauto. split; [lia|]. split; auto.
        intros i Hi. destruct (Nat.eq_dec i f1) as [->|]; auto. destruct (le_lt_dec last i); auto. apply G2. lia. }
    intros r w2 Hr Or G2 H2. fold pr in Or, G2.
    replace (o + r =? o + last) with false by (symmetry; apply Nat.eqb_neq; lia).
    apply wp_bind. eapply R_swap; [exact H2|lia|lia|]. intros w3 H3.
    replace (S (o + f1)) with (o + S f1) by lia.
    replace (if o + f1 =? o + mid then o + r else o + mid) with (o + (if f1 =? mid then r else mid)).
    2:{ destruct (Nat.eqb_spec f1 mid); destruct (Nat.eqb_spec (o + f1) (o + mid)); lia. }
    assert (On : forall k, on (swapl l1 f1 r) pr k = if k =? r then false else if k =? f1 then true else on l1 pr k).
    { intros k. rewrite on_swapl by lia. now rewrite Of, Or. }
    apply (IH (swapl l1 f1 r)); rewrite ?swapl_length; try lia.
    - destruct (Nat.eqb_spec f1 mid); lia.
    - destruct (Nat.eqb_spec f1 mid); lia.
    - etransitivity; [exact P|apply swapl_perm].
    - exact H3.
    - rewrite swapl_nth by lia. destruct (Nat.eqb_spec f1 mid) as [->|D].
      + now rewrite Nat.eqb_refl.
      + destruct (Nat.eqb_spec mid r) as [->|D']; [congruence|]. destruct (Nat.eqb_spec mid f1); [congruence|]. exact Hm.
    - intros i Hi. rewrite On. destruct (Nat.eqb_spec i r); [lia|]. destruct (Nat.eqb_spec i f1); auto. apply B1. lia.
    - intros i Hi. rewrite On. destruct (Nat.eqb_spec i r); auto. destruct (Nat.eqb_spec i f1); [lia|].
      destruct (le_lt_dec last i); auto. apply G2. lia. }
  replace o with (o + 0) at 3 by lia. replace (o + length l - o) with (length l) by lia.
  apply (G _ l); auto; try lia. intros i Hi. now apply on_out.
Qed.
End Range.
End Proofs.
