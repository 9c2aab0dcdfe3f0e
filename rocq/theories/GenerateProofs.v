(** * Proofs about ranges that call a function *)

From Coq Require Import List ZArith Bool Lia.
From Verif Require Import Range SpecRange RangeProofs SpecSequence Generate.
Import ListNotations.
Local Open Scope Z_scope.

Lemma generate_run {W A} (f : W -> option A * W) w xs w' : calls_until_none f w xs w' ->
  forall fuel c, (length xs < fuel)%nat -> run fuel (generate f) (c, w) = Val (xs, (None, w')).
Proof.
  assert (forall w xs w', calls_until_none f w xs w' -> forall fuel, (length xs < fuel)%nat ->
    run_from fuel (generate f) tt (f w) = Val (xs, (None, w'))) as Hrun.
  { clear. intros w xs w' H. induction H as [w w' E|w a w1 xs w' E H IH]; intros [|fuel] Hf; cbn in Hf; try lia.
    - rewrite E. reflexivity.
    - rewrite E. cbn [run_from generate s_stop s_get s_next fst snd bind].
      rewrite IH by lia. reflexivity. }
  intros H fuel c Hf. unfold run. cbn [generate s_first bind fst snd]. now apply Hrun.
Qed.

Lemma generate_n_run {W A} (f : W -> A * W) n w xs w' max : calls f n w xs w' -> Z.of_nat n <= max ->
  forall fuel, (n < fuel)%nat -> run fuel (generate_n max (Z.of_nat n) f) w = Val (xs, w').
Proof.
  intros H Hm. unfold run. cbn [generate_n s_first bind fst snd].
  assert (forall size fuel, (n < fuel)%nat -> run_from fuel (generate_n max size f) (Z.of_nat n) w = Val (xs, w')) as Hrun; [|apply Hrun].
  intros size. induction H as [w|n w a w1 xs w' E H IH]; intros [|fuel] Hf; cbn in Hf; try lia.
  - reflexivity.
  - assert (Z.of_nat (S n) =? 0 = false) as E0 by (apply Z.eqb_neq; lia). assert (max =? 0 = false) as E1 by (apply Z.eqb_neq; lia).
    cbn [run_from generate_n s_stop s_get s_next fst snd bind]. rewrite E0, E, E1. cbn [fst snd bind]. unfold assume.
    destruct (Z.leb_spec 0 (Z.of_nat (S n) - 1)); [|lia]. cbn [bind fst snd]. replace (Z.of_nat (S n) - 1) with (Z.of_nat n) by lia.
    rewrite IH by lia. reflexivity.
Qed.

Lemma generate_until_run {W A} (f : W -> A * W) is_done w xs w' : calls_until_done f is_done w xs w' ->
  forall fuel, (length xs < fuel)%nat -> run fuel (generate_until f is_done) w = Val (xs, w').
Proof.
  intros H. unfold run. cbn [generate_until s_first bind fst snd].
  induction H as [w w' E|w w1 a w2 xs w' E1 E2 H IH]; intros [|fuel] Hf; cbn in Hf; try lia; cbn [run_from generate_until s_stop s_get s_next fst snd bind].
  - now rewrite E.
  - rewrite E1. cbn [fst snd bind]. rewrite E2. cbn [fst snd bind]. rewrite IH by lia. reflexivity.
Qed.

Lemma idempotent_lists {A} max n (read : Z -> res A) xs : length xs = n -> Z.of_nat n <= max ->
  (forall i x, nth_error xs i = Some x -> read (Z.of_nat i) = Val x) -> lists (idempotent_generate_n max (Z.of_nat n) read) xs.
Proof.
  intros Hlen Hm Hr. exists Z.of_nat. unfold idempotent_generate_n, assume.
  assert (forall z, 0 <= z <= max -> ((0 <=? z) && (z <=? max)) = true) as Hin by (intros z Hz; apply andb_true_intro; split; apply Z.leb_le; lia).
  constructor; cbn [first stop get next same last prev plus backward minus order reach size if_any]; rewrite ?Hlen.
  - reflexivity.
  - intros i Hi. rewrite Hin by lia. cbn [bind]. f_equal. destruct (Nat.eqb_spec i n); [apply Z.eqb_eq|apply Z.eqb_neq]; lia.
  - exact Hr.
  - intros i Hi. destruct (Z.eqb_spec max 0); [lia|]. rewrite Hin by lia. f_equal. lia.
  - intros i j Hi Hj. f_equal. destruct (Nat.eqb_spec i j); [apply Z.eqb_eq|apply Z.eqb_neq]; lia.
  - rewrite Hin by lia. reflexivity.
  - intros i Hi. destruct (Z.eqb_spec max 0); [lia|]. rewrite Hin by lia. f_equal. lia.
  - intros i d Hi Hd _. rewrite Hin by lia. f_equal. lia.
  - reflexivity.
  - intros i j Hi Hj. f_equal. apply Nat2Z.inj_compare.
  - lia.
  - reflexivity.
Qed.
Lemma repeat_lists {A} max n (value : A) : Z.of_nat n <= max -> lists (repeat_n max (Z.of_nat n) value) (repeat value n).
Proof.
  intros Hm. apply idempotent_lists; [apply repeat_length|exact Hm|]. intros i x Hx. f_equal. apply nth_error_In in Hx. now apply repeat_spec in Hx.
Qed.
Lemma indexed_lists {A} max n (f : Z -> A) : Z.of_nat n <= max ->
  lists (indexed_generate_n max (Z.of_nat n) f) (map (fun i => f (Z.of_nat i)) (seq 0 n)).
Proof.
  intros Hm. apply idempotent_lists; [now rewrite map_length, seq_length|exact Hm|]. intros i x Hx.
  assert (i < n)%nat as Hi by (apply nth_error_in_length in Hx; now rewrite map_length, seq_length in Hx).
  rewrite nth_error_map in Hx. assert (nth_error (seq 0 n) i = Some i) as E.
  { rewrite (nth_error_nth' _ 0%nat) by (now rewrite seq_length). now rewrite seq_nth by auto. }
  rewrite E in Hx. cbn in Hx. injection Hx as <-. unfold assume. destruct (Z.eqb_spec max 0); [lia|].
  destruct (Z.leb_spec 0 (Z.of_nat i)); [|lia]. destruct (Z.leb_spec (Z.of_nat i) (max - 1)); [reflexivity|lia].
Qed.
