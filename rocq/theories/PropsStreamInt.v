(** * Property C127: bounded integers on streams

    Vocabulary in Spec.v, SpecText.v, SpecStringIn.v ([all_spaces]) and SpecStreamInt.v. Text is a list of character
    codes. [space] says which characters are spaces in the locale of the stream. *)

From Coq Require Import List Bool ZArith Lia.
From Verif Require Import Cxx Core Spec SpecText StringIn SpecStringIn StreamInt SpecStreamInt StreamIntProofs.
Import ListNotations.
Open Scope Z_scope.

(** ** out << x writes the canonical numeral of x, whatever type x is stored in. *)
Theorem C127_write : forall B x, valid B -> holds_value B x -> fits_64 B ->
  exists text, write B x = Some (Ok text) /\ canonical text x.
Proof. exact write_exact. Qed.
Print Assumptions C127_write.

(** Exactly the types that fit into 64 bits can be written and read. *)
Theorem C127_compiles : forall space B x s, valid B -> holds_value B x ->
  (write B x <> None <-> fits_64 B) /\ (read space B s <> None <-> fits_64 B).
Proof. intros. split; [apply write_compiles|apply read_compiles]; assumption. Qed.
Print Assumptions C127_compiles.

(** ** in >> x for a number of the type: x is the number, and the stream is after the number. *)
Theorem C127_read : forall space B s spaces num tail v,
  valid B -> fits_64 B -> ordinary space -> offers s (spaces ++ num ++ tail) ->
  all_spaces space spaces -> number num v -> ends_number tail -> holds_value B v ->
  exists s', read space B s = Some (s', Ok v) /\ left_with s tail false s'.
Proof. exact read_ok. Qed.
Print Assumptions C127_read.

(** A number that is not of the type is always reported: by an exception, or by the stream's failbit, and then x is
    the nearest value of its type. The condition on the number is needed: see [C127_minus_refuted]. *)
Theorem C127_out_of_range_partial : forall space B s spaces num tail v,
  valid B -> fits_64 B -> ordinary space -> offers s (spaces ++ num ++ tail) ->
  all_spaces space spaces -> number num v -> ends_number tail -> ~ holds_value B v ->
  0 <= v \/ lo B < 0 \/ hi B <= 65535 ->
  exists s' o fail, read space B s = Some (s', o) /\ left_with s tail fail s' /\
    (o = Throw \/ fail = true /\ (hi B < v /\ o = Ok (hi B) \/ v < lo B /\ o = Ok (lo B))).
Proof. exact read_out_of_range. Qed.
Print Assumptions C127_out_of_range_partial.

(** What was written is read back. *)
Theorem C127_round_trip : forall space B x w s spaces tail,
  valid B -> fits_64 B -> ordinary space -> holds_value B x -> write B x = Some (Ok w) ->
  offers s (spaces ++ w ++ tail) -> all_spaces space spaces -> ends_number tail ->
  exists s', read space B s = Some (s', Ok x) /\ left_with s tail false s'.
Proof.
  intros space B x w s spaces tail HB F Or Hx W O A E. destruct (write_exact B x HB Hx F) as (w' & W' & C).
  rewrite W' in W. injection W as <-. exact (read_ok space B s spaces w' tail x HB F Or O A (canonical_number _ _ C) E Hx).
Qed.
Print Assumptions C127_round_trip.

(** Any number of values of any types, written with spaces between them, are read back in order. *)
Theorem C127_sequence : forall space, ordinary space -> forall last items s,
  Forall (fun it => all_spaces space (fst it) /\ valid (fst (snd it)) /\ fits_64 (fst (snd it)) /\ holds_value (fst (snd it)) (snd (snd it))) items ->
  (forall it, In it (tl items) -> fst it <> []) -> ends_number last ->
  forall text, written items last = Some text -> offers s text ->
  exists s', read_all space (map (fun it => fst (snd it)) items) s = Some (s', Ok (map (fun it => snd (snd it)) items)) /\
    st_rest s' = last /\ st_fail s' = false.
Proof. exact read_sequence. Qed.
Print Assumptions C127_sequence.

(** ** What is false *)

(** "A failed read leaves x as it was". When there is no number, x becomes 0 (or, when 0 is not a value of its type, an
    exception leaves the function, so that the loop while (in >> x) does not end normally). *)
Theorem C127_no_number_refuted : forall space B s spaces c l, valid B -> fits_64 B ->
  offers s (spaces ++ c :: l) -> all_spaces space spaces -> space c = false -> no_number (c :: l) ->
  exists s', read space B s = Some (s', if (lo B <=? 0) && (0 <=? hi B) then Ok 0 else Throw) /\ st_fail s' = true.
Proof. exact read_no_number. Qed.
Print Assumptions C127_no_number_refuted.

(** "Reading at the end of the text, or from a stream that has failed, just fails". For every type it reads a variable
    that has not been initialized. *)
Theorem C127_end_refuted : forall space B s, valid B -> fits_64 B ->
  good s = false \/ st_skipws s = true /\ all_spaces space (st_rest s) ->
  exists s', read space B s = Some (s', UB) /\ st_fail s' = true.
Proof. exact read_nothing. Qed.
Print Assumptions C127_end_refuted.

Ltac concrete_valid := unfold valid, wf_tv; repeat match goal with |- _ /\ _ => split end; vm_compute; (reflexivity || congruence).
Ltac concrete_decimal :=
  match goal with |- decimal ?ds ?v =>
    refine (eq_ind (magnitude ds) (decimal ds) (decimal_of ds _) v eq_refl); repeat constructor; unfold digit; lia
  end.
Definition blank (c : Z) : bool := (c =? 32) || (9 <=? c) && (c <=? 13).
Lemma blank_ordinary : ordinary blank.
Proof. intros c H. unfold digit, blank in *. lia. Qed.

(** "A number out of range is always reported": reading -1 into integer<0, 4294967295> gives 4294967295, and reading
    -4294967295 into integer<0, 100000> gives 1, both without an exception or failure. *)
Theorem C127_minus_refuted : exists B s num v v' s' B2 s2 num2 v2 v2' s2',
  (valid B /\ fits_64 B /\ offers s num /\ number num v /\ ~ holds_value B v /\ hi B = 4294967295 /\
   read blank B s = Some (s', Ok v') /\ st_fail s' = false) /\
  (valid B2 /\ fits_64 B2 /\ offers s2 num2 /\ number num2 v2 /\ ~ holds_value B2 v2 /\ hi B2 = 100000 /\
   read blank B2 s2 = Some (s2', Ok v2') /\ st_fail s2' = false).
Proof.
  exists (Bty (lit 0) (TV smax_t 4294967295)).
  exists (Stream [45; 49] 0 true false false false), [45; 49], (-1), 4294967295. eexists.
  exists (Bty (lit 0) (lit 100000)).
  exists (Stream [45; 52; 50; 57; 52; 57; 54; 55; 50; 57; 53] 0 true false false false), [45; 52; 50; 57; 52; 57; 54; 55; 50; 57; 53], (-4294967295), 1.
  eexists. split.
  - split; [concrete_valid|]. split; [right; split; vm_compute; congruence|]. split; [repeat split|]. split.
    { exists [49]. split; [discriminate|]. right. right. split; [reflexivity|]. concrete_decimal. }
    split; [intros [X _]; vm_compute in X; congruence|]. split; [reflexivity|]. split; vm_compute; reflexivity.
  - split; [concrete_valid|]. split; [right; split; vm_compute; congruence|]. split; [repeat split|]. split.
    { exists [52; 50; 57; 52; 57; 54; 55; 50; 57; 53]. split; [discriminate|]. right. right. split; [reflexivity|]. concrete_decimal. }
    split; [intros [X _]; vm_compute in X; congruence|]. split; [reflexivity|]. split; vm_compute; reflexivity.
Qed.
Print Assumptions C127_minus_refuted.

(** ** A concrete case: integer<-5, 300> and integer<0, 9> written and read, 301 refused. *)
Example C127_example :
  let A := Bty (lit (-5)) (lit 300) in let B := Bty (lit 0) (lit 9) in
  valid A /\ valid B /\ fits_64 A /\ fits_64 B /\ holds_value A (-5) /\ holds_value B 7 /\
  written [([], (A, -5)); ([32], (B, 7))] [10] = Some [45; 53; 32; 55; 10] /\
  all_spaces blank [32] /\ ends_number [10] /\
  (exists s', read_all blank [A; B] (Stream [45; 53; 32; 55; 10] 0 true false false false) = Some (s', Ok [-5; 7]) /\ st_rest s' = [10]) /\
  number [51; 48; 49] 301 /\ ~ holds_value A 301 /\
  (exists s', read blank A (Stream [51; 48; 49] 0 true false false false) = Some (s', Throw)) /\
  no_number [97] /\ blank 97 = false.
Proof.
  cbv zeta. split; [concrete_valid|]. split; [concrete_valid|].
  split; [left; split; vm_compute; congruence|]. split; [left; split; vm_compute; congruence|].
  split; [split; vm_compute; congruence|]. split; [split; vm_compute; congruence|].
  split; [vm_compute; reflexivity|]. split; [repeat constructor|]. split; [cbn; unfold digit; lia|].
  split; [eexists; split; vm_compute; reflexivity|].
  split. { exists [51; 48; 49]. split; [discriminate|]. left. split; [reflexivity|]. concrete_decimal. }
  split; [intros [_ X]; vm_compute in X; congruence|].
  split; [eexists; vm_compute; reflexivity|]. split; [|reflexivity].
  intros n tail v E N. destruct (number_first _ _ N) as (c & r & -> & H). cbn [app] in E. injection E as <- _. unfold digit in H. lia.
Qed.
