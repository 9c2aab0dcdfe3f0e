(** * Properties C15, C16, C23, C26

    Vocabulary in Spec.v, SpecText.v and SpecGuard.v. Text is a list of character codes;
    [chars s] says that each fits in the type char. *)

From Coq Require Import ZArith Lia Bool List.
From Verif Require Import Cxx Core Spec Arith Funcs SpecText TextLemmas TextLemmas2
  Guard SpecGuard GuardLemmas PropsCore.
Import ListNotations.
Open Scope Z_scope.

(** ** C15 *)
Theorem C15_to_integer : forall mn mx s R o,
  wf_tv mn -> wf_tv mx -> vl mn <= vl mx -> chars s ->
  to_integer mn mx s = Some (R, o) ->
  lo R = vl mn /\ hi R = vl mx /\
  (forall v, o = Ok v <-> numeral (vl mn < 0) s v /\ vl mn <= v <= vl mx) /\
  ((forall v, ~ (numeral (vl mn < 0) s v /\ vl mn <= v <= vl mx)) -> o = Throw).
Proof. exact to_integer_full. Qed.
Print Assumptions C15_to_integer.

(** Which bounds are accepted at compile time. *)
Theorem C15_accepted : forall mn mx s, wf_tv mn -> wf_tv mx -> vl mn <= vl mx -> chars s ->
  (to_integer mn mx s <> None <->
   10 * (if vl mn <? 0 then Z.max (Z.abs (vl mn)) (Z.abs (vl mx)) else vl mx) + 9 <= ty_max U128).
Proof. exact to_integer_accepts. Qed.
Print Assumptions C15_accepted.

(** to_integer<Integer>(text) *)
Theorem C15_to_integer_type : forall B s R o, valid B -> chars s ->
  to_integer_as B s = Some (R, o) ->
  R = B /\ (forall v, o = Ok v <-> numeral (lo B < 0) s v /\ holds_value B v) /\
  ((forall v, ~ (numeral (lo B < 0) s v /\ holds_value B v)) -> o = Throw).
Proof. exact to_integer_as_full. Qed.
Print Assumptions C15_to_integer_type.

(** -128 is accepted by [-128, 100]; 101, the empty text, a lone sign and other
    characters are not. *)
Example C15_example :
  let mn := lit (-128) in let mx := lit 100 in
  wf_tv mn /\ wf_tv mx /\ vl mn <= vl mx /\
  (exists R, to_integer mn mx [45; 49; 50; 56] = Some (R, Ok (-128)) /\
     to_integer mn mx [48; 48; 49; 48; 48] = Some (R, Ok 100) /\
     to_integer mn mx [49; 48; 49] = Some (R, Throw) /\ to_integer mn mx [] = Some (R, Throw) /\
     to_integer mn mx [45] = Some (R, Throw) /\ to_integer mn mx [49; 97] = Some (R, Throw)).
Proof.
  cbv zeta. split; [split; vm_compute; congruence|]. split; [split; vm_compute; congruence|].
  split; [vm_compute; congruence|]. exists (Bty (lit (-128)) (lit 100)). repeat split; vm_compute; reflexivity.
Qed.
Example C15_example_chars : chars [45; 49; 50; 56] /\ numeral True [45; 49; 50; 56] (-128).
Proof.
  split; [repeat constructor; vm_compute; congruence|]. right. split; [exact I|].
  exists [49; 50; 56]. split; [reflexivity|]. split; [discriminate|].
  change (- (-128)) with ((49 - 48) * 10 ^ Z.of_nat 2 + ((50 - 48) * 10 ^ Z.of_nat 1 + ((56 - 48) * 10 ^ Z.of_nat 0 + 0))).
  repeat constructor; lia.
Qed.

(** ** C16 *)
Theorem C16_to_string_unsigned : forall x, 0 <= x <= ty_max U128 ->
  exists s, to_string_u128 x = Ok s /\ canonical s x.
Proof. exact to_string_u128_canonical. Qed.
Print Assumptions C16_to_string_unsigned.

Theorem C16_to_string_signed : forall x, ty_min I128 <= x <= ty_max I128 ->
  exists s, to_string_i128 x = Ok s /\ canonical s x.
Proof. exact to_string_i128_spec. Qed.
Print Assumptions C16_to_string_signed.

(** The canonical numeral is unique. *)
Theorem C16_canonical_unique : forall s t v, canonical s v -> canonical t v -> s = t.
Proof. exact canonical_unique. Qed.
Print Assumptions C16_canonical_unique.

Theorem C16_round_trip : forall mn mx x s R o,
  wf_tv mn -> wf_tv mx -> vl mn <= x <= vl mx ->
  (to_string_u128 x = Ok s /\ 0 <= x <= ty_max U128 \/
   to_string_i128 x = Ok s /\ ty_min I128 <= x <= ty_max I128) ->
  to_integer mn mx s = Some (R, o) -> o = Ok x.
Proof. exact round_trip_full. Qed.
Print Assumptions C16_round_trip.

Example C16_example :
  to_string_i128 (ty_min I128) = Ok (map (fun c => c) [45;49;55;48;49;52;49;49;56;51;52;54;48;52;54;57;50;51;49;55;51;49;54;56;55;51;48;51;55;49;53;56;56;52;49;48;53;55;50;56]) /\
  to_string_u128 0 = Ok [48] /\
  exists R, to_integer (lit (-1000)) (lit 1000) [45; 55; 48] = Some (R, Ok (-70)) /\ to_string_i128 (-70) = Ok [45; 55; 48].
Proof. split; [vm_compute; reflexivity|]. split; [vm_compute; reflexivity|]. eexists. split; vm_compute; reflexivity. Qed.

(** ** C23. The full property has no bound on [v]; for larger literals it is false of
    the code ([C23_literal_refuted]). *)
Theorem C23_literal_partial : forall ds v, chars ds -> decimal (strip ds) v -> v <= ty_max U128 ->
  exists B, literal ds = Some B /\ valid B /\ lo B = v /\ hi B = v.
Proof. exact literal_exact. Qed.
Print Assumptions C23_literal_partial.

(** Anything but digits and separators, such as a hexadecimal literal, is rejected. *)
Theorem C23_rejected : forall ds, chars ds -> (forall v, ~ decimal (strip ds) v) -> literal ds = None.
Proof. exact literal_rejected. Qed.
Print Assumptions C23_rejected.

(** Whatever the length, the accepted value is the written one modulo 2^128. *)
Theorem C23_modulo : forall ds v, chars ds -> decimal (strip ds) v ->
  exists B, literal ds = Some B /\ lo B = v mod 2 ^ 128 /\ hi B = v mod 2 ^ 128.
Proof. exact literal_modulo. Qed.
Print Assumptions C23_modulo.

(** 340282366920938463463374607431768211456_bi (2^128) compiles and is zero. *)
Theorem C23_literal_refuted : exists ds v B,
  chars ds /\ decimal (strip ds) v /\ literal ds = Some B /\ lo B <> v.
Proof. exact literal_refuted. Qed.
Print Assumptions C23_literal_refuted.

Example C23_example : let ds := [49; 39; 48; 50; 52] in
  chars ds /\ decimal (strip ds) 1024 /\ 1024 <= ty_max U128 /\
  literal ds = Some (Bty (lit 1024) (lit 1024)) /\ literal [48; 120; 49] = None.
Proof.
  cbv zeta. split; [repeat constructor; vm_compute; congruence|]. split.
  - change (strip [49; 39; 48; 50; 52]) with [49; 48; 50; 52].
    change 1024 with ((49 - 48) * 10 ^ Z.of_nat 3 + ((48 - 48) * 10 ^ Z.of_nat 2 + ((50 - 48) * 10 ^ Z.of_nat 1 + ((52 - 48) * 10 ^ Z.of_nat 0 + 0)))).
    repeat constructor; lia.
  - split; [vm_compute; congruence|]. split; vm_compute; reflexivity.
Qed.

(** ** C26. [functions es] lists the function given to each new guard; each is a
    different one. [fate_of] follows one function through the events. *)
Theorem C26_guard_history : forall es w f,
  NoDup (functions es) -> guard_run empty_world es = Some w ->
  count_occ Nat.eq_dec (calls w) f = (match fate_of f es with Ended => 1 | _ => 0 end)%nat.
Proof. exact history_calls. Qed.
Print Assumptions C26_guard_history.

(** When all guards are gone, each function was called exactly once, or released. *)
Theorem C26_guard_complete : forall es w f,
  NoDup (functions es) -> guard_run empty_world es = Some w ->
  (forall g, objects w g = None) -> In f (functions es) ->
  (count_occ Nat.eq_dec (calls w) f = 1%nat /\ fate_of f es = Ended) \/
  (count_occ Nat.eq_dec (calls w) f = 0%nat /\ fate_of f es = Released).
Proof. exact history_complete. Qed.
Print Assumptions C26_guard_complete.

Example C26_guard_example :
  let es := [New 0 10; New 1 11; Move 0 2; Dismiss 1; Destroy 0; Destroy 1; Destroy 2]%nat in
  NoDup (functions es) /\ exists w, guard_run empty_world es = Some w /\ calls w = [10%nat] /\
  objects w 0%nat = None /\ objects w 1%nat = None /\ objects w 2%nat = None /\
  fate_of 10 es = Ended /\ fate_of 11 es = Released.
Proof.
  cbv zeta. split; [cbn; repeat constructor; cbn; lia|]. eexists. split; [reflexivity|]. repeat split.
Qed.

(** In every program, at every depth of unwinding, a failure guard's function runs
    exactly when its block is left by an exception. *)
Theorem C26_scope_fail : forall s u, exec u s = meaning s.
Proof. exact exec_meaning. Qed.
Print Assumptions C26_scope_fail.

(** A guard inside a destructor that runs while an exception unwinds the stack. *)
Example C26_scope_fail_example :
  exec 0 (TryCatch (WithDestructor (TryCatch (WithFail (Emit 1) Raise) Skip) (WithFail (Emit 2) Raise)) (Emit 3))
  = ([2; 1; 3]%nat, Done) /\
  exec 0 (TryCatch (WithDestructor (WithFail (Emit 1) Skip) Raise) (Emit 3)) = ([3]%nat, Done).
Proof. split; reflexivity. Qed.
