(** * Property C137: arrays of a fixed size

    [ends r Q E]: the call [r] returns and then [Q], or leaves by an exception and then [E]; it never ends in a fault.
    [array_in m b vs]: the block [b] of the memory [m] holds exactly the living elements [vs]. [new_in w w' b vs bs]: [b] is a new array
    with the elements [vs], and no other block but those of [bs] has changed from [w] to [w'] (SpecArray.v). [lexicographic] is in
    SpecSequence.v. *)

From Coq Require Import List Arith Bool Lia.
From Verif Require Import Sequence SpecSequence Mem Vec SpecVec Array SpecArray ArrayProofs.
Import ListNotations.

(** ** The array has the elements of the range, in order. The range is read once: the iterator is incremented once less than there are
    elements. An exception leaves nothing behind. *)

(** A range that makes its elements *)
Theorem C137_to_array_values : forall V (moved : V -> V) container vs start w, unused_names w ->
  ends (to_array moved (Source container (map (@Prvalue V) vs)) start w)
    (fun increments b w' => new_in w w' b vs [] /\ (vs <> [] -> increments = length vs - 1))
    (fun _ w' => same (heap w') (heap w) /\ unused_names w' /\ someone_throws w).
Proof. intros V moved c vs p w. apply to_array_values. Qed.
Print Assumptions C137_to_array_values.

(** A container that is not given as an rvalue, or a view of one: its elements are copied and stay as they are. *)
Theorem C137_to_array_copies : forall V (moved : V -> V) vs b start w, unused_names w -> array_in (heap w) b vs ->
  ends (to_array moved (Source false (map (@Lvalue V b) (seq 0 (length vs)))) start w)
    (fun increments a w' => new_in w w' a vs [] /\ (vs <> [] -> increments = length vs - 1))
    (fun _ w' => same (heap w') (heap w) /\ unused_names w' /\ someone_throws w).
Proof. intros V moved vs b p w. apply to_array_copies. Qed.
Print Assumptions C137_to_array_copies.

(** A container given as an rvalue: every element is moved from exactly once. When an exception comes, the first elements have been
    moved from and are lost; the others are as they were. *)
Theorem C137_to_array_container : forall V (moved : V -> V) vs b start w, unused_names w -> array_in (heap w) b vs ->
  ends (to_array moved (Source true (map (@Lvalue V b) (seq 0 (length vs)))) start w)
    (fun increments a w' => new_in w w' a vs [b] /\ array_in (heap w') b (map moved vs) /\ (vs <> [] -> increments = length vs - 1))
    (fun _ w' => (exists k, k < length vs /\ array_in (heap w') b (after_moves moved k vs)) /\ same_but [b] (heap w) (heap w') /\
       unused_names w' /\ someone_throws w).
Proof. intros V moved vs b p w Hu Hb. apply to_array_moves; auto. cbn. rewrite map_map. reflexivity. Qed.
Print Assumptions C137_to_array_container.

(** A view whose elements are rvalues *)
Theorem C137_to_array_rvalues : forall V (moved : V -> V) container vs b start w, unused_names w -> array_in (heap w) b vs ->
  ends (to_array moved (Source container (map (@Xvalue V b) (seq 0 (length vs)))) start w)
    (fun increments a w' => new_in w w' a vs [b] /\ array_in (heap w') b (map moved vs) /\ (vs <> [] -> increments = length vs - 1))
    (fun _ w' => (exists k, k < length vs /\ array_in (heap w') b (after_moves moved k vs)) /\ same_but [b] (heap w) (heap w') /\
       unused_names w' /\ someone_throws w).
Proof.
  intros V moved c vs b p w Hu Hb. apply to_array_moves; auto. cbn. rewrite map_map. apply map_ext. now destruct c.
Qed.
Print Assumptions C137_to_array_rvalues.

(** The strong guarantee is false when the elements are moved: an exception can leave moved-from elements in the source. *)
Theorem C137_strong_guarantee_refuted : ~ forall V (moved : V -> V) vs b start w, unused_names w -> array_in (heap w) b vs ->
  ends (to_array moved (Source true (map (@Lvalue V b) (seq 0 (length vs)))) start w) (fun _ _ _ => True)
    (fun _ w' => same (heap w') (heap w)).
Proof.
  intros H. specialize (H nat (fun _ => 0) [5; 6] 0 0 (World (fun b => match b with 0 => Some [Some 5; Some 6] | _ => None end) 1 [false; true])).
  cbn in H. assert (U : unused_names (World (fun b => match b with 0 => Some [Some 5; Some 6] | _ => None end) 1 [false; true])).
  { intros [|b] Hb; [cbn in Hb; lia|reflexivity]. }
  specialize (H U eq_refl 0). discriminate H.
Qed.
Print Assumptions C137_strong_guarantee_refuted.

(** ** make_array_n: [n] copies of the value; the last one is made by moving when the value is an rvalue. No exception changes the value. *)
Theorem C137_make_array_n : forall V (moved : V -> V) n b before v after rvalue w,
  unused_names w -> heap w b = Some (before ++ Some v :: after) ->
  ends (make_array_n moved n b (length before) rvalue tt w)
    (fun _ a w' => new_in w w' a (repeat v n) [b] /\
       heap w' b = Some (before ++ Some (if rvalue && negb (n =? 0) then moved v else v) :: after))
    (fun _ w' => same (heap w') (heap w) /\ unused_names w' /\ someone_throws w).
Proof. intros V moved n b l1 v l2 rvalue w. apply make_array_ok. Qed.
Print Assumptions C137_make_array_n.

Definition made (s : list bool) : world nat := World (fun b => match b with 0 => Some [Some 5; Some 6; Some 7] | _ => None end) 1 s.
Example C137_making_example :
  unused_names (made []) /\ array_in (heap (made [])) 0 [5; 6; 7] /\
  (exists w', to_array (fun _ => 0) (Source true (map (@Lvalue nat 0) [0; 1; 2])) 9 (made []) = Ret 2 1 w' /\
     heap w' 1 = Some [Some 5; Some 6; Some 7] /\ heap w' 0 = Some [Some 0; Some 0; Some 0]) /\
  (* the third element cannot be copied *)
  (exists w', to_array (fun _ => 0) (Source false (map (@Lvalue nat 0) [0; 1; 2])) 9 (made [false; false; true]) = Exc 2 w' /\
     heap w' 1 = None /\ heap w' 0 = Some [Some 5; Some 6; Some 7]) /\
  (exists w', make_array_n (fun _ => 0) 3 0 1 true tt (made []) = Ret tt 1 w' /\
     heap w' 1 = Some [Some 6; Some 6; Some 6] /\ heap w' 0 = Some [Some 5; Some 0; Some 7]).
Proof.
  split. { intros [|b] Hb; [cbn in Hb; lia|reflexivity]. } split; [reflexivity|]. split; [|split].
  - eexists. split; [vm_compute; reflexivity|]. split; reflexivity.
  - eexists. split; [vm_compute; reflexivity|]. split; reflexivity.
  - eexists. split; [vm_compute; reflexivity|]. split; reflexivity.
Qed.

(** ** Comparison. Arrays of the same type, with any number of sizes, compare as their elements do in the order in which they lie in
    memory; arrays without elements are equal. *)
Theorem C137_three_way : forall T (cmp : T -> T -> ordering) k (a b : nested T k) sizes,
  shaped k a sizes -> shaped k b sizes -> lexicographic cmp (flat k a) (flat k b) (three_way cmp k a b).
Proof.
  intros T cmp k a b sizes Ha Hb. rewrite (three_way_flat cmp k a b sizes Ha Hb). apply memberwise_lexicographic.
  now rewrite (flat_length k a sizes Ha), (flat_length k b sizes Hb).
Qed.
Print Assumptions C137_three_way.
Theorem C137_equal : forall T (eqb : T -> T -> bool) k (a b : nested T k) sizes,
  shaped k a sizes -> shaped k b sizes ->
  (array_equal eqb k a b = true <-> Forall2 (fun x y => eqb x y = true) (flat k a) (flat k b)).
Proof.
  intros T eqb k a b sizes Ha Hb. rewrite (equal_flat eqb k a b sizes Ha Hb). apply members_equal_iff.
  now rewrite (flat_length k a sizes Ha), (flat_length k b sizes Hb).
Qed.
Print Assumptions C137_equal.

(** ** Subscripts: a[i][j]... is the element at its place in the row-major order, for all indexes below the sizes and for no other. *)
Theorem C137_subscript : forall T k (a : nested T k) sizes path,
  shaped k a sizes -> Forall2 (fun i n => i < n) path sizes ->
  subscript k a path = nth_error (flat k a) (place sizes path) /\ place sizes path < length (flat k a).
Proof.
  intros T k a sizes path Ha Hp. split; [now apply subscript_flat|]. rewrite (flat_length k a sizes Ha). now apply place_below.
Qed.
Print Assumptions C137_subscript.
Theorem C137_subscript_outside : forall T k (a : nested T k) sizes path,
  shaped k a sizes -> ~ Forall2 (fun i n => i < n) path sizes -> subscript k a path = None.
Proof. intros T k a sizes path. apply subscript_refuses. Qed.
Print Assumptions C137_subscript_outside.
Theorem C137_number_of_elements : forall T k (a : nested T k) sizes, shaped k a sizes -> length (flat k a) = number_of_elements sizes.
Proof. intros T k a sizes. apply flat_length. Qed.
Print Assumptions C137_number_of_elements.

Definition as_order (x y : nat) : ordering := of_comparison (Nat.compare x y).
Definition table : nested nat 2 := [[1; 2; 3]; [4; 5; 6]].
Definition other_table : nested nat 2 := [[1; 2; 3]; [4; 4; 9]].
Example C137_values_example :
  shaped 2 table [2; 3] /\ shaped 2 other_table [2; 3] /\ three_way as_order 2 table other_table = Greater /\
  three_way as_order 2 table table = Equivalent /\ array_equal Nat.eqb 2 table other_table = false /\ array_equal Nat.eqb 2 table table = true /\
  subscript 2 table [1; 2] = Some 6 /\ place [2; 3] [1; 2] = 5 /\ subscript 2 table [2; 0] = None /\
  shaped (T := nat) 2 [[]; []] [2; 0] /\ three_way as_order 2 [[]; []] [[]; []] = Equivalent.
Proof. repeat split; repeat constructor. Qed.

(** ** Conversion to a span. It works for every array, except that an array without elements that is not const cannot be converted
    to a span of elements that are not const: the body of that conversion does not compile. *)
Theorem C137_span : forall n const, n <> 0 \/ const = true -> span_compiles n const = true /\ (span_body n const = Const <-> const = true).
Proof.
  intros n const H. unfold span_compiles, span_body. destruct (Nat.eqb_spec n 0) as [->|N].
  - destruct H as [H| ->]; [now elim H|]. split; [reflexivity|]. split; auto.
  - destruct const; split; try reflexivity; split; congruence.
Qed.
Print Assumptions C137_span.
Theorem C137_span_refuted : ~ forall n const, span_compiles n const = true.
Proof. intros H. specialize (H 0 false). discriminate. Qed.
Print Assumptions C137_span_refuted.
Example C137_span_example : span_compiles 3 false = true /\ span_compiles 0 true = true.
Proof. split; reflexivity. Qed.
