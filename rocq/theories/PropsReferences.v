(** * C138: what min, max and extreme refer to *)

From Coq Require Import List ZArith Bool Lia.
From Verif Require Import Cxx CxxLemmas Core CoreLemmas Spec Arith Funcs FuncLemmas FuncLemmas2 CoreProofs PropsCore References SpecReferences ReferencesProofs.
Import ListNotations.
Local Open Scope Z_scope.

(** ** common_type_and_value_category *)
(** If the result is a reference, then it binds directly to every one of the given types. Otherwise it is the common type, a new object
    that is neither const nor volatile. *)
Theorem C138_category : forall (B : Type) (eqb : B -> B -> bool), (forall x y, eqb x y = true <-> x = y) ->
  forall common (ts : list (ctype B)),
  let r := common_type_and_value_category eqb common ts in
  (ref r <> NoReference -> forall t, In t ts -> binds t r) /\
  (ref r = NoReference -> r = CType (common (map base ts)) false false NoReference).
Proof.
  intros B eqb H common ts r. split; intros R; [intros t Ht; now apply add_binds|now apply add_plain].
Qed.
Print Assumptions C138_category.
(** It is a reference whenever all given types are references of one kind to the common type, with no more const and volatile than
    needed. *)
Theorem C138_category_same : forall (B : Type) (eqb : B -> B -> bool), (forall x y, eqb x y = true <-> x = y) ->
  forall common (ts : list (ctype B)) b k, ts <> [] -> k <> NoReference -> common (map base ts) = b ->
  (forall t, In t ts -> base t = b /\ ref t = k) ->
  common_type_and_value_category eqb common ts = CType b (existsb is_const ts) (existsb is_volatile ts) k.
Proof.
  intros B eqb H common ts b k Hn Hk Hb Hts. unfold common_type_and_value_category. rewrite Hb.
  destruct k; [easy|now apply add_lvalues|now apply add_rvalues].
Qed.
Print Assumptions C138_category_same.

(** ** Arguments of other types *)
(** The result of min, max or extreme with at least two arguments can always be kept: it is a new object, or a reference to an argument that
    is an lvalue. *)
Theorem C138_any : forall (B V : Type) (eqb : B -> B -> bool), (forall x y, eqb x y = true <-> x = y) ->
  forall common convert compare (t : operand B V) ts, numbered (t :: ts) -> ts <> [] ->
  exists a, extreme_of_any eqb common convert compare t ts = Some (Ok a) /\ can_be_kept (t :: ts) a.
Proof.
  intros B V eqb H common convert compare t ts Hn Hts. apply any_kept; auto; [|intros o Ho]; apply numbered_at_hand; auto; [now left|now right].
Qed.
Print Assumptions C138_any.
(** Lvalues of one type: the result is an lvalue that refers to the first of the extreme arguments, const if any argument is. *)
Theorem C138_any_lvalues : forall (B V : Type) (eqb : B -> B -> bool), (forall x y, eqb x y = true <-> x = y) ->
  forall common convert (cmp : V -> V -> bool),
  (forall x, cmp x x = false) -> (forall x y, cmp x y = true -> cmp y x = false) ->
  (forall x y z, cmp x y = true -> cmp y z = true -> cmp x z = true) ->
  (forall x y z, cmp x y = false -> cmp y z = false -> cmp x z = false) ->
  forall (t : operand B V) ts ty, common [ty; ty] = ty -> (forall o, In o (t :: ts) -> o_type o = ty /\ o_lvalue o = true) -> ts <> [] ->
  exists before m after, t :: ts = before ++ m :: after /\
    (forall o, In o (t :: ts) -> cmp (o_value o) (o_value m) = false) /\
    (forall o, In o before -> cmp (o_value m) (o_value o) = true) /\
    extreme_of_any eqb common convert (fun x y => cmp (o_value x) (o_value y)) t ts =
    Some (Ok (Answer ty (existsb o_const (t :: ts)) true (Some (o_object m)) (o_value m))).
Proof.
  intros B V eqb H common convert cmp I A T N t ts ty Hc Hts _.
  destruct (extreme_generic_first (by_value (B:=B) cmp)) with (ts := ts) (t := t) as (pre & post & E & F & G); unfold by_value; eauto.
  exists pre, (extreme_generic (by_value cmp) t ts), post. split; [exact E|]. split; [exact F|]. split; [exact G|].
  unfold extreme_of_any. change (fun x y : operand B V => cmp (o_value x) (o_value y)) with (by_value (B:=B) cmp).
  destruct (Hts t (or_introl eq_refl)). rewrite (same_fold cmp (fun _ => True)) with (ty := ty) (lv := true) (m := t); auto.
  - intros l r _ _ Tl Tr Ll Lr. rewrite (any_two_same eqb H common convert cmp l r ty); auto.
  - repeat split.
  - intros o Ho. split; [exact Logic.I|]. apply Hts. now right.
Qed.
Print Assumptions C138_any_lvalues.

(** ** Bounded integers *)
Definition argument_ok (o : operand bty Z) : Prop := valid (o_type o) /\ holds_value (o_type o) (o_value o).

(** The type and the value are those of C12. *)
Theorem C138_values : forall c t ts, argument_ok t -> Forall argument_ok ts ->
  exists a, extreme_of c t ts = Some (Ok a) /\
    extreme_n c (Some (o_type t, Ok (o_value t))) (map (fun o => (o_type o, o_value o)) ts) = Some (a_type a, Ok (a_value a)).
Proof. intros c t ts. apply bounded_values. Qed.
Print Assumptions C138_values.
(** Any number of arguments of one type, all lvalues or all rvalues: the result refers to the first of the extreme arguments. *)
Theorem C138_same_type : forall c t ts lvalue,
  (forall o, In o (t :: ts) -> argument_ok o /\ o_type o = o_type t /\ o_lvalue o = lvalue) ->
  exists before m after, t :: ts = before ++ m :: after /\
    (forall o, In o (t :: ts) -> match c with ByLess => o_value m <= o_value o | ByGreater => o_value o <= o_value m end) /\
    (forall o, In o before -> match c with ByLess => o_value m < o_value o | ByGreater => o_value o < o_value m end) /\
    extreme_of c t ts = Some (Ok (Answer (o_type t) (existsb o_const (t :: ts)) lvalue (Some (o_object m)) (o_value m))).
Proof.
  intros c t ts lv Hts.
  destruct (extreme_generic_first (by_value (B:=bty) (c_before c))) with (ts := ts) (t := t) as (pre & post & E & F & G);
    try (unfold by_value, c_before; destruct c; intros; lia).
  exists pre, (extreme_generic (by_value (c_before c)) t ts), post. split; [exact E|].
  split. { intros o Ho. specialize (F o Ho). unfold by_value, c_before in F. destruct c; apply Z.ltb_ge in F; exact F. }
  split. { intros o Ho. specialize (G o Ho). unfold by_value, c_before in G. destruct c; apply Z.ltb_lt in G; exact G. }
  destruct (Hts t (or_introl eq_refl)) as (O & _ & L). unfold extreme_of.
  apply same_bounded_fold; auto. intros o Ho. destruct (Hts o (or_intror Ho)) as (? & ? & ?). auto.
Qed.
Print Assumptions C138_same_type.
(** Two lvalues of any types: the result can be kept. *)
Theorem C138_two_lvalues : forall c t t2, argument_ok t -> argument_ok t2 -> numbered [t; t2] -> o_lvalue t = true -> o_lvalue t2 = true ->
  exists a, extreme_of c t [t2] = Some (Ok a) /\ can_be_kept [t; t2] a.
Proof. exact bounded_two_lvalues. Qed.
Print Assumptions C138_two_lvalues.
(** Two arguments of any kind: the result can be used until the end of the expression that contains the call. *)
Theorem C138_two_arguments : forall c t t2, argument_ok t -> argument_ok t2 -> numbered [t; t2] ->
  exists a, extreme_of c t [t2] = Some (Ok a) /\ use a = Ok (match c with ByLess => Z.min | ByGreater => Z.max end (o_value t) (o_value t2)).
Proof. exact bounded_two_arguments. Qed.
Print Assumptions C138_two_arguments.

(** *** False of the code *)
(** Two rvalues of one type: the result is a reference to one of them, which ends with the expression that contains the call. With other
    types, the integers among them, the result is a new object. *)
Theorem C138_two_rvalues_refuted : ~ (forall c t t2, argument_ok t -> argument_ok t2 -> numbered [t; t2] ->
  exists a, extreme_of c t [t2] = Some (Ok a) /\ can_be_kept [t; t2] a).
Proof.
  intros H. set (A := Bty (lit 0) (lit 10)).
  destruct (H ByLess (Operand A false false (Argument 0) 3) (Operand A false false (Argument 1) 4)) as (a & E & K).
  - split; cbn [o_type o_value]; concrete2.
  - split; cbn [o_type o_value]; concrete2.
  - intros [|[|[|i]]] o E; try discriminate E; injection E as <-; reflexivity.
  - vm_compute in E. injection E as <-. destruct K as (o & N & L & _). injection N as <-. discriminate L.
Qed.
Print Assumptions C138_two_rvalues_refuted.
(** A const lvalue and an rvalue: the result is an lvalue, but it may refer to the rvalue. *)
Theorem C138_const_lvalue_refuted : ~ (forall c t t2 a, argument_ok t -> argument_ok t2 -> numbered [t; t2] -> o_lvalue t = true ->
  extreme_of c t [t2] = Some (Ok a) -> a_lvalue a = true -> can_be_kept [t; t2] a).
Proof.
  intros H. set (A := Bty (lit 0) (lit 10)).
  destruct (H ByLess (Operand A true true (Argument 0) 4) (Operand A false false (Argument 1) 3) (Answer A true true (Some (Argument 1)) 3)) as (o & N & L & _).
  - split; cbn [o_type o_value]; concrete2.
  - split; cbn [o_type o_value]; concrete2.
  - intros [|[|[|i]]] o E; try discriminate E; injection E as <-; reflexivity.
  - reflexivity.
  - vm_compute. reflexivity.
  - reflexivity.
  - injection N as <-. discriminate L.
Qed.
Print Assumptions C138_const_lvalue_refuted.
(** One rvalue: the result is a reference to it. *)
Theorem C138_one_rvalue_refuted : ~ (forall c t, argument_ok t -> numbered [t] -> exists a, extreme_of c t [] = Some (Ok a) /\ can_be_kept [t] a).
Proof.
  intros H. set (A := Bty (lit 0) (lit 10)).
  destruct (H ByLess (Operand A false false (Argument 0) 3)) as (a & E & K).
  - split; cbn [o_type o_value]; concrete2.
  - intros [|[|i]] o E; try discriminate E; injection E as <-; reflexivity.
  - vm_compute in E. injection E as <-. destruct K as (o & N & L & _). injection N as <-. discriminate L.
Qed.
Print Assumptions C138_one_rvalue_refuted.
(** Three lvalues: the result can refer to an object that ended inside the call, here for the types <0, 10>, <0, 20> and <100, 200>. *)
Theorem C138_three_lvalues_refuted : ~ (forall c t ts, argument_ok t -> Forall argument_ok ts -> numbered (t :: ts) -> (forall o, In o (t :: ts) -> o_lvalue o = true) ->
  exists a z, extreme_of c t ts = Some (Ok a) /\ use a = Ok z).
Proof.
  intros H.
  destruct (H ByLess (Operand (Bty (lit 0) (lit 10)) false true (Argument 0) 3)
    [Operand (Bty (lit 0) (lit 20)) false true (Argument 1) 4; Operand (Bty (lit 100) (lit 200)) false true (Argument 2) 150]) as (a & z & E & K).
  - split; cbn [o_type o_value]; concrete2.
  - repeat constructor; cbn [o_type o_value]; concrete2.
  - intros [|[|[|[|i]]]] o E; try discriminate E; injection E as <-; reflexivity.
  - intros o [<-|[<-|[<-|[]]]]; reflexivity.
  - vm_compute in E. injection E as <-. discriminate K.
Qed.
Print Assumptions C138_three_lvalues_refuted.
(** Three rvalues, as in min(size(r1), size(r2), size(r3)) in zip_smallest: with the types <0, 10>, <0, 20> and <0, 10> the result refers to
    an object that ended inside the call. *)
Theorem C138_three_rvalues_refuted : ~ (forall t ts, argument_ok t -> Forall argument_ok ts -> numbered (t :: ts) -> (forall o, In o (t :: ts) -> o_lvalue o = false /\ o_const o = false) ->
  exists a z, extreme_of ByLess t ts = Some (Ok a) /\ use a = Ok z).
Proof.
  intros H.
  destruct (H (Operand (Bty (lit 0) (lit 10)) false false (Argument 0) 3)
    [Operand (Bty (lit 0) (lit 20)) false false (Argument 1) 4; Operand (Bty (lit 0) (lit 10)) false false (Argument 2) 5]) as (a & z & E & K).
  - split; cbn [o_type o_value]; concrete2.
  - repeat constructor; cbn [o_type o_value]; concrete2.
  - intros [|[|[|[|i]]]] o E; try discriminate E; injection E as <-; reflexivity.
  - intros o [<-|[<-|[<-|[]]]]; auto.
  - vm_compute in E. injection E as <-. discriminate K.
Qed.
Print Assumptions C138_three_rvalues_refuted.

(** ** Examples *)
(** The second of three lvalues is the smallest, and one of them is const. *)
Example C138_example_lvalues : let A := Bty (lit 0) (lit 10) in
  let t := Operand A false true (Argument 0) 5 in
  let ts := [Operand A true true (Argument 1) 3; Operand A false true (Argument 2) 3] in
  (forall o, In o (t :: ts) -> argument_ok o /\ o_type o = o_type t /\ o_lvalue o = true) /\ numbered (t :: ts) /\
  extreme_of ByLess t ts = Some (Ok (Answer A true true (Some (Argument 1)) 3)).
Proof.
  intros A t ts. split; [|split; [|vm_compute; reflexivity]].
  - intros o [<-|[<-|[<-|[]]]]; (split; [split; cbn [o_type o_value]; concrete2|split; reflexivity]).
  - intros [|[|[|[|i]]]] o E; try discriminate E; injection E as <-; reflexivity.
Qed.
(** An lvalue and an rvalue of type bool, with "less than": a new object. *)
Example C138_example_any :
  let t := Operand tt false true (Argument 0) true in
  let ts := [Operand tt false false (Argument 1) false] in
  numbered (t :: ts) /\
  extreme_of_any (fun _ _ => true) (fun _ => tt) (fun _ _ v => v) (fun x y => negb (o_value x) && o_value y) t ts =
  Some (Ok (Answer tt false false None false)).
Proof.
  intros t ts. split; [|reflexivity]. intros [|[|[|i]]] o E; try discriminate E; injection E as <-; reflexivity.
Qed.
