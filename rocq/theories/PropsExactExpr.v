(** * Property C24 with every remainder

    An expression whose multiplications are between types with no product below
    -2^127 gives its mathematical value, inside its bounds, or it takes the remainder
    by -1 of -2^31, -2^63 or -2^127 somewhere. It never gives another value.
    Vocabulary in SpecFuncs.v. *)

From Coq Require Import ZArith Lia Bool List.
From Verif Require Import Cxx Core Spec Arith ArithLemmas ArithProofs Funcs SpecFuncs FuncLemmas FuncLemmas2 FuncLemmas3
  PropsExactShift PropsExactRemainder.
Import ListNotations.
Open Scope Z_scope.

(** [products_ok] for the types of the operands of every multiplication. *)
Fixpoint avoids_products (G : nat -> bty) (env : nat -> Z) (e : expr) : Prop :=
  match e with
  | EVar _ | EConst _ => True
  | ENeg a | EAbs a => avoids_products G env a
  | EMul a b =>
      avoids_products G env a /\ avoids_products G env b /\
      forall A B oa ob, eval G env a = Some (A, oa) -> eval G env b = Some (B, ob) -> products_ok A B
  | EAdd a b | ESub a b | EDiv a b | EMod a b | EMin a b | EMax a b =>
      avoids_products G env a /\ avoids_products G env b
  end.

(** Some part of the expression is the remainder by -1 of the smallest value of a
    signed built-in type of 32 bits or more. *)
Fixpoint remainder_of_smallest (env : nat -> Z) (e : expr) : Prop :=
  match e with
  | EVar _ | EConst _ => False
  | ENeg a | EAbs a => remainder_of_smallest env a
  | EMod a b =>
      remainder_of_smallest env a \/ remainder_of_smallest env b \/
      (math env b = Some (-1) /\ exists x, math env a = Some x /\ In x [- 2 ^ 31; - 2 ^ 63; - 2 ^ 127])
  | EAdd a b | ESub a b | EMul a b | EDiv a b | EMin a b | EMax a b =>
      remainder_of_smallest env a \/ remainder_of_smallest env b
  end.

Definition nearly (m : option Z) (bad : Prop) (R : bty) (o : outcome Z) : Prop :=
  valid R /\ match m with Some z => (o = Ok z /\ holds_value R z) \/ (o = UB /\ bad) | None => o = UB end.

Lemma nearly_sound m bad R o : sound m R o -> nearly m bad R o.
Proof. intros [V S]. split; auto. destruct m; tauto. Qed.
Lemma nearly_weaker m (p q : Prop) R o : (p -> q) -> nearly m p R o -> nearly m q R o.
Proof. intros I [V S]. split; auto. destruct m; tauto. Qed.
Lemma nearly_undefined m (p : Prop) R : valid R -> p -> nearly m p R UB.
Proof. intros V P. split; auto. destruct m; auto. Qed.

Lemma width_cases A B C : In (- 2 ^ (width3 A B C - 1)) [- 2 ^ 31; - 2 ^ 63; - 2 ^ 127].
Proof.
  unfold width3, width. destruct (_ || _); [left; reflexivity|].
  destruct (_ || _); [right; left; reflexivity | right; right; left; reflexivity].
Qed.

Lemma modulus_nearly A B x y R o : fits A x -> fits B y -> modulus A B x y = Some (R, o) ->
  nearly (if y =? 0 then None else Some (Z.rem x y)) (y = -1 /\ In x [- 2 ^ 31; - 2 ^ 63; - 2 ^ 127]) R o.
Proof.
  intros [VA HA] [VB HB] H. destruct (Z.eqb_spec y 0) as [->|N].
  - split; [exact (modulus_valid _ _ _ _ _ _ H) | exact (modulus_by_zero _ _ _ _ _ VA VB HA HB H)].
  - destruct (C06_remainder_exactly A B x y VA VB HA HB N) as [E _].
    destruct (E _ _ H) as (V & _ & E1 & E2). split; auto.
    destruct (Z.eq_dec y (-1)) as [->|Ny].
    + destruct (Z.eq_dec x (- 2 ^ (width3 R A B - 1))) as [->|Nx].
      * right. split; [apply E1; auto | split; [reflexivity | apply width_cases]].
      * left. apply E2. tauto.
    + left. apply E2. tauto.
Qed.

Lemma then_nearly r f g T o m (p q : Prop) :
  (forall R o', r = Some (R, o') -> nearly m p R o') ->
  (forall R o1 w T' o', r = Some (R, o1) -> fits R w -> f R w = Some (T', o') ->
     valid T' /\ (m = Some w -> nearly (g w) q T' o')) ->
  then_ r f = Some (T, o) ->
  nearly (match m with Some z => g z | None => None end) (p \/ q) T o.
Proof.
  intros Hr Hf H. apply then_cases in H. destruct H as (R & o' & E & H).
  destruct (Hr _ _ E) as [V S]. destruct m as [z|].
  - destruct S as [[-> Hz] | [-> P]].
    + apply (nearly_weaker _ q); [tauto|]. exact (proj2 (Hf _ _ _ _ _ E (conj V Hz) H) eq_refl).
    + destruct H as [-> (o2 & H)]. apply nearly_undefined; [|tauto].
      exact (proj1 (Hf _ _ _ _ _ E (fits_lo R V) H)).
  - subst o'. destruct H as [-> (o2 & H)]. split; [|reflexivity].
    exact (proj1 (Hf _ _ _ _ _ E (fits_lo R V) H)).
Qed.

Lemma binary_nearly op ra rb g T o ma mb (p q : Prop) (c : Z -> Z -> Prop) :
  (forall R o', ra = Some (R, o') -> nearly ma p R o') ->
  (forall R o', rb = Some (R, o') -> nearly mb q R o') ->
  (forall A B oa ob x y T' o', ra = Some (A, oa) -> rb = Some (B, ob) -> fits A x -> fits B y ->
     op A B x y = Some (T', o') -> nearly (g x y) (c x y) T' o') ->
  binary op ra rb = Some (T, o) ->
  nearly (match ma, mb with Some x, Some y => g x y | _, _ => None end)
    (p \/ q \/ exists x y, ma = Some x /\ mb = Some y /\ c x y) T o.
Proof.
  intros Ha Hb Hop H. unfold binary in H.
  assert (forall R z w T' o', ra = Some (R, z) -> fits R w ->
    then_ rb (fun B y => op R B w y) = Some (T', o') ->
    nearly (match mb with Some y => g w y | None => None end) (q \/ exists y, mb = Some y /\ c w y) T' o') as K.
  { intros R z w T' o' E Fw H'.
    apply (then_nearly rb (fun B y => op R B w y) (g w) T' o' mb q _ Hb); [|exact H'].
    intros B ob y T2 o2 Eb Fy Ho. pose proof (Hop R B z ob w y T2 o2 E Eb Fw Fy Ho) as N.
    split; [exact (proj1 N)|]. intros ->. apply (nearly_weaker _ (c w y)); [eauto | exact N]. }
  apply (nearly_weaker _ (p \/ q \/ exists x y, ma = Some x /\ mb = Some y /\ c x y)); [tauto|].
  apply (then_nearly ra (fun A x => then_ rb (fun B y => op A B x y)) (fun x => match mb with Some y => g x y | None => None end) T o ma p
    (q \/ exists x y, ma = Some x /\ mb = Some y /\ c x y) Ha); [|exact H].
  intros R z w T' o' E Fw H'. specialize (K R z w T' o' E Fw H'). split; [exact (proj1 K)|].
  intros Em. apply (nearly_weaker _ (q \/ exists y, mb = Some y /\ c w y)); [|exact K].
  intros [Hq | (y & Ey & Hc)]; [left; exact Hq | right; exists w, y; auto].
Qed.

Lemma eval_nearly G env e :
  (forall n, fits (G n) (env n)) -> constants_ok e -> avoids_products G env e ->
  forall R o, eval G env e = Some (R, o) -> nearly (math env e) (remainder_of_smallest env e) R o.
Proof.
  intros HG. induction e; cbn [constants_ok avoids_products eval math remainder_of_smallest]; intros HC HD R o H.
  1: { injection H as <- <-. destruct (HG n). apply nearly_sound. split; auto. }
  1: { apply nearly_sound. apply (eval_sound G env (EConst z) HG HC I). exact H. }
  1: { apply (nearly_weaker _ (remainder_of_smallest env e \/ False)); [tauto|].
       apply (then_nearly _ negate (fun x => Some (- x)) R o _ _ False (IHe HC HD)) in H; [exact H|].
       intros T o1 w T' o' _ F Hn. apply negate_sound in Hn; auto. split; [exact (proj1 Hn) | intros _; now apply nearly_sound]. }
  1: { apply (nearly_weaker _ (remainder_of_smallest env e \/ False)); [tauto|].
       apply (then_nearly _ abs (fun x => Some (Z.abs x)) R o _ _ False (IHe HC HD)) in H; [exact H|].
       intros T o1 w T' o' _ F Hn. apply abs_sound in Hn; auto. split; [exact (proj1 Hn) | intros _; now apply nearly_sound]. }
  all: destruct HC as [HC1 HC2].
  all: match goal with
       | |- nearly _ (_ \/ _ \/ _) _ _ => idtac
       | |- nearly _ (?p \/ ?q) _ _ =>
           apply (nearly_weaker _ (p \/ q \/ exists x y, math env e1 = Some x /\ math env e2 = Some y /\ False));
           [intros [?|[?|(? & ? & _ & _ & [])]]; tauto|]
       end.
  - destruct HD as [HD1 HD2].
    apply (binary_nearly _ _ _ (fun x y => Some (x + y)) R o (math env e1) (math env e2) _ _ (fun _ _ => False) (IHe1 HC1 HD1) (IHe2 HC2 HD2)) in H; [exact H|].
    intros A B oa ob x y T' o' _ _ FA FB Ho. apply nearly_sound. now apply (plus_sound A B).
  - destruct HD as [HD1 HD2].
    apply (binary_nearly _ _ _ (fun x y => Some (x - y)) R o (math env e1) (math env e2) _ _ (fun _ _ => False) (IHe1 HC1 HD1) (IHe2 HC2 HD2)) in H; [exact H|].
    intros A B oa ob x y T' o' _ _ FA FB Ho. apply nearly_sound. now apply (minus_sound A B).
  - destruct HD as (HD1 & HD2 & HD3).
    apply (binary_nearly _ _ _ (fun x y => Some (x * y)) R o (math env e1) (math env e2) _ _ (fun _ _ => False) (IHe1 HC1 HD1) (IHe2 HC2 HD2)) in H; [exact H|].
    intros A B oa ob x y T' o' E1 E2 FA FB Ho. apply nearly_sound. apply (multiply_sound A B); eauto.
  - destruct HD as [HD1 HD2].
    apply (binary_nearly _ _ _ (fun x y => if y =? 0 then None else Some (Z.quot x y)) R o (math env e1) (math env e2) _ _ (fun _ _ => False) (IHe1 HC1 HD1) (IHe2 HC2 HD2)) in H; [exact H|].
    intros A B oa ob x y T' o' _ _ FA FB Ho. apply nearly_sound. now apply (divide_sound A B).
  - destruct HD as [HD1 HD2].
    apply (binary_nearly _ _ _ (fun x y => if y =? 0 then None else Some (Z.rem x y)) R o (math env e1) (math env e2) _ _
      (fun x y => y = -1 /\ In x [- 2 ^ 31; - 2 ^ 63; - 2 ^ 127]) (IHe1 HC1 HD1) (IHe2 HC2 HD2)) in H.
    + eapply nearly_weaker; [|exact H].
      intros [?|[?|(x & y & E1 & E2 & -> & Hx)]]; [tauto | tauto | right; right; eauto].
    + intros A B oa ob x y T' o' _ _ FA FB Ho. now apply (modulus_nearly A B).
  - destruct HD as [HD1 HD2].
    apply (binary_nearly _ _ _ (fun x y => Some (Z.min x y)) R o (math env e1) (math env e2) _ _ (fun _ _ => False) (IHe1 HC1 HD1) (IHe2 HC2 HD2)) in H; [exact H|].
    intros A B oa ob x y T' o' _ _ FA FB Ho. apply nearly_sound. now apply extreme2_sound in Ho.
  - destruct HD as [HD1 HD2].
    apply (binary_nearly _ _ _ (fun x y => Some (Z.max x y)) R o (math env e1) (math env e2) _ _ (fun _ _ => False) (IHe1 HC1 HD1) (IHe2 HC2 HD2)) in H; [exact H|].
    intros A B oa ob x y T' o' _ _ FA FB Ho. apply nearly_sound. now apply extreme2_sound in Ho.
Qed.

Theorem C24_every_remainder_partial : forall G env e,
  (forall n, valid (G n) /\ holds_value (G n) (env n)) -> constants_ok e -> avoids_products G env e ->
  forall R o, eval G env e = Some (R, o) ->
  valid R /\
  match math env e with
  | Some z => (o = Ok z /\ holds_value R z) \/ (o = UB /\ remainder_of_smallest env e)
  | None => o = UB
  end.
Proof. exact eval_nearly. Qed.
Print Assumptions C24_every_remainder_partial.

(** An expression with a remainder by -1, once of -128, which is right, and once of
    -2^31, which is not. *)
Example C24_every_remainder_example :
  let e := EAdd (EMod (EVar 0) (EVar 1)) (EConst 5) in
  let G low n := match n with 0%nat => Bty (lit low) (lit 9) | _ => Bty (lit (-1)) (lit (-1)) end in
  let env low n := match n with 0%nat => low | _ => -1 end in
  (forall low n, low = -128 \/ low = - 2 ^ 31 -> valid (G low n) /\ holds_value (G low n) (env low n)) /\
  constants_ok e /\ (forall low, avoids_products (G low) (env low) e) /\
  (exists R, eval (G (-128)) (env (-128)) e = Some (R, Ok 5)) /\ ~ remainder_of_smallest (env (-128)) e /\
  (exists R, eval (G (- 2 ^ 31)) (env (- 2 ^ 31)) e = Some (R, UB)) /\ remainder_of_smallest (env (- 2 ^ 31)) e.
Proof.
  cbv zeta. split.
  { intros low n [-> | ->]; destruct n; unfold valid, holds_value, wf_tv; vm_compute; repeat split; congruence. }
  split; [cbn; lia|]. split; [cbn; tauto|]. split; [eexists; vm_compute; reflexivity|].
  split. { cbn. intros [[[]|[[]|(_ & x & E & H)]]|[]]. injection E as <-. lia. }
  split; [eexists; vm_compute; reflexivity|].
  cbn. left. right. right. split; [reflexivity|]. eexists. split; [reflexivity | left; reflexivity].
Qed.
