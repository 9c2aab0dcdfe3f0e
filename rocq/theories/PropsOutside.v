(** * C153: bounded integers outside of arithmetic *)

From Coq Require Import ZArith Bool List Lia.
From Verif Require Import Cxx Core Spec CxxLemmas CoreLemmas CoreProofs Outside.
Import ListNotations.
Local Open Scope Z_scope.

Lemma conversion_wraps B x t : valid B -> holds_value B x -> explicit_conversion t B x = Ok (TV t (wrap t x)).
Proof. intros HB Hx. unfold explicit_conversion, to_builtin. cbn [ivalue]. rewrite (value_valid B x HB Hx). reflexivity. Qed.
Lemma storage_holds B x : valid B -> holds_value B x -> ty_min (und B) <= x <= ty_max (und B).
Proof. intros HB Hx. pose proof (und_valid B HB) as H. unfold holds, holds_value in *. lia. Qed.

(** ** C153. An explicit conversion gives the value modulo 2^n, where n is the number of bits of the target, as the language's conversions do; *)
Theorem C153_conversion : forall B x t, valid B -> holds_value B x ->
  exists y, explicit_conversion t B x = Ok (TV t y) /\ ty_min t <= y <= ty_max t /\ y mod 2 ^ ty_bits t = x mod 2 ^ ty_bits t.
Proof.
  intros B x t HB Hx. exists (wrap t x). split; [now apply conversion_wraps|]. unfold wrap. assert (E : ty_card t = 2 ^ ty_bits t) by (destruct t; reflexivity).
  pose proof (Z.mod_pos_bound (x - ty_min t) (ty_card t) ltac:(destruct t; reflexivity)) as H. split; [destruct t; cbn in *; lia|].
  rewrite E, Zplus_mod_idemp_l. f_equal. lia.
Qed.
Print Assumptions C153_conversion.
(** so it keeps the value exactly when the target has it. *)
Theorem C153_conversion_keeps : forall B x t, valid B -> holds_value B x ->
  (explicit_conversion t B x = Ok (TV t x) <-> ty_min t <= x <= ty_max t).
Proof.
  intros B x t HB Hx. rewrite (conversion_wraps B x t HB Hx). split.
  - intros H. injection H as H. unfold wrap in H. pose proof (Z.mod_pos_bound (x - ty_min t) (ty_card t) ltac:(destruct t; reflexivity)) as G. rewrite <- H. destruct t; cbn in *; lia.
  - intros H. now rewrite wrap_id.
Qed.
Print Assumptions C153_conversion_keeps.

(** Whatever std::hash is, the hash is that of the value in the storage type, so equal values of types with the same storage have equal hashes; *)
Theorem C153_hash : forall H (std_hash : cty -> Z -> H) B x, valid B -> holds_value B x -> hash std_hash B x = Ok (std_hash (und B) x).
Proof. intros H std_hash B x HB Hx. unfold hash. rewrite (conversion_wraps B x _ HB Hx). cbn [bind vl]. now rewrite wrap_id by now apply storage_holds. Qed.
Print Assumptions C153_hash.
(** and for all types in which a std::hash does not depend on the type, equal values have equal hashes. *)
Theorem C153_equal_hashes : forall H (std_hash : cty -> Z -> H) A B x, valid A -> valid B -> holds_value A x -> holds_value B x ->
  (und A = und B \/ std_hash (und A) x = std_hash (und B) x) -> hash std_hash A x = hash std_hash B x.
Proof. intros H std_hash A B x HA HB Ha Hb E. rewrite !C153_hash by assumption. destruct E as [-> | ->]; reflexivity. Qed.
Print Assumptions C153_equal_hashes.

(** When std::formatter of every built-in type gives a text that [means] the value under the options, so does that of a bounded integer. *)
Theorem C153_format : forall O S (std_format : cty -> O -> Z -> S) (means : O -> Z -> S -> Prop), (forall t o x, ty_min t <= x <= ty_max t -> means o x (std_format t o x)) ->
  forall B o x, valid B -> holds_value B x -> exists s, format std_format o B x = Ok s /\ means o x s.
Proof.
  intros O S std_format means M B o x HB Hx. exists (std_format (und B) o x). split; [unfold format; rewrite (value_valid B x HB Hx); reflexivity|]. apply M. now apply storage_holds.
Qed.
Print Assumptions C153_format.

(** Adding to a pointer, on either side, gives the pointer that many elements on, and is undefined exactly when that is outside of the array. *)
Theorem C153_pointer : forall p B x, valid B -> holds_value B x ->
  (0 <= index p + x <= length p -> pointer_plus p B x = Ok (Pointer (array p) (length p) (index p + x))) /\
  (pointer_plus p B x = UB <-> ~ 0 <= index p + x <= length p) /\ plus_pointer B x p = pointer_plus p B x.
Proof.
  intros p B x HB Hx. unfold plus_pointer, pointer_plus. rewrite (value_valid B x HB Hx). cbn [bind vl]. unfold std_advance.
  destruct (Z.leb_spec 0 (index p + x)), (Z.leb_spec (index p + x) (length p)); cbn [andb]; (split; [|split; [|reflexivity]]); try reflexivity; try lia; (split; [intros G; try discriminate G; lia|intros G; try reflexivity; lia]).
Qed.
Print Assumptions C153_pointer.

(** integer<-200, 1000>, stored in 16 bits *)
Example C153_example : valid (bt (-200) 1000) /\ und (bt (-200) 1000) = I16 /\ holds_value (bt (-200) 1000) (-100) /\
  explicit_conversion U8 (bt (-200) 1000) (-100) = Ok (TV U8 156) /\ hash (fun t x => wrap U64 x) (bt (-200) 1000) (-100) = Ok 18446744073709551516 /\
  hash (fun t x => wrap U64 x) (bt (-100) (-100)) (-100) = Ok 18446744073709551516 /\
  pointer_plus (Pointer 0 10 4) (bt (-200) 1000) 6 = Ok (Pointer 0 10 10) /\ pointer_plus (Pointer 0 10 4) (bt (-200) 1000) (-5) = UB.
Proof. repeat split; vm_compute; try reflexivity; try discriminate. Qed.
