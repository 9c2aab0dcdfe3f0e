(** * Representations: proofs *)

From Coq Require Import List ZArith Bool Lia.
From Verif Require Import Cxx CxxLemmas Core Arith Funcs Spec CoreLemmas ArithLemmas ArithProofs FuncLemmas FuncLemmas2 FuncLemmas3 CoreProofs SpecNum NumLemmas TombLemmas NumProofs Nested SpecNested.
Import ListNotations.
Open Scope Z_scope.

Lemma spares_of_some T ti : valid T -> tombstone_consts T = Some ti -> spares_of T = Z.to_nat (spares T).
Proof.
  intros V H. unfold spares_of. rewrite H. rewrite consts_spec in H by auto.
  match type of H with (if ?b then _ else _) = _ => destruct b; [|discriminate] end.
  injection H as <-. cbn [info_of ti_index]. rewrite hi_bt. f_equal. lia.
Qed.

Section Integer.
Context (T : bty) (HV : valid T) (H64 : ty_bits (und T) <= 64).

Lemma raw_index_value z : holds_value T z -> raw_index T z = -1.
Proof.
  intros Hz. unfold raw_index. destruct (tombstone_index T z) as [[R o]|] eqn:E; [|reflexivity].
  assert (Hs : in_storage T z).
  { pose proof (und_valid _ HV) as HU. unfold holds in HU. unfold in_storage. unfold holds_value in Hz. lia. }
  destruct (index_then_make T z R o HV Hs E) as (j & -> & _ & _ & Hj & _). auto.
Qed.
Lemma raw_index_spare i : (i < spares_of T)%nat -> raw_index T (raw_spare T i) = Z.of_nat i.
Proof.
  intros Hi. unfold spares_of in Hi. destruct (tombstone_consts T) as [ti|] eqn:E; [|lia].
  assert (Hs : spares_of T = Z.to_nat (spares T)) by (eapply spares_of_some; eauto). unfold spares_of in Hs. rewrite E in Hs.
  rewrite Hs in Hi.
  assert (NC : lo T <> hi T).
  { rewrite consts_spec in E by auto. destruct (Z.eqb_spec (lo T) (hi T)); [discriminate|assumption]. }
  pose proof (make_total T (Z.of_nat i) HV NC H64 ltac:(lia)) as Hm.
  unfold raw_spare. rewrite Hm. pose proof (und64 T H64) as UB.
  pose proof (und_valid _ HV) as HU. unfold holds in HU. pose proof (valid_le _ HV) as L.
  assert (Hi128 : ty_min I128 <= Z.of_nat i <= ty_max U128).
  { cbn [ty_min ty_max]. unfold spares in Hi. cbn. lia. }
  destruct (make_full T (Z.of_nat i) _ _ HV Hi128 Hm) as (_ & raw & Hraw & Hst & _ & Hback).
  injection Hraw as <-. unfold raw_index.
  rewrite (index_total T (rep_of T (Z.of_nat i)) HV NC H64 Hst) in *.
  specialize (Hback _ _ eq_refl). now injection Hback as ->.
Qed.
Lemma bounded_integer_faithful : faithful (bounded_integer T) (holds_value T).
Proof.
  split; [|split]; cbn; auto.
  - apply raw_index_value.
  - apply raw_index_spare.
Qed.
Lemma with_member_faithful P : faithful (with_member T P) (fun v => holds_value T (fst v)).
Proof.
  split; [|split]; cbn.
  - intros [z p] _. reflexivity.
  - intros [z p] Hz. cbn in *. now apply raw_index_value.
  - apply raw_index_spare.
Qed.
End Integer.

Lemma plain_faithful A (any : A) : faithful (plain A any) (fun _ => True).
Proof. split; [|split]; cbn; auto. lia. Qed.

Lemma two_valid : valid index_of_two.
Proof. unfold valid, index_of_two. split; [|split]; vm_compute; try (split; congruence); reflexivity. Qed.
Lemma two_small : ty_bits (und index_of_two) <= 64.
Proof. vm_compute. congruence. Qed.
Lemma two_spares : spares_of index_of_two = 254%nat.
Proof. vm_compute. reflexivity. Qed.

Local Opaque spares_of raw_spare raw_index.
Definition ok_option {A} (ok : A -> Prop) (x : option A) : Prop := match x with None => True | Some a => ok a end.
Lemma in_variant_faithful {A} (r : repr A) ok : faithful r ok -> faithful (optional_in_variant r) (ok_option ok).
Proof.
  intros (H1 & H2 & H3).
  destruct (with_member_faithful index_of_two two_valid two_small (option (stored r))) as (G1 & G2 & G3).
  split; [|split].
  - intros [a|] Ha; [|reflexivity]. cbn. rewrite H1 by assumption. reflexivity.
  - intros [a|] Ha; apply G2; split; vm_compute; congruence.
  - exact G3.
Qed.
Lemma in_place_faithful {A} (r : repr A) ok : (0 < spare r)%nat -> faithful r ok -> faithful (optional_in_place r) (ok_option ok).
Proof.
  intros Hs (H1 & H2 & H3). split; [|split]; cbn [optional_in_place read store_value spare_index spare make_spare].
  - intros [a|] Ha.
    + rewrite H2 by assumption. cbn. now rewrite H1.
    + now rewrite H3.
  - intros [a|] Ha.
    + now rewrite H2.
    + now rewrite H3.
  - intros i Hi. rewrite H3 by lia. destruct (Z.eqb_spec (Z.of_nat (i + 1)) (-1)); lia.
Qed.
Lemma optional_faithful {A} (r : repr A) ok : faithful r ok -> faithful (optional_repr r) (ok_option ok).
Proof.
  intros H. unfold optional_repr. destruct (spare r) eqn:E.
  - now apply in_variant_faithful.
  - apply in_place_faithful; [lia|assumption].
Qed.
Lemma nested_faithful {A} (r : repr A) ok d : faithful r ok -> faithful (nested d r) (ok_levels d ok).
Proof. intros H. induction d; cbn [nested ok_levels]; [assumption|]. now apply optional_faithful. Qed.

Lemma optional_spare {A} (r : repr A) : spare (optional_repr r) = match spare r with 0%nat => 254%nat | S n => n end.
Proof. unfold optional_repr. destruct (spare r) eqn:E; cbn [optional_in_variant optional_in_place spare with_member]; [exact two_spares|]. rewrite E. lia. Qed.
(** The storage does not grow with the nesting as long as there are spare representations. *)
Lemma nested_spare {A} (r : repr A) d : (d <= spare r)%nat -> spare (nested d r) = (spare r - d)%nat.
Proof.
  induction d; intros Hd; [cbn [nested levels] in *; symmetry; apply Nat.sub_0_r|]. transitivity (spare (optional_repr (nested d r))); [reflexivity|]. rewrite optional_spare, IHd by lia.
  destruct (spare r - d)%nat eqn:E; lia.
Qed.
Lemma nested_same_storage {A} (r : repr A) d : (d <= spare r)%nat -> stored (nested d r) = stored r.
Proof.
  induction d; intros Hd; [reflexivity|]. transitivity (stored (optional_repr (nested d r))); [reflexivity|].
  unfold optional_repr. rewrite nested_spare by lia.
  destruct (spare r - d)%nat eqn:E; [lia|]. cbn [optional_in_place stored]. apply IHd. lia.
Qed.
