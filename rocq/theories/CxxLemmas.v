(** * Facts about the C++ integer semantics of Cxx.v *)

From Coq Require Import ZArith Lia Bool List ZifyBool.
From Verif Require Import Cxx.
Open Scope Z_scope.

Ltac Zify.zify_post_hook ::= Z.div_mod_to_equations.

(** Sanity: the numerals are the powers of two they stand for. *)
Lemma ty_card_pow t : ty_card t = 2 ^ ty_bits t.
Proof. destruct t; vm_compute; reflexivity. Qed.

Lemma ty_range_card t : ty_max t = ty_min t + ty_card t - 1.
Proof. destruct t; reflexivity. Qed.

Lemma ty_min_signed t :
  ty_min t = if is_signed t then - 2 ^ (ty_bits t - 1) else 0.
Proof. destruct t; vm_compute; reflexivity. Qed.

Lemma ty_card_pos t : 0 < ty_card t.
Proof. destruct t; reflexivity. Qed.

Lemma ty_min_nonpos t : ty_min t <= 0.
Proof. destruct t; cbn; lia. Qed.

Lemma ty_max_pos t : 0 < ty_max t.
Proof. destruct t; cbn; lia. Qed.

Lemma cty_eqb_spec a b : cty_eqb a b = true <-> a = b.
Proof. split; [destruct a, b; cbn; congruence | intros ->; destruct b; reflexivity]. Qed.

Lemma in_ty_spec t z : in_ty t z = true <-> ty_min t <= z <= ty_max t.
Proof. unfold in_ty. rewrite andb_true_iff, !Z.leb_le. tauto. Qed.

Lemma wrap_range t z : ty_min t <= wrap t z <= ty_max t.
Proof.
  unfold wrap. rewrite ty_range_card.
  pose proof (Z.mod_pos_bound (z - ty_min t) (ty_card t) (ty_card_pos t)). lia.
Qed.

Lemma wrap_id t z : ty_min t <= z <= ty_max t -> wrap t z = z.
Proof.
  intros H. unfold wrap. rewrite ty_range_card in H.
  rewrite Z.mod_small; lia.
Qed.

Lemma wrap_eq t z w :
  ty_min t <= w <= ty_max t -> (exists k, z = w + k * ty_card t) -> wrap t z = w.
Proof.
  intros H [k ->]. unfold wrap.
  replace (w + k * ty_card t - ty_min t) with (w - ty_min t + k * ty_card t) by ring.
  rewrite Z.mod_add by (pose proof (ty_card_pos t); lia).
  rewrite ty_range_card in H. rewrite Z.mod_small; lia.
Qed.

Lemma wrap_congr t z : exists k, wrap t z = z + k * ty_card t.
Proof.
  exists (- ((z - ty_min t) / ty_card t)). unfold wrap.
  rewrite Z.mod_eq by (pose proof (ty_card_pos t); lia). ring.
Qed.

Lemma wrap_wf t v : wf_tv (cast t v).
Proof. unfold wf_tv, cast; cbn. apply wrap_range. Qed.

Lemma cast_id t v : ty_min t <= vl v <= ty_max t -> cast t v = TV t (vl v).
Proof. intros H. unfold cast. now rewrite wrap_id. Qed.

(** Congruence modulo 2^n of a conversion, in the form used below. *)
Lemma wrap_add_l t a b : wrap t (wrap t a + b) = wrap t (a + b).
Proof.
  destruct (wrap_congr t a) as [k Hk]. destruct (wrap_congr t (a + b)) as [m Hm].
  apply wrap_eq; [apply wrap_range|]. exists (k - m). lia.
Qed.

Lemma wrap_card t a k : wrap t (a + k * ty_card t) = wrap t a.
Proof.
  destruct (wrap_congr t a) as [m Hm].
  apply wrap_eq; [apply wrap_range|]. exists (k - m). lia.
Qed.

(** A coarser conversion followed by a finer one: if the modulus of [s] divides
    that of [t], going through [t] first changes nothing. *)
Lemma wrap_wrap s t z : (ty_bits s <= ty_bits t) -> wrap s (wrap t z) = wrap s z.
Proof.
  intros H. destruct (wrap_congr t z) as [k Hk]. rewrite Hk.
  assert (E : exists q, ty_card t = q * ty_card s).
  { exists (2 ^ (ty_bits t - ty_bits s)).
    rewrite !ty_card_pow, <- Z.pow_add_r; try (f_equal; lia);
      destruct s, t; cbn in *; lia. }
  destruct E as [q E]. rewrite E.
  replace (z + k * (q * ty_card s)) with (z + (k * q) * ty_card s) by ring.
  apply wrap_card.
Qed.

Lemma arith_ok t z : ty_min t <= z <= ty_max t -> arith t z = Ok (TV t z).
Proof.
  intros H. unfold arith. rewrite (proj2 (in_ty_spec t z) H).
  rewrite wrap_id by assumption. now destruct (is_signed t).
Qed.

Lemma promote_range t z : ty_min t <= z <= ty_max t ->
  ty_min (promote t) <= z <= ty_max (promote t).
Proof. destruct t; cbn; lia. Qed.

(** ** Loops *)
Lemma loop_inv {S R} (Inv : S -> Prop) (Post : R -> Prop) (m : S -> Z) step :
  (forall s, Inv s -> match step s with
                      | inl s' => Inv s' /\ m s' <= m s - 1
                      | inr r => Post r
                      end) ->
  forall p s, Inv s ->
  match loop (S := S) (R := R) p step s with
  | inl s' => Inv s' /\ m s' <= m s - Zpos p
  | inr r => Post r
  end.
Proof.
  intros H. induction p; intros s Hs; cbn [loop].
  - specialize (H s Hs). destruct (step s) as [s'|r]; auto. destruct H as [Hs' Hm].
    pose proof (IHp s' Hs') as H1. destruct (loop p step s') as [s''|r]; auto.
    destruct H1 as [Hs'' Hm'']. pose proof (IHp s'' Hs'') as H2.
    destruct (loop p step s'') as [s3|r]; auto. destruct H2. split; auto. lia.
  - pose proof (IHp s Hs) as H1. destruct (loop p step s) as [s'|r]; auto.
    destruct H1 as [Hs' Hm]. pose proof (IHp s' Hs') as H2.
    destruct (loop p step s') as [s3|r]; auto. destruct H2. split; auto. lia.
  - specialize (H s Hs). destruct (step s); auto.
Qed.

(** A loop whose measure is non-negative and smaller than the step budget ends. *)
Lemma loop_total {S R} (Inv : S -> Prop) (Post : R -> Prop) (m : S -> Z) step :
  (forall s, Inv s -> 0 <= m s) ->
  (forall s, Inv s -> match step s with
                      | inl s' => Inv s' /\ m s' <= m s - 1
                      | inr r => Post r
                      end) ->
  forall p s, Inv s -> m s < Zpos p ->
  exists r, loop (S := S) (R := R) p step s = inr r /\ Post r.
Proof.
  intros H0 H p s Hs Hm. pose proof (loop_inv Inv Post m step H p s Hs) as L.
  destruct (loop p step s) as [s'|r]; eauto.
  destruct L as [Hs' L]. specialize (H0 _ Hs'). lia.
Qed.
