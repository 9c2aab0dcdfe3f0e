(** * Printing, round trips and literals *)

From Coq Require Import ZArith Lia Bool List.
From Verif Require Import Cxx CxxLemmas Core Spec CoreLemmas Arith ArithLemmas ArithProofs
  Funcs SpecFuncs SpecText FuncLemmas FuncLemmas2 FuncLemmas3 CoreProofs TextLemmas.
Import ListNotations.
Open Scope Z_scope.

Ltac Zify.zify_post_hook ::= idtac.

(** ** to_string *)
Lemma step_spec x acc : 0 <= x <= ty_max U128 ->
  to_string_step (x, acc) =
  if 0 <? x / 10 then inl (x / 10, acc ++ [x mod 10 + 48]) else inr (Ok (acc ++ [x mod 10 + 48])).
Proof.
  intros Hx. unfold to_string_step.
  assert (0 <= x / 10 <= x) as Hq.
  { split; [apply Z.div_pos; lia|]. apply Z.div_le_upper_bound; lia. }
  pose proof (Z.mod_pos_bound x 10 ltac:(lia)) as Hr.
  assert (usual (TV U128 x) (lit 10) = U128) as U by reflexivity.
  unfold cmod, cdiv. rewrite U. cbn [vl lit].
  rewrite (wrap_id U128 x) by (cbn [ty_min]; lia). rewrite (wrap_id U128 10) by (cbn; lia).
  change (10 =? 0) with false. cbn iota.
  rewrite Z.quot_div_nonneg, Z.rem_mod_nonneg by lia.
  rewrite (proj2 (in_ty_spec U128 (x / 10))) by (cbn [ty_min]; lia). cbn iota.
  unfold arith. cbn [is_signed]. rewrite (wrap_id U128 (x / 10)) by (cbn [ty_min]; lia).
  unfold cast. cbn [vl ty]. rewrite (wrap_id U128 (x / 10)) by (cbn [ty_min]; lia).
  rewrite cgt0_spec by (unfold wf_tv; cbn [ty vl ty_min]; lia). cbn [vl].
  rewrite (wrap_id I8 (x mod 10 + 48)) by (cbn; lia). reflexivity.
Qed.

Definition dec_inv (x0 : Z) (s : Z * list Z) : Prop :=
  exists v, decimal (rev (snd s)) v /\ fst s * 10 ^ Z.of_nat (length (snd s)) + v = x0 /\
    0 <= fst s <= ty_max U128 /\ (snd s = [] \/ 0 < fst s) /\
    fst s < 10 ^ (39 - Z.of_nat (length (snd s))) /\ Z.of_nat (length (snd s)) <= 38.

Lemma ten39 : ty_max U128 < 10 ^ 39. Proof. reflexivity. Qed.

Lemma to_string_u128_spec x : 0 <= x <= ty_max U128 ->
  exists s, to_string_u128 x = Ok s /\ s <> [] /\ decimal s x /\ (x <> 0 -> hd 0 s <> 48) /\ (x = 0 -> s = [48]).
Proof.
  intros Hx. unfold to_string_u128.
  edestruct (loop_total (dec_inv x)
    (fun o => exists s, o = Ok s /\ rev s <> [] /\ decimal (rev s) x /\ (x <> 0 -> hd 0 (rev s) <> 48) /\ (x = 0 -> rev s = [48]))
    (fun s => 38 - Z.of_nat (length (snd s))) to_string_step) with (p := 39%positive) (s := (x, @nil Z)) as (r & E & P).
  3:{ exists 0. cbn [fst snd length rev]. pose proof ten39.
      split; [constructor|]. split; [lia|]. split; [auto|]. split; [auto|]. split; [cbn [Z.of_nat]; rewrite Z.sub_0_r; lia|lia]. }
  - intros s (v & _ & _ & _ & _ & _ & L). lia.
  - intros [y acc] (v & D & V & B & N & U & L). cbn [fst snd] in *. rewrite step_spec by auto.
    pose proof (Z.mod_pos_bound y 10 ltac:(lia)) as Hr. pose proof (Z.div_mod y 10 ltac:(lia)) as DM.
    assert (0 < 10 ^ Z.of_nat (length acc)) as PP by (apply Z.pow_pos_nonneg; lia).
    assert (decimal (rev (acc ++ [y mod 10 + 48])) (y mod 10 * 10 ^ Z.of_nat (length acc) + v)) as D'.
    { rewrite rev_app_distr. cbn [rev app].
      replace (y mod 10) with (y mod 10 + 48 - 48) at 2 by lia.
      replace (length acc) with (length (rev acc)) by apply rev_length.
      constructor; [lia|auto]. }
    destruct (Z.ltb_spec 0 (y / 10)) as [Q|Q].
    + split; [|cbn [snd]; rewrite app_length; cbn [length]; lia].
      exists (y mod 10 * 10 ^ Z.of_nat (length acc) + v). cbn [fst snd].
      rewrite app_length. cbn [length]. rewrite Nat2Z.inj_add. cbn [Z.of_nat Pos.of_succ_nat].
      split; [auto|]. rewrite Z.pow_add_r by lia. change (10 ^ 1) with 10.
      split; [rewrite <- V; rewrite DM at 3; ring|].
      assert (y / 10 <= y) by (apply Z.div_le_upper_bound; lia).
      split; [lia|]. split; [auto|].
      assert (Z.of_nat (length acc) <= 37) as L'.
      { destruct (Z.eq_dec (Z.of_nat (length acc)) 38) as [E38|]; [|lia]. exfalso.
        rewrite E38 in U. change (10 ^ (39 - 38)) with 10 in U.
        assert (y / 10 = 0) by (apply Z.div_small; lia). lia. }
      split; [|lia]. apply Z.div_lt_upper_bound; [lia|].
      replace (39 - Z.of_nat (length acc)) with (1 + (39 - (Z.of_nat (length acc) + 1))) in U by lia.
      rewrite Z.pow_add_r in U by lia. exact U.
    + exists (acc ++ [y mod 10 + 48]). split; [reflexivity|].
      assert (0 <= y / 10) by (apply Z.div_pos; lia).
      assert (y mod 10 = y) as M by lia.
      rewrite M in *. rewrite V in D'. split; [|split; [auto|]].
      * rewrite rev_app_distr. cbn. congruence.
      * rewrite rev_app_distr. cbn [rev app hd]. destruct N as [->|N].
        -- cbn [length] in V. change (10 ^ Z.of_nat 0) with 1 in V. inversion D as [E0 E1|]. split; [lia|].
           intros Z0. cbn [rev]. f_equal. lia.
        -- split; [lia|]. intros X0. apply decimal_le in D. nia.
  - cbn [snd length]. lia.
  - rewrite E. destruct P as (s & -> & P). cbn [bind]. eauto.
Qed.

Lemma canonical_pos x s : 0 <= x -> s <> [] /\ decimal s x /\ (x <> 0 -> hd 0 s <> 48) /\ (x = 0 -> s = [48]) ->
  canonical s x.
Proof. intros. left. tauto. Qed.

Lemma to_string_i128_spec x : ty_min I128 <= x <= ty_max I128 ->
  exists s, to_string_i128 x = Ok s /\ canonical s x.
Proof.
  intros Hx. unfold to_string_i128. rewrite cge0_spec by (unfold wf_tv; cbn [ty vl]; lia). cbn [vl].
  assert (ty_max I128 <= ty_max U128 /\ - ty_min I128 <= ty_max U128) as [LU LU'] by (split; cbn; lia).
  destruct (Z.leb_spec 0 x) as [P|N].
  - unfold cast. cbn [vl]. rewrite wrap_id by (cbn [ty_min]; lia).
    destruct (to_string_u128_spec x) as (s & -> & C); [lia|].
    exists s. split; [auto|]. now apply canonical_pos.
  - unfold cast. cbn [vl]. rewrite cneg_u128, wrap_u128_neg. cbn [bind vl].
    rewrite wrap_id by (cbn [ty_min]; lia).
    destruct (to_string_u128_spec (- x)) as (s & -> & Ns & D & H & _); [lia|].
    exists (45 :: s). split; [reflexivity|]. right. split; [lia|]. exists s.
    split; [auto|]. split; [auto|]. split; [auto|]. apply H. lia.
Qed.

(** Uniqueness of canonical numerals. *)
Lemma decimal_fun s v w : decimal s v -> decimal s w -> v = w.
Proof.
  intros D. revert w. induction D as [|c s v Hc D IH]; intros w E; inversion E; subst; [auto|].
  f_equal. auto.
Qed.

Lemma decimal_chars s v : decimal s v -> chars s.
Proof. induction 1; constructor; auto. cbn. lia. Qed.
Lemma canonical_numeral s v (signed : Prop) : (v < 0 -> signed) -> canonical s v -> numeral signed s v.
Proof.
  intros Hs [(P & N & D & _)|(L & t & -> & N & D & _)]; [left; auto|right].
  split; [auto|]. exists t. auto.
Qed.
Lemma canonical_chars s v : canonical s v -> chars s.
Proof.
  intros [(P & N & D & _)|(L & t & -> & N & D & _)]; [eapply decimal_chars; eauto|].
  constructor; [cbn; lia|]. eapply decimal_chars; eauto.
Qed.

Lemma round_trip mn mx s v : wf_tv mn -> wf_tv mx -> vl mn <= v <= vl mx -> canonical s v ->
  forall R o, to_integer mn mx s = Some (R, o) -> o = Ok v.
Proof.
  intros W1 W2 B C R o H. apply to_integer_exact in H; auto; [|lia|eapply canonical_chars; eauto].
  apply (proj1 (proj2 H)). split; [|auto]. apply canonical_numeral; [lia|auto].
Qed.

Lemma to_integer_as_exact B s R o : valid B -> chars s -> to_integer_as B s = Some (R, o) ->
  R = B /\ (forall v, o = Ok v <-> numeral (lo B < 0) s v /\ holds_value B v) /\
  (o = Throw \/ exists v, o = Ok v).
Proof.
  intros V F H. unfold to_integer_as in H. pose proof V as V'. destruct V' as (W1 & W2 & _).
  pose proof (valid_le _ V) as L. unfold then_ in H.
  apply obind_inv in H. destruct H as ([Q q] & E & H).
  apply to_integer_exact in E; auto. destruct E as (-> & E & T).
  fold (lo B) (hi B) in *.
  assert (valid (bt (lo B) (hi B))) as VB by (apply valid_bt, valid_repr; auto).
  assert (forall z, lo B <= z <= hi B -> convert B (Bounded (bt (lo B) (hi B))) z = Some (Ok z)) as CV.
  { intros z Hz. rewrite convert_spec; auto. cbn [ilo ihi]. rewrite lo_bt, hi_bt.
    now rewrite !Z.leb_refl. }
  destruct T as [->|(v & ->)].
  - rewrite lo_bt, CV in H by lia. cbn [obind] in H. injection H as <- <-. split; [auto|]. split; [exact E|auto].
  - pose proof (proj1 (E v) eq_refl) as (Nv & Bv). rewrite CV in H by auto. cbn [obind] in H.
    injection H as <- <-. split; [auto|]. split; [exact E|eauto].
Qed.

Lemma to_integer_as_accepts B s : valid B -> chars s ->
  (to_integer_as B s <> None <-> 10 * bound_of (lo B) (hi B) + 9 <= ty_max U128).
Proof.
  intros V F. pose proof V as V'. destruct V' as (W1 & W2 & _). pose proof (valid_le _ V) as L.
  rewrite <- (to_integer_accepts (bmin B) (bmax B) s) by auto. unfold to_integer_as, then_.
  destruct (to_integer (bmin B) (bmax B) s) as [[Q q]|] eqn:E; cbn [obind]; [|tauto].
  split; intros _; [congruence|].
  apply to_integer_exact in E; auto. destruct E as (-> & E & T). fold (lo B) (hi B) in *.
  assert (valid (bt (lo B) (hi B))) as VB by (apply valid_bt, valid_repr; auto).
  assert (forall z, lo B <= z <= hi B -> convert B (Bounded (bt (lo B) (hi B))) z = Some (Ok z)) as CV.
  { intros z Hz. rewrite convert_spec; auto. cbn [ilo ihi]. rewrite lo_bt, hi_bt.
    now rewrite !Z.leb_refl. }
  destruct T as [->|(v & ->)].
  - rewrite lo_bt, CV by lia. cbn [obind]. congruence.
  - pose proof (proj1 (E v) eq_refl) as (Nv & Bv). rewrite CV by auto. cbn [obind]. congruence.
Qed.

(** ** Literals *)
Lemma wrap_mod z : wrap U128 z = z mod 2 ^ 128.
Proof.
  unfold wrap. change (ty_card U128) with (2 ^ 128). change (ty_min U128) with 0.
  now rewrite Z.sub_0_r, Z.add_0_r.
Qed.

Lemma wrap_u128_digit d : ty_min I8 <= d <= ty_max I8 -> (wrap U128 (d - 48) <=? 9) = is_digit d.
Proof.
  intros Hd. unfold is_digit. destruct (Z.leb_spec 48 d) as [L|L].
  - cbn in Hd. rewrite wrap_id by (change (ty_max U128) with (2 ^ 128 - 1); change (ty_min U128) with 0; lia). cbn [andb]. lia.
  - cbn [andb]. rewrite wrap_mod.
    rewrite <- (Z.mod_add (d - 48) 1 (2 ^ 128)) by lia. cbn in Hd. rewrite Z.mod_small by lia. lia.
Qed.

Lemma literal_loop_spec ds : chars ds -> forall r,
  match literal_loop r ds with
  | Some q => exists v, decimal (strip ds) v /\ (r mod 2 ^ 128 = r -> q = (r * 10 ^ Z.of_nat (length (strip ds)) + v) mod 2 ^ 128)
  | None => forall v, ~ decimal (strip ds) v
  end.
Proof.
  intros F. induction F as [|d ds Hd F IH]; intros r; cbn [literal_loop strip filter].
  - exists 0. split; [constructor|]. intros E. cbn [length Z.of_nat]. rewrite Z.pow_0_r, Z.mul_1_r, Z.add_0_r. auto.
  - destruct (Z.eqb_spec d 39) as [->|N]; cbn [negb]; [apply IH|].
    rewrite wrap_u128_digit by auto. destruct (is_digit d) eqn:D.
    2:{ intros v Dv. inversion Dv; subst. unfold is_digit in D. lia. }
    specialize (IH (wrap U128 (wrap U128 (r * 10) + wrap U128 (d - 48)))).
    destruct (literal_loop _ ds) as [q|].
    + destruct IH as (v & Dv & Q). exists ((d - 48) * 10 ^ Z.of_nat (length (strip ds)) + v).
      unfold is_digit in D. split; [constructor; [lia|auto]|]. intros _.
      rewrite Q by (rewrite wrap_mod; apply Z.mod_mod; lia). fold (strip ds). cbn [length].
      rewrite Nat2Z.inj_succ, Z.pow_succ_r by lia. rewrite !wrap_mod.
      rewrite <- Zplus_mod. rewrite Z.add_mod by lia. rewrite (Z.mul_mod_idemp_l (r * 10 + (d - 48))) by lia.
      rewrite <- Z.add_mod by lia. f_equal. ring.
    + intros v Dv. inversion Dv; subst. eapply IH; eauto.
Qed.

Lemma literal_spec ds : chars ds ->
  (forall v, decimal (strip ds) v -> literal ds = Some (cst (v mod 2 ^ 128))) /\
  ((forall v, ~ decimal (strip ds) v) -> literal ds = None).
Proof.
  intros F. unfold literal. pose proof (literal_loop_spec ds F 0) as L.
  destruct (literal_loop 0 ds) as [q|]; cbn [obind].
  - destruct L as (v & D & Q). specialize (Q eq_refl). rewrite Z.mul_0_l, Z.add_0_l in Q. subst q. split.
    + intros w Dw. rewrite (decimal_fun _ _ _ Dw D). apply constant_t_spec.
      pose proof (Z.mod_pos_bound v (2 ^ 128) ltac:(lia)).
      unfold wf_tv. cbn [ty vl]. change (ty_max U128) with (2 ^ 128 - 1). change (ty_min U128) with 0. lia.
    + intros N. exfalso. eapply N; eauto.
  - split; [|auto]. intros v D. exfalso. eapply L; eauto.
Qed.

(** ** The statements of PropsText.v *)
Lemma to_integer_full mn mx s R o :
  wf_tv mn -> wf_tv mx -> vl mn <= vl mx -> chars s ->
  to_integer mn mx s = Some (R, o) ->
  lo R = vl mn /\ hi R = vl mx /\
  (forall v, o = Ok v <-> numeral (vl mn < 0) s v /\ vl mn <= v <= vl mx) /\
  ((forall v, ~ (numeral (vl mn < 0) s v /\ vl mn <= v <= vl mx)) -> o = Throw).
Proof.
  intros W1 W2 L F H. apply to_integer_exact in H; auto. destruct H as (-> & E & T).
  rewrite lo_bt, hi_bt. split; [auto|]. split; [auto|]. split; [auto|].
  intros N. destruct T as [->|(v & ->)]; [auto|]. exfalso. apply (N v). now apply E.
Qed.
Lemma to_integer_as_full B s R o : valid B -> chars s ->
  to_integer_as B s = Some (R, o) ->
  R = B /\ (forall v, o = Ok v <-> numeral (lo B < 0) s v /\ holds_value B v) /\
  ((forall v, ~ (numeral (lo B < 0) s v /\ holds_value B v)) -> o = Throw).
Proof.
  intros V F H. apply to_integer_as_exact in H; auto. destruct H as (-> & E & T).
  split; [auto|]. split; [auto|].
  intros N. destruct T as [->|(v & ->)]; [auto|]. exfalso. apply (N v). now apply E.
Qed.
Lemma to_string_u128_canonical x : 0 <= x <= ty_max U128 ->
  exists s, to_string_u128 x = Ok s /\ canonical s x.
Proof.
  intros H. destruct (to_string_u128_spec x H) as (s & E & C). exists s. split; [auto|].
  apply canonical_pos; [lia|auto].
Qed.

Lemma decimal_inj s : forall t v, length s = length t -> decimal s v -> decimal t v -> s = t.
Proof.
  induction s as [|c s IH]; intros [|d t] v L D1 D2; cbn in L; try discriminate; [auto|].
  injection L as L. inversion D1 as [|? ? w1 Hc Dw1 Ew]; inversion D2 as [|? ? w2 Hd Dw2]; subst.
  pose proof (decimal_nonneg _ _ Dw1) as B1. pose proof (decimal_nonneg _ _ Dw2) as B2. rewrite L in *.
  assert (c = d) as -> by nia. f_equal. apply (IH t w1); auto.
  match goal with H : _ = _ |- _ => replace w1 with w2 by lia end. auto.
Qed.
Lemma decimal_size s v : s <> [] -> decimal s v -> hd 0 s <> 48 -> 10 ^ (Z.of_nat (length s) - 1) <= v < 10 ^ Z.of_nat (length s).
Proof.
  intros N D H. split; [|apply decimal_nonneg in D; lia].
  inversion D as [|c t w Hc Dt]; subst; [congruence|].
  cbn [hd length] in *. replace (Z.of_nat (S (length t)) - 1) with (Z.of_nat (length t)) by lia.
  apply decimal_le in Dt. assert (0 < 10 ^ Z.of_nat (length t)) by (apply Z.pow_pos_nonneg; lia). nia.
Qed.
Lemma decimal_unique s t v : s <> [] -> t <> [] -> decimal s v -> decimal t v -> hd 0 s <> 48 -> hd 0 t <> 48 -> s = t.
Proof.
  intros N1 N2 D1 D2 H1 H2. apply (decimal_inj s t v); auto.
  pose proof (decimal_size s v N1 D1 H1) as B1. pose proof (decimal_size t v N2 D2 H2) as B2.
  assert (Z.of_nat (length s) - 1 < Z.of_nat (length t)) by (apply (Z.pow_lt_mono_r_iff 10); lia).
  assert (Z.of_nat (length t) - 1 < Z.of_nat (length s)) by (apply (Z.pow_lt_mono_r_iff 10); lia). lia.
Qed.
Lemma canonical_unique s t v : canonical s v -> canonical t v -> s = t.
Proof.
  intros [(P & N & D & H & H0)|(P & s' & -> & N & D & H)] [(P' & N' & D' & H' & H0')|(P' & t' & -> & N' & D' & H')]; try lia.
  - destruct (Z.eq_dec v 0); [now rewrite H0, H0'|]. eapply decimal_unique; eauto.
  - f_equal. eapply decimal_unique; eauto.
Qed.

Lemma round_trip_full mn mx x s R o :
  wf_tv mn -> wf_tv mx -> vl mn <= x <= vl mx ->
  (to_string_u128 x = Ok s /\ 0 <= x <= ty_max U128 \/
   to_string_i128 x = Ok s /\ ty_min I128 <= x <= ty_max I128) ->
  to_integer mn mx s = Some (R, o) -> o = Ok x.
Proof.
  intros W1 W2 B [[E H]|[E H]].
  - destruct (to_string_u128_canonical x H) as (s' & E' & C). rewrite E in E'. injection E' as <-.
    eapply round_trip; eauto.
  - destruct (to_string_i128_spec x H) as (s' & E' & C). rewrite E in E'. injection E' as <-.
    eapply round_trip; eauto.
Qed.

Lemma literal_exact ds v : chars ds -> decimal (strip ds) v -> v <= ty_max U128 ->
  exists B, literal ds = Some B /\ valid B /\ lo B = v /\ hi B = v.
Proof.
  intros F D L. exists (cst v). pose proof (decimal_le _ _ D) as P.
  assert (v mod 2 ^ 128 = v) as E.
  { apply Z.mod_small. change (ty_max U128) with (2 ^ 128 - 1) in L. lia. }
  split; [rewrite <- E; now apply literal_spec|].
  split; [apply valid_cst; unfold in128; cbn in *; lia|]. split; reflexivity.
Qed.
Lemma literal_rejected ds : chars ds -> (forall v, ~ decimal (strip ds) v) -> literal ds = None.
Proof. intros F. apply literal_spec; auto. Qed.
Lemma literal_modulo ds v : chars ds -> decimal (strip ds) v ->
  exists B, literal ds = Some B /\ lo B = v mod 2 ^ 128 /\ hi B = v mod 2 ^ 128.
Proof. intros F D. exists (cst (v mod 2 ^ 128)). split; [now apply literal_spec|]. split; reflexivity. Qed.

Fixpoint value_of (s : list Z) : Z :=
  match s with [] => 0 | c :: s' => (c - 48) * 10 ^ Z.of_nat (length s') + value_of s' end.
Lemma value_of_decimal s : Forall (fun c => 48 <= c <= 57) s -> decimal s (value_of s).
Proof. induction 1; cbn [value_of]; constructor; auto. Qed.
Lemma literal_refuted : exists ds v B,
  chars ds /\ decimal (strip ds) v /\ literal ds = Some B /\ lo B <> v.
Proof.
  exists (match to_string_u128 (2 ^ 128 / 10) with Ok s => s ++ [54] | _ => [] end).
  eexists. exists (cst 0). split; [|split].
  - vm_compute. repeat constructor; congruence.
  - apply value_of_decimal. vm_compute. repeat constructor; congruence.
  - split; [vm_compute; reflexivity|vm_compute; congruence].
Qed.
