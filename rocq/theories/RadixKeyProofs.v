(** * to_radix_sort_key keeps the order of integers and floating point numbers *)

From Coq Require Import ZArith Bool Lia.
From Verif Require Import Cxx RadixKey SpecRadix.
Local Open Scope Z_scope.

Lemma wrap_at t z q : ty_min t <= z - q * ty_card t <= ty_max t -> wrap t z = z - q * ty_card t.
Proof.
  intro H. unfold wrap.
  assert (0 < ty_card t) by (destruct t; cbn; lia).
  assert (ty_max t = ty_min t + ty_card t - 1) by (destruct t; reflexivity).
  replace (z - ty_min t) with (z - q * ty_card t - ty_min t + q * ty_card t) by lia.
  rewrite Z.mod_add, Z.mod_small by lia. lia.
Qed.
Lemma wrap_in t z : ty_min t <= z <= ty_max t -> wrap t z = z.
Proof. intro H. rewrite (wrap_at t z 0) by lia. lia. Qed.

Lemma integer_key_spec v : wf_tv v ->
  integer_key false v = Ok (TV (make_unsigned (ty v)) (vl v - ty_min (ty v))).
Proof.
  destruct v as [t z]. unfold wf_tv. cbn [ty vl]. intro H. unfold integer_key. cbn [ty].
  assert (E : is_signed t = false -> Ok (TV t z) = Ok (TV (make_unsigned t) (z - ty_min t))) by (destruct t; cbn; try discriminate; intros _; f_equal; f_equal; lia).
  destruct (is_signed t) eqn:Hs; [|apply E; reflexivity]. clear E. cbn [negb].
  set (u := make_unsigned t). set (c := ty_card t).
  assert (Hu : ty_min u = 0 /\ ty_max u = c - 1 /\ ty_card u = c /\ ty_min t = - (c / 2) /\ ty_max t = c / 2 - 1 /\ 0 < c /\ c = 2 * (c / 2) /\ make_unsigned t = u /\ is_signed u = false).
  { subst u c. destruct t; cbn in Hs |- *; try discriminate; repeat split; lia. }
  destruct Hu as (U1 & U2 & U3 & T1 & T2 & C0 & C2 & M & Us).
  unfold cast at 3. cbn [ty vl].
  assert (E1 : wrap u (- (c / 2)) = c / 2) by (rewrite (wrap_at u _ (-1)); lia).
  assert (E2 : wrap u z = if z <? 0 then z + c else z) by (destruct (Z.ltb_spec z 0); [rewrite (wrap_at u z (-1)); lia|apply wrap_in; lia]).
  unfold cast. cbn [ty vl]. rewrite T1, E1, E2.
  set (w := if z <? 0 then z + c else z).
  assert (Hw : 0 <= w < c /\ (z < 0 -> w = z + c) /\ (0 <= z -> w = z)) by (subst w; destruct (Z.ltb_spec z 0); lia). clearbody w. clear E1 E2.
  unfold cadd, usual. cbn [ty vl].
  assert (Hp : (uac u u = u) \/ (uac u u = I32 /\ 2 * c <= 131072)).
  { subst u c. destruct t; cbn in Hs |- *; try discriminate; auto; right; split; try reflexivity; lia. }
  destruct Hp as [->|[-> Hc]].
  - rewrite !wrap_in by lia. unfold arith. rewrite Us. cbn [bind]. unfold cast. cbn [vl ty]. do 2 f_equal.
    destruct (Z_lt_le_dec z 0).
    + rewrite (wrap_at u (w + c / 2) 1) by lia. rewrite wrap_in by lia. lia.
    + rewrite (wrap_in u (w + c / 2)), wrap_in by lia. lia.
  - rewrite !wrap_in by (cbn [ty_min ty_max]; lia). unfold arith. cbn [is_signed]. unfold in_ty. cbn [ty_min ty_max].
    rewrite !(proj2 (Z.leb_le _ _)) by lia. cbn [andb bind]. unfold cast. cbn [vl ty]. do 2 f_equal.
    destruct (Z_lt_le_dec z 0).
    + rewrite (wrap_at u _ 1) by lia. lia.
    + rewrite (wrap_in u (w + c / 2)) by lia. lia.
Qed.

Lemma character_key_spec v : wf_tv v -> integer_key true v = Ok (TV (make_unsigned (ty v)) (if vl v <? 0 then vl v + ty_card (ty v) else vl v)).
Proof.
  destruct v as [t z]. unfold wf_tv, integer_key, cast. cbn [ty vl]. intro H. do 2 f_equal.
  destruct (Z.ltb_spec z 0).
  - rewrite (wrap_at _ _ (-1)); [destruct t; cbn in *; lia|]. destruct t; cbn in *; lia.
  - apply wrap_in. destruct t; cbn in *; lia.
Qed.

(** ** Floating point *)
Section Float.
Context (E M : Z) (HE : 0 < E) (HM : 0 < M).

Lemma pow_pos a : 0 <= a -> 0 < 2 ^ a.
Proof. intro. apply Z.pow_pos_nonneg; lia. Qed.

Definition magnitude (bits : Z) : Z :=
  let e := bits / 2 ^ M in let m := bits mod 2 ^ M in
  if e =? 0 then m else (2 ^ M + m) * 2 ^ (e - 1).
Lemma magnitude_mono a b : 0 <= a -> a < b -> magnitude a < magnitude b.
Proof.
  intros Ha Hab. unfold magnitude.
  pose proof (pow_pos M ltac:(lia)) as HP.
  pose proof (Z.div_mod a (2 ^ M) ltac:(lia)) as Da. pose proof (Z.mod_pos_bound a (2 ^ M) HP) as Ba.
  pose proof (Z.div_mod b (2 ^ M) ltac:(lia)) as Db. pose proof (Z.mod_pos_bound b (2 ^ M) HP) as Bb.
  set (ea := a / 2 ^ M) in *. set (ma := a mod 2 ^ M) in *. set (eb := b / 2 ^ M) in *. set (mb := b mod 2 ^ M) in *.
  set (c := 2 ^ M) in *.
  assert (0 <= ea) by (apply Z.div_pos; lia).
  assert (He : ea <= eb) by (apply Z.div_le_mono; lia).
  clearbody ea ma eb mb.
  destruct (Z.eqb_spec ea 0) as [Ea|Ea], (Z.eqb_spec eb 0) as [Eb|Eb].
  - lia.
  - pose proof (pow_pos (eb - 1) ltac:(lia)). nia.
  - lia.
  - pose proof (pow_pos (ea - 1) ltac:(lia)) as Pa.
    destruct (Z.eq_dec ea eb) as [Heq|Hne].
    + rewrite <- Heq in Db |- *. apply Z.mul_lt_mono_pos_r; lia.
    + apply Z.lt_le_trans with ((2 * c) * 2 ^ (ea - 1)); [apply Z.mul_lt_mono_pos_r; lia|].
      replace (2 * c * 2 ^ (ea - 1)) with (c * 2 ^ ea).
      2:{ replace ea with (Z.succ (ea - 1)) at 1 by lia. rewrite Z.pow_succ_r by lia. ring. }
      apply Z.mul_le_mono_nonneg; try lia. apply Z.pow_le_mono_r; lia.
Qed.
Lemma magnitude_pos a : 0 <= a -> 0 <= magnitude a.
Proof.
  intro Ha. unfold magnitude. pose proof (pow_pos M ltac:(lia)) as HP. pose proof (Z.mod_pos_bound a (2 ^ M) HP).
  destruct (Z.eqb_spec (a / 2 ^ M) 0); [lia|]. pose proof (Z.div_pos a (2 ^ M) Ha HP). pose proof (pow_pos (a / 2 ^ M - 1) ltac:(lia)). nia.
Qed.

(** The number of a pattern, by its sign and the rest [x]. *)
Let half := 2 ^ (E + M).
Let inf := (2 ^ E - 1) * 2 ^ M.
Lemma number_split (negative : bool) x : 0 <= x < half ->
  number_of E M ((if negative then half else 0) + x) =
    if x <? inf then Finite (if negative then - magnitude x else magnitude x)
    else if x =? inf then (if negative then Minus_infinity else Plus_infinity) else Not_a_number.
Proof.
  intro Hx. unfold number_of.
  assert (HP : 0 < 2 ^ M) by (apply pow_pos; lia). assert (HQ : 0 < 2 ^ E) by (apply pow_pos; lia).
  assert (Hh : half = 2 ^ E * 2 ^ M) by (apply Z.pow_add_r; lia). 
  assert (Hd : ((if negative then half else 0) + x) / 2 ^ M = (if negative then 2 ^ E else 0) + x / 2 ^ M).
  { destruct negative; [rewrite Hh, Z.add_comm, Z.div_add by lia; lia|reflexivity]. }
  assert (Hm : ((if negative then half else 0) + x) mod 2 ^ M = x mod 2 ^ M).
  { destruct negative; [rewrite Hh, Z.add_comm, Z.mod_add by lia; reflexivity|reflexivity]. }
  assert (Hs : (((if negative then half else 0) + x) / 2 ^ (E + M)) mod 2 = if negative then 1 else 0).
  { fold half. destruct negative; [replace (half + x) with (x + 1 * half) by lia; rewrite Z.div_add by lia|]; rewrite Z.div_small by lia; reflexivity. }
  assert (Hx' : 0 <= x / 2 ^ M < 2 ^ E) by (split; [apply Z.div_pos; lia|apply Z.div_lt_upper_bound; lia]).
  assert (He : (((if negative then half else 0) + x) / 2 ^ M) mod 2 ^ E = x / 2 ^ M).
  { rewrite Hd. destruct negative; [replace (2 ^ E + x / 2 ^ M) with (x / 2 ^ M + 1 * 2 ^ E) by lia; rewrite Z.mod_add by lia|]; apply Z.mod_small; lia. }
  rewrite He, Hm, Hs. fold half in Hs.
  pose proof (Z.div_mod x (2 ^ M) ltac:(lia)) as D. pose proof (Z.mod_pos_bound x (2 ^ M) HP) as B.
  unfold magnitude. subst inf.
  destruct (Z.eqb_spec (x / 2 ^ M) (2 ^ E - 1)) as [Q|Q].
  - rewrite Q in D. destruct (Z.ltb_spec x ((2 ^ E - 1) * 2 ^ M)); [lia|].
    destruct (Z.eqb_spec (x mod 2 ^ M) 0), (Z.eqb_spec x ((2 ^ E - 1) * 2 ^ M)); try lia; destruct negative; reflexivity.
  - destruct (Z.ltb_spec x ((2 ^ E - 1) * 2 ^ M)); [destruct negative; reflexivity|].
    exfalso. assert (x / 2 ^ M >= 2 ^ E - 1); [|lia]. apply Z.le_ge. apply Z.div_le_lower_bound; lia.
Qed.
End Float.

Lemma lxor_ones n u : 0 <= n -> 0 <= u < 2 ^ n -> Z.lxor u (Z.ones n) = Z.ones n - u.
Proof.
  intros Hn Hu.
  assert (Hbit : forall i, n <= i -> Z.testbit u i = false).
  { intros i Hi. destruct (Z.eq_dec u 0) as [->|]; [apply Z.bits_0|]. apply Z.bits_above_log2; [lia|]. apply Z.log2_lt_pow2; [lia|]. apply Z.lt_le_trans with (2 ^ n); [lia|]. apply Z.pow_le_mono_r; lia. }
  rewrite Z.sub_nocarry_ldiff.
  - apply Z.bits_inj'. intros i Hi. rewrite Z.lxor_spec, Z.ldiff_spec. destruct (Z_lt_le_dec i n).
    + rewrite Z.ones_spec_low by lia. destruct (Z.testbit u i); reflexivity.
    + rewrite Z.ones_spec_high, Hbit by lia. reflexivity.
  - apply Z.bits_inj'. intros i Hi. rewrite Z.ldiff_spec, Z.bits_0. destruct (Z_lt_le_dec i n).
    + rewrite Z.ones_spec_low by lia. apply andb_false_r.
    + rewrite Hbit by lia. reflexivity.
Qed.
Lemma lxor_top n u : 0 <= n -> 0 <= u < 2 ^ n -> Z.lxor u (2 ^ n) = 2 ^ n + u.
Proof.
  intros Hn Hu. rewrite Z.add_comm. symmetry. apply Z.add_nocarry_lxor. apply Z.bits_inj'. intros i Hi. rewrite Z.land_spec, Z.bits_0.
  destruct (Z.eq_dec i n) as [->|Hne].
  - replace (Z.testbit u n) with false; [reflexivity|]. symmetry. destruct (Z.eq_dec u 0) as [->|]; [apply Z.bits_0|]. apply Z.bits_above_log2; [lia|]. apply Z.log2_lt_pow2; lia.
  - rewrite Z.pow2_bits_false by lia. apply andb_false_r.
Qed.

Definition float_type (E M : Z) (t : cty) : Prop := (E, M, t) = (8, 23, U32) \/ (E, M, t) = (11, 52, U64).
Lemma float_key_spec E M t (negative : bool) x : float_type E M t -> 0 <= x < 2 ^ (E + M) ->
  float_key t (TV t ((if negative then 2 ^ (E + M) else 0) + x)) = Ok (TV t (if negative then 2 ^ (E + M) - 1 - x else 2 ^ (E + M) + x)).
Proof.
  intros Ht Hx. set (u := (if negative then 2 ^ (E + M) else 0) + x).
  assert (Hu : 0 <= u < 2 * 2 ^ (E + M)) by (subst u; destruct negative; lia).
  assert (Hd : u / 2 ^ (E + M) = if negative then 1 else 0).
  { subst u. destruct negative; [replace (2 ^ (E + M) + x) with (x + 1 * 2 ^ (E + M)) by lia; rewrite Z.div_add by lia|]; rewrite Z.div_small by lia; reflexivity. }
  assert (Hk : Z.lxor u (if negative then Z.ones (1 + (E + M)) else 2 ^ (E + M)) = (if negative then 2 ^ (E + M) - 1 - x else 2 ^ (E + M) + x)).
  { assert (0 <= E + M) by (destruct Ht as [[= -> -> ->]|[= -> -> ->]]; lia).
    subst u. destruct negative.
    - assert (P2 : 2 ^ (1 + (E + M)) = 2 * 2 ^ (E + M)) by (rewrite (Z.pow_add_r 2 1) by lia; reflexivity).
      rewrite lxor_ones by lia. rewrite Z.ones_equiv, P2. lia.
    - rewrite Z.add_0_l. apply lxor_top; lia. }
  unfold float_key.
  destruct Ht as [[= -> -> ->]|[= -> -> ->]]; change (8 + 23) with 31 in *; change (11 + 52) with 63 in *; clearbody u.
  - unfold cshr. cbn [ty vl ty_bits promote]. cbn [Z.sub Z.leb Z.ltb Z.compare Z.add Z.opp Pos.compare Pos.compare_cont Z.pos_sub Pos.pred_double andb].
    change (32 - 1) with 31 in *.
    cbn [Z.pos_sub Pos.pred_double Z.leb Z.ltb Z.compare Pos.compare Pos.compare_cont andb bind]. rewrite Hd.
    unfold cneg, cast, cxor, usual. cbn [ty vl make_signed promote]. unfold cxor, usual.
    destruct negative; (etransitivity; [|rewrite <- Hk; reflexivity]); cbn -[Z.lxor Z.lor Z.pow wrap]; rewrite !(wrap_in U32 u) by (cbn; lia); reflexivity.
  - unfold cshr. cbn [ty vl ty_bits promote].
    change (64 - 1) with 63 in *.
    cbn [Z.pos_sub Pos.pred_double Z.leb Z.ltb Z.compare Pos.compare Pos.compare_cont andb bind]. rewrite Hd.
    unfold cneg, cast, cxor, usual. cbn [ty vl make_signed promote]. unfold cxor, usual.
    destruct negative; (etransitivity; [|rewrite <- Hk; reflexivity]); cbn -[Z.lxor Z.lor Z.pow wrap]; rewrite !(wrap_in U64 u) by (cbn; lia); reflexivity.
Qed.

Lemma float_order E M t a b : float_type E M t -> 0 <= a < 2 * 2 ^ (E + M) -> 0 <= b < 2 * 2 ^ (E + M) ->
  number_of E M a <> Not_a_number -> number_of E M b <> Not_a_number ->
  exists ka kb, float_key t (TV t a) = Ok (TV t ka) /\ float_key t (TV t b) = Ok (TV t kb) /\ 0 <= ka < 2 * 2 ^ (E + M) /\ 0 <= kb < 2 * 2 ^ (E + M) /\
    (ka < kb <-> number_less (number_of E M a) (number_of E M b) = true \/ (a = 2 ^ (E + M) /\ b = 0)).
Proof.
  intros Ht Ha Hb.
  assert (Hpos : 0 < E /\ 0 < M) by (destruct Ht as [[= -> -> ->]|[= -> -> ->]]; lia). destruct Hpos as [HE HM].
  assert (Hsplit : forall u, 0 <= u < 2 * 2 ^ (E + M) -> exists (n : bool) x, 0 <= x < 2 ^ (E + M) /\ u = (if n then 2 ^ (E + M) else 0) + x).
  { intros u Hu. destruct (Z_lt_le_dec u (2 ^ (E + M))); [exists false, u|exists true, (u - 2 ^ (E + M))]; split; lia. }
  destruct (Hsplit a Ha) as (na & xa & Hxa & ->). destruct (Hsplit b Hb) as (nb & xb & Hxb & ->).
  rewrite !(number_split E M HE HM) by assumption. intros Na Nb.
  rewrite (float_key_spec E M t na xa Ht Hxa), (float_key_spec E M t nb xb Ht Hxb).
  eexists _, _. split; [reflexivity|]. split; [reflexivity|]. split; [destruct na; lia|]. split; [destruct nb; lia|].
  set (inf := (2 ^ E - 1) * 2 ^ M) in *. set (half := 2 ^ (E + M)) in *. clearbody half. clear Hsplit Ha Hb.
  pose proof (magnitude_mono M HM xa xb (proj1 Hxa)) as M1. pose proof (magnitude_mono M HM xb xa (proj1 Hxb)) as M2.
  pose proof (magnitude_pos M HM xa (proj1 Hxa)) as P1. pose proof (magnitude_pos M HM xb (proj1 Hxb)) as P2.
  assert (Z1 : 0 < xa -> 0 < magnitude M xa).
  { intro. pose proof (magnitude_mono M HM 0 xa ltac:(lia) ltac:(lia)). pose proof (magnitude_pos M HM 0 ltac:(lia)). lia. }
  assert (Z2 : 0 < xb -> 0 < magnitude M xb).
  { intro. pose proof (magnitude_mono M HM 0 xb ltac:(lia) ltac:(lia)). pose proof (magnitude_pos M HM 0 ltac:(lia)). lia. }
  assert (Q : 0 < inf).
  { subst inf. assert (2 <= 2 ^ E) by (change 2 with (2 ^ 1) at 1; apply Z.pow_le_mono_r; lia). pose proof (pow_pos M ltac:(lia)). nia. }
  assert (Ze : xa = xb -> magnitude M xa = magnitude M xb) by congruence.
  assert (Z0 : magnitude M 0 = 0) by (unfold magnitude; rewrite Z.div_0_l, Z.mod_0_l by (pose proof (pow_pos M ltac:(lia)); lia); reflexivity).
  assert (Z3 : xa = 0 -> magnitude M xa = 0) by congruence. assert (Z4 : xb = 0 -> magnitude M xb = 0) by congruence. clear Z0.
  set (ma := magnitude M xa) in *. set (mb := magnitude M xb) in *. clearbody ma mb inf.
  destruct (Z.ltb_spec xa inf) as [Ia|Ia], (Z.ltb_spec xb inf) as [Ib|Ib];
    try (destruct (Z.eqb_spec xa inf) as [Ja|Ja]; [|destruct na; congruence]); try (destruct (Z.eqb_spec xb inf) as [Jb|Jb]; [|destruct nb; congruence]);
    destruct na, nb; cbn [number_less]; rewrite ?Z.ltb_lt; intuition (try lia; try discriminate).
Qed.
