(** * Proofs about reading and writing bounded integers on streams *)

From Coq Require Import List Bool ZArith Lia.
From Verif Require Import Cxx CxxLemmas Core Spec CoreLemmas Arith ArithProofs Funcs SpecFuncs FuncLemmas FuncLemmas2 FuncLemmas3
  CoreProofs SpecText TextLemmas TextLemmas2 StringIn SpecStringIn StringInProofs StreamInt SpecStreamInt.
Import ListNotations.
Open Scope Z_scope.

(** ** Writing *)

Lemma put_digits_spec fuel : forall n acc v, 0 <= n < 10 ^ Z.of_nat fuel -> decimal acc v -> (0 < fuel)%nat ->
  exists ds, put_digits fuel n acc = ds ++ acc /\ ds <> [] /\
    decimal (ds ++ acc) (n * 10 ^ Z.of_nat (length acc) + v) /\ (n <> 0 -> hd 0 ds <> 48) /\ (n = 0 -> ds = [48]).
Proof.
  induction fuel as [|fuel IH]; intros n acc v Hn D P; [lia|]. cbn [put_digits].
  pose proof (Z.mod_pos_bound n 10 ltac:(lia)) as Hr. pose proof (Z.div_mod n 10 ltac:(lia)) as DM.
  assert (0 <= n / 10) as Q by (apply Z.div_pos; lia).
  assert (decimal ((48 + n mod 10) :: acc) ((48 + n mod 10 - 48) * 10 ^ Z.of_nat (length acc) + v)) as D1
    by (constructor; [lia|auto]).
  replace (48 + n mod 10 - 48) with (n mod 10) in D1 by lia.
  destruct (Z.eqb_spec (n / 10) 0) as [E|E].
  - exists [48 + n mod 10]. split; [reflexivity|]. split; [discriminate|].
    assert (n mod 10 = n) as M by lia. rewrite M in *. split; [exact D1|]. cbn [hd]. split; [lia|]. intros ->. reflexivity.
  - destruct fuel as [|fuel]; [cbn in Hn; lia|].
    assert (0 <= n / 10 < 10 ^ Z.of_nat (S fuel)) as Hn'.
    { split; [lia|]. apply Z.div_lt_upper_bound; [lia|].
      replace (Z.of_nat (S (S fuel))) with (1 + Z.of_nat (S fuel)) in Hn by lia. rewrite Z.pow_add_r in Hn by lia. lia. }
    destruct (IH (n / 10) _ _ Hn' D1 ltac:(lia)) as (ds & -> & N & D2 & H1 & H2).
    exists (ds ++ [48 + n mod 10]). rewrite <- app_assoc. split; [reflexivity|].
    split; [destruct ds; discriminate|].
    split.
    + replace (n * 10 ^ Z.of_nat (length acc) + v)
        with (n / 10 * 10 ^ Z.of_nat (length ((48 + n mod 10) :: acc)) + (n mod 10 * 10 ^ Z.of_nat (length acc) + v)).
      { exact D2. }
      cbn [length]. replace (Z.of_nat (S (length acc))) with (1 + Z.of_nat (length acc)) by lia.
      rewrite Z.pow_add_r by lia. rewrite DM at 3. ring.
    + destruct ds as [|d ds]; [congruence|]. cbn [app hd] in *. split; [intros _; apply H1; lia|lia].
Qed.

Lemma insert_canonical v : ty_bits (ty v) <> 8 -> ty_bits (ty v) <= 64 -> Z.abs (vl v) < 10 ^ 39 ->
  exists s, insert v = Some s /\ canonical s (vl v).
Proof.
  intros N8 N64 H. unfold insert. rewrite (proj2 (Z.eqb_neq _ _) N8).
  destruct (Z.ltb_spec 64 (ty_bits (ty v))); [lia|]. eexists; split; [reflexivity|].
  destruct (Z.ltb_spec (vl v) 0) as [L|L].
  - destruct (put_digits_spec 39 (- vl v) [] 0) as (ds & -> & N & D & H1 & _); [change (Z.of_nat 39) with 39; lia|constructor|lia|].
    rewrite app_nil_r in *. right. split; [lia|]. exists ds. cbn [length Z.of_nat] in D.
    rewrite Z.pow_0_r, Z.mul_1_r, Z.add_0_r in D. repeat split; auto. apply H1. lia.
  - destruct (put_digits_spec 39 (vl v) [] 0) as (ds & -> & N & D & H1 & H2); [change (Z.of_nat 39) with 39; lia|constructor|lia|].
    rewrite app_nil_r in *. left. split; [lia|]. cbn [length Z.of_nat] in D.
    rewrite Z.pow_0_r, Z.mul_1_r, Z.add_0_r in D. repeat split; auto.
Qed.

Lemma und_64 B : valid B -> (ty_bits (und B) <= 64 <-> fits_64 B).
Proof.
  intros HB. pose proof (und_valid _ HB) as U. pose proof (valid_le _ HB) as L. unfold fits_64. split.
  - intros H. unfold holds in *. destruct (und B); cbn in *; lia.
  - intros [H|H]; [pose proof (storage_minimal B I64 HB H) as M|pose proof (storage_minimal B U64 HB H) as M]; exact M.
Qed.

Lemma promote_bits t : ty_bits (promote t) <> 8 /\ (ty_bits (promote t) <= 64 <-> ty_bits t <= 64).
Proof. destruct t; cbn; lia. Qed.

Lemma write_exact B x : valid B -> holds_value B x -> fits_64 B -> exists s, write B x = Some (Ok s) /\ canonical s x.
Proof.
  intros HB Hx F. apply und_64 in F; auto. unfold write. destruct (promote_bits (und B)) as [N8 P].
  destruct (insert_canonical (TV (promote (und B)) 0)) as (s0 & E0 & _); [exact N8|cbn [ty]; tauto|reflexivity|].
  rewrite E0. cbn [obind]. rewrite value_valid by auto. cbn [bind cplus1 ty vl].
  pose proof (und_valid _ HB) as U. unfold holds in U. unfold holds_value in Hx.
  assert (Z.abs x < 10 ^ 39) as A.
  { assert (ty_min (und B) <= x <= ty_max (und B)) as X by lia. clear - X. change (10 ^ 39) with 1000000000000000000000000000000000000000.
    destruct (und B); cbn in X; lia. }
  unfold cplus1. cbn [ty vl].
  destruct (insert_canonical (TV (promote (und B)) x)) as (s & E & C); [exact N8|cbn [ty]; tauto|exact A|].
  rewrite E. exists s. split; [reflexivity|exact C].
Qed.
Lemma write_compiles B x : valid B -> holds_value B x -> (write B x <> None <-> fits_64 B).
Proof.
  intros HB Hx. split.
  - rewrite <- und_64 by auto. unfold write, insert. cbn [ty]. destruct (promote_bits (und B)) as [N8 P].
    rewrite (proj2 (Z.eqb_neq _ _) N8). destruct (Z.ltb_spec 64 (ty_bits (promote (und B)))) as [L|L]; cbn [obind]; [congruence|].
    intros _. tauto.
  - intros F. destruct (write_exact B x HB Hx F) as (s & -> & _). discriminate.
Qed.

(** ** Reading *)

Lemma intermediate_spec B : valid B -> fits_64 B ->
  ty_bits (intermediate B) <= 64 /\ holds (intermediate B) (lo B) (hi B) /\
  (is_signed (intermediate B) = false -> 0 <= lo B /\ 65535 < hi B).
Proof.
  intros HB F. apply und_64 in F; auto. pose proof (und_valid _ HB) as U. pose proof (valid_le _ HB) as L.
  assert (holds U16 (lo B) (hi B) -> ty_bits (und B) <= 16) as M by apply (storage_minimal B U16 HB).
  unfold intermediate, holds in *. destruct (und B); cbn in *; try lia.
  all: (split; [lia|]; split; [lia|]; intros S; try discriminate S; split; [lia|]).
  all: destruct (Z.ltb_spec 65535 (hi B)); [lia|]; exfalso; assert (64 <= 16 \/ 32 <= 16) as C; [|lia]; lia.
Qed.


Lemma take_spec B t v : valid B -> holds t (lo B) (hi B) -> ty_min t <= v <= ty_max t ->
  take B t v = Some (if (lo B <=? v) && (v <=? hi B) then Ok v else Throw).
Proof.
  intros HB H Hv. unfold take, deduced. rewrite (imin_spec (Builtin t)), (imax_spec (Builtin t)) by exact I.
  pose proof (valid_le _ HB) as L. unfold holds in H.
  assert (valid (bt (ty_min t) (ty_max t))) as VT by (apply (valid_deduced (Builtin t)); exact I).
  rewrite mk_integer_nt by (apply ty_min_in128 || apply ty_max_in128). cbn [ilo ihi].
  rewrite (proj2 (reprb_spec _ _)) by (apply (irepresentable (Builtin t)); exact I).
  cbn [obind]. rewrite (convert_spec _ (Builtin t)) by (auto; exact I). rewrite lo_bt, hi_bt. cbn [ilo ihi].
  rewrite !Z.leb_refl. cbn [andb obind then_].
  rewrite (check_to_spec B (Bounded _)) by auto. cbn [ilo ihi]. rewrite lo_bt, hi_bt.
  assert ((ty_min t <=? hi B) && (lo B <=? ty_max t) = true) as -> by lia.
  unfold assign_result. destruct ((lo B <=? v) && (v <=? hi B)) eqn:E; cbn [then_ obind].
  - rewrite (assign_spec B (Bounded B)) by (auto; unfold iholds; cbn; lia). cbn [ilo ihi].
    assert ((lo B <=? hi B) && (lo B <=? hi B) = true) as -> by lia. cbn [obind]. rewrite E. reflexivity.
  - rewrite (assign_spec B (Bounded B)) by (auto; unfold iholds; cbn; lia). cbn [ilo ihi].
    assert ((lo B <=? hi B) && (lo B <=? hi B) = true) as -> by lia. reflexivity.
Qed.

(** ** Numbers in the text *)
Lemma is_digit_spec c : is_digit c = true <-> digit c.
Proof. unfold is_digit, digit. lia. Qed.
Lemma decimal_digits ds v : decimal ds v -> Forall digit ds.
Proof. induction 1; constructor; auto. Qed.
Lemma take_digits_app ds tail : Forall digit ds -> ends_number tail -> take_digits (ds ++ tail) = (ds, tail).
Proof.
  intros D E. induction D as [|c ds Hc D IH]; cbn [app take_digits].
  - destruct tail as [|c r]; [reflexivity|]. cbn [take_digits]. destruct (is_digit c) eqn:I; [|reflexivity].
    apply is_digit_spec in I. contradiction.
  - rewrite (proj2 (is_digit_spec c) Hc), IH. reflexivity.
Qed.
Lemma magnitude_from ds v : decimal ds v -> forall n, fold_left (fun n c => 10 * n + (c - 48)) ds n = n * 10 ^ Z.of_nat (length ds) + v.
Proof.
  induction 1 as [|c s v Hc D IH]; intros n; cbn [fold_left length]; [rewrite Z.pow_0_r; lia|].
  rewrite IH. replace (Z.of_nat (S (length s))) with (1 + Z.of_nat (length s)) by lia. rewrite Z.pow_add_r by lia. ring.
Qed.
Lemma magnitude_spec ds v : decimal ds v -> magnitude ds = v.
Proof. intros D. unfold magnitude. rewrite (magnitude_from _ _ D). lia. Qed.

Lemma decimal_of ds : Forall digit ds -> decimal ds (magnitude ds).
Proof.
  intros D. assert (exists v, decimal ds v) as (v & E).
  { induction D as [|c ds Hc _ (v & E)]; eexists; constructor; eauto. }
  rewrite (magnitude_spec _ _ E). exact E.
Qed.

Lemma stored_spec t (minus : bool) ds m v : ds <> [] -> magnitude ds = m -> 0 <= m -> v = (if minus then - m else m) ->
  (ty_min t <= v <= ty_max t -> stored t minus ds = (v, false)) /\
  (ty_max t < v -> stored t minus ds = (ty_max t, true)) /\
  (is_signed t = true -> v < ty_min t -> stored t minus ds = (ty_min t, true)).
Proof.
  intros N M P V. unfold stored. destruct ds as [|d ds]; [congruence|]. rewrite M. rewrite <- V. clear M N.
  pose proof (wrap_id t v) as W.
  assert (ty_min t <= ty_max t) as TT by (destruct t; cbn; lia).
  assert (is_signed t = false -> ty_min t = 0) as U by (destruct t; cbn; auto; discriminate).
  destruct (is_signed t).
  - destruct (Z.ltb_spec v (ty_min t)), (Z.ltb_spec (ty_max t) v); repeat split; intros; try reflexivity; lia.
  - specialize (U eq_refl). destruct (Z.ltb_spec (ty_max t) m).
    + destruct minus; repeat split; intros; try reflexivity; try discriminate; try lia.
    + repeat split; intros; try discriminate.
      * rewrite W by lia. reflexivity.
      * destruct minus; lia.
Qed.

Lemma get_number_spec t s num tail v : st_rest s = num ++ tail -> number num v -> ends_number tail ->
  exists r f, get_number t s =
    (Stream tail (st_width s) (st_skipws s) (st_eof s || match tail with [] => true | _ => false end) (st_fail s || f) (st_bad s), r) /\
  (ty_min t <= v <= ty_max t -> r = v /\ f = false) /\
  (ty_max t < v -> r = ty_max t /\ f = true) /\
  (is_signed t = true -> v < ty_min t -> r = ty_min t /\ f = true).
Proof.
  intros R (ds & N & H) E.
  assert (exists (minus : bool) m, take_sign (st_rest s) = (minus, ds ++ tail) /\ decimal ds m /\ v = if minus then - m else m) as (minus & m & TS & D & V).
  { rewrite R. destruct H as [(-> & D)|[(-> & D)|(-> & D)]].
    - exists false, v. split; [|split; auto]. destruct ds as [|d ds]; [congruence|]. cbn [app take_sign].
      inversion D as [|? ? ? HD]; subst. destruct (Z.eqb_spec d 45); [lia|]. destruct (Z.eqb_spec d 43); [lia|]. reflexivity.
    - exists false, v. split; [reflexivity|split; auto].
    - exists true, (- v). split; [reflexivity|split; [auto|lia]]. }
  unfold get_number. rewrite TS. cbn [fst snd]. rewrite (take_digits_app _ _ (decimal_digits _ _ D) E). cbn [fst snd].
  pose proof (decimal_nonneg _ _ D) as P.
  destruct (stored_spec t minus ds m v N (magnitude_spec _ _ D) ltac:(lia) V) as (S1 & S2 & S3).
  exists (fst (stored t minus ds)), (snd (stored t minus ds)). split; [reflexivity|].
  repeat split; intros; first [rewrite S1 by auto|rewrite S2 by auto|rewrite S3 by auto]; reflexivity.
Qed.

Lemma number_first num v : number num v -> exists c r, num = c :: r /\ (digit c \/ c = 43 \/ c = 45).
Proof.
  intros (ds & N & H). destruct ds as [|d ds]; [congruence|].
  destruct H as [(-> & D)|[(-> & D)|(-> & D)]]; [|eauto 7|eauto 7].
  inversion D; subst. exists d, ds. split; [reflexivity|]. left. assumption.
Qed.

Section Reading.
Context (space : Z -> bool).

Lemma sentry_spec s spaces c l : offers s (spaces ++ c :: l) -> all_spaces space spaces -> space c = false ->
  sentry space s = (set_rest (c :: l) s, true).
Proof.
  intros (R & K & E1 & E2 & E3) A Hc. unfold sentry, good. rewrite E1, E2, E3, K, R. cbn [orb negb].
  rewrite drop_spaces_app by auto. cbn [drop_spaces]. rewrite Hc. cbn [set_rest st_eof st_fail st_bad].
  rewrite E1, E2, E3. reflexivity.
Qed.

Lemma take_0 B : valid B -> fits_64 B -> exists o, take B (intermediate B) 0 = Some o.
Proof.
  intros HB F. destruct (intermediate_spec B HB F) as (_ & H & _). rewrite take_spec; eauto.
  destruct (intermediate B); cbn; lia.
Qed.

Lemma read_spec B s spaces c l : valid B -> fits_64 B -> offers s (spaces ++ c :: l) -> all_spaces space spaces -> space c = false ->
  read space B s =
    let sv := get_number (intermediate B) (set_rest (c :: l) s) in
    let? o := take B (intermediate B) (snd sv) in Some (fst sv, o).
Proof.
  intros HB F O A Hc. unfold read. destruct (intermediate_spec B HB F) as (I1 & I2 & _).
  rewrite (proj2 (Z.leb_le _ _) I1). cbn [guard obind]. destruct (take_0 B HB F) as (o & ->). cbn [obind].
  unfold extract_builtin. rewrite (sentry_spec _ _ _ _ O A Hc). cbn [fst snd]. reflexivity.
Qed.

Lemma read_ok B s spaces num tail v : valid B -> fits_64 B -> ordinary space -> offers s (spaces ++ num ++ tail) ->
  all_spaces space spaces -> number num v -> ends_number tail -> holds_value B v ->
  exists s', read space B s = Some (s', Ok v) /\ left_with s tail false s'.
Proof.
  intros HB F Or O A N E Hv. destruct (number_first _ _ N) as (c & r & En & Hc).
  rewrite En in O. cbn [app] in O. rewrite (read_spec B s spaces c (r ++ tail) HB F O A (Or _ Hc)).
  destruct (intermediate_spec B HB F) as (I1 & I2 & I3). unfold holds in I2. unfold holds_value in Hv.
  destruct (get_number_spec (intermediate B) (set_rest (c :: r ++ tail) s) num tail v) as (w & f & -> & G1 & _); auto.
  { cbn [set_rest st_rest]. rewrite En. reflexivity. }
  destruct (G1 ltac:(lia)) as [-> ->]. cbn [fst snd]. rewrite take_spec; [|auto|unfold holds; lia|lia].
  rewrite (proj2 (check_bool _ _ _) Hv). cbn [obind]. eexists; split; [reflexivity|].
  destruct O as (R & K & E1 & E2 & E3). unfold left_with. cbn [set_rest st_rest st_width st_skipws st_eof st_fail st_bad].
  rewrite E1, E2. cbn [orb]. repeat split; auto; destruct tail; congruence.
Qed.

Lemma read_out_of_range B s spaces num tail v : valid B -> fits_64 B -> ordinary space -> offers s (spaces ++ num ++ tail) ->
  all_spaces space spaces -> number num v -> ends_number tail -> ~ holds_value B v -> 0 <= v \/ lo B < 0 \/ hi B <= 65535 ->
  exists s' o fail, read space B s = Some (s', o) /\ left_with s tail fail s' /\
    (o = Throw \/ fail = true /\ (hi B < v /\ o = Ok (hi B) \/ v < lo B /\ o = Ok (lo B))).
Proof.
  intros HB F Or O A N E Hv W. destruct (number_first _ _ N) as (c & r & En & Hc).
  rewrite En in O. cbn [app] in O. rewrite (read_spec B s spaces c (r ++ tail) HB F O A (Or _ Hc)).
  destruct (intermediate_spec B HB F) as (I1 & I2 & I3). unfold holds in I2. unfold holds_value in Hv. pose proof (valid_le _ HB) as L.
  destruct (get_number_spec (intermediate B) (set_rest (c :: r ++ tail) s) num tail v) as (w & f & -> & G1 & G2 & G3); auto.
  { cbn [set_rest st_rest]. rewrite En. reflexivity. }
  assert (is_signed (intermediate B) = true \/ ty_min (intermediate B) <= v) as SV.
  { destruct (is_signed (intermediate B)) eqn:S; [auto|]. right. destruct (I3 eq_refl) as [J1 J2].
    assert (ty_min (intermediate B) = 0) by (clear - S; destruct (intermediate B); cbn in *; congruence). lia. }
  assert (ty_min (intermediate B) <= w <= ty_max (intermediate B)) as Hw.
  { assert (ty_min (intermediate B) <= v <= ty_max (intermediate B) \/ ty_max (intermediate B) < v \/ v < ty_min (intermediate B)) as [C|[C|C]] by lia;
    [destruct (G1 C); lia|destruct (G2 C); lia|destruct SV as [S|]; [|lia]; destruct (G3 S C); lia]. }
  cbn [fst snd]. rewrite take_spec; [|auto|unfold holds; lia|lia]. cbn [obind].
  exists (Stream tail (st_width s) (st_skipws s) (match tail with [] => true | _ => false end) f (st_bad s)).
  eexists _, f. destruct O as (R & K & E1 & E2 & E3). cbn [set_rest st_rest st_width st_skipws st_eof st_fail st_bad].
  rewrite E1, E2. cbn [orb]. split; [reflexivity|]. split; [repeat split; auto; destruct tail; cbn; congruence|].
  destruct ((lo B <=? w) && (w <=? hi B)) eqn:Ein; [|auto]. right.
  assert (ty_min (intermediate B) <= v <= ty_max (intermediate B) \/ ty_max (intermediate B) < v \/ v < ty_min (intermediate B)) as [C|[C|C]] by lia.
  - destruct (G1 C) as [-> ->]. lia.
  - destruct (G2 C) as [-> ->]. split; [auto|]. left. split; [lia|]. f_equal. lia.
  - destruct SV as [S|]; [|lia]. destruct (G3 S C) as [-> ->]. split; [auto|]. right. split; [lia|]. f_equal. lia.
Qed.

(** A text without a number: there are no digits after the sign. *)
Lemma no_number_digits l : no_number l -> fst (take_digits (snd (take_sign l))) = [].
Proof.
  intros H.
  assert (forall l, l = fst (take_digits l) ++ snd (take_digits l)) as SP.
  { clear. induction l as [|c r IH]; cbn [take_digits]; [reflexivity|]. destruct (is_digit c); cbn [fst snd app]; [f_equal; auto|reflexivity]. }
  assert (forall l, exists v, decimal (fst (take_digits l)) v) as DC.
  { clear. induction l as [|c r IH]; cbn [take_digits]; [eexists; constructor|]. destruct (is_digit c) eqn:D; cbn [fst]; [|eexists; constructor].
    destruct IH as (v & IH). apply is_digit_spec in D. eexists. constructor; [exact D|exact IH]. }
  destruct (DC (snd (take_sign l))) as (v & D). pose proof (SP (snd (take_sign l))) as S.
  destruct (fst (take_digits (snd (take_sign l)))) as [|d ds] eqn:E; [reflexivity|]. exfalso.
  destruct l as [|c r]; [discriminate E|]. cbn [take_sign] in *.
  destruct (Z.eqb_spec c 45) as [->|]; [|destruct (Z.eqb_spec c 43) as [->|]]; cbn [snd] in *.
  - apply (H (45 :: d :: ds) (snd (take_digits r)) (- v)); [cbn [app]; rewrite S at 1; reflexivity|].
    exists (d :: ds). split; [discriminate|]. right. right. split; [reflexivity|]. rewrite Z.opp_involutive. exact D.
  - apply (H (43 :: d :: ds) (snd (take_digits r)) v); [cbn [app]; rewrite S at 1; reflexivity|].
    exists (d :: ds). split; [discriminate|]. right. left. auto.
  - apply (H (d :: ds) (snd (take_digits (c :: r))) v); [exact S|]. exists (d :: ds). split; [discriminate|]. left. auto.
Qed.

Lemma read_no_number B s spaces c l : valid B -> fits_64 B -> offers s (spaces ++ c :: l) -> all_spaces space spaces -> space c = false ->
  no_number (c :: l) ->
  exists s', read space B s = Some (s', if (lo B <=? 0) && (0 <=? hi B) then Ok 0 else Throw) /\ st_fail s' = true.
Proof.
  intros HB F O A Hc N. rewrite (read_spec B s spaces c l HB F O A Hc).
  destruct (intermediate_spec B HB F) as (I1 & I2 & I3).
  unfold get_number. cbn [set_rest st_rest]. rewrite (no_number_digits _ N). cbn [stored fst snd].
  rewrite take_spec; [|auto|auto|destruct (intermediate B); cbn; lia]. cbn [obind].
  eexists; split; [reflexivity|]. cbn [st_fail]. apply orb_true_r.
Qed.

Lemma read_nothing B s : valid B -> fits_64 B -> good s = false \/ st_skipws s = true /\ all_spaces space (st_rest s) ->
  exists s', read space B s = Some (s', UB) /\ st_fail s' = true.
Proof.
  intros HB F H. unfold read. destruct (intermediate_spec B HB F) as (I1 & _).
  rewrite (proj2 (Z.leb_le _ _) I1). cbn [guard obind]. destruct (take_0 B HB F) as (o & ->). cbn [obind].
  unfold extract_builtin, sentry. destruct (good s) eqn:G.
  - destruct H as [|(K & A)]; [discriminate|]. rewrite K, (drop_spaces_all space _ A). cbn [good st_eof orb negb].
    unfold good. cbn [st_eof orb negb fst snd]. eexists; split; reflexivity.
  - cbn [fst snd]. eexists; split; reflexivity.
Qed.

Lemma canonical_number w x : canonical w x -> number w x.
Proof.
  intros [(P & N & D & _)|(L & t & -> & N & D & _)].
  - exists w. split; [auto|]. left. auto.
  - exists t. split; [auto|]. right. right. auto.
Qed.

Lemma read_compiles B s : valid B -> (read space B s <> None <-> fits_64 B).
Proof.
  intros HB. split.
  - intros H. apply und_64; auto. unfold read in H. destruct (Z.leb_spec (ty_bits (intermediate B)) 64) as [L|L]; [|cbn [guard obind] in H; congruence].
    clear H. unfold intermediate in L. clear HB. destruct (und B); cbn in *; lia.
  - intros F. unfold read. destruct (intermediate_spec B HB F) as (I1 & I2 & _).
    rewrite (proj2 (Z.leb_le _ _) I1). cbn [guard obind]. destruct (take_0 B HB F) as (o & ->). cbn [obind].
    unfold extract_builtin. destruct (snd (sentry space s)); cbn [fst snd]; [|discriminate].
    rewrite take_spec; [discriminate|auto|auto|]. unfold get_number. cbn [snd]. unfold stored.
    assert (ty_min (intermediate B) <= ty_max (intermediate B) /\ ty_min (intermediate B) <= 0 <= ty_max (intermediate B)) as T
      by (destruct (intermediate B); cbn; lia).
    destruct (fst (take_digits _)) as [|d ds]; cbn [fst]; [lia|].
    destruct (is_signed _).
    + destruct (Z.ltb_spec (if fst (take_sign (st_rest (fst (sentry space s)))) then - magnitude (d :: ds) else magnitude (d :: ds)) (ty_min (intermediate B)));
        [cbn; lia|].
      destruct (Z.ltb_spec (ty_max (intermediate B)) (if fst (take_sign (st_rest (fst (sentry space s)))) then - magnitude (d :: ds) else magnitude (d :: ds)));
        cbn [fst]; lia.
    + destruct (Z.ltb_spec (ty_max (intermediate B)) (magnitude (d :: ds))); cbn [fst]; [lia|]. apply wrap_range.
Qed.
End Reading.

(** ** Numbers one after the other *)
Lemma read_sequence space (Or : ordinary space) last items : forall s,
  Forall (fun it => all_spaces space (fst it) /\ valid (fst (snd it)) /\ fits_64 (fst (snd it)) /\ holds_value (fst (snd it)) (snd (snd it))) items ->
  (forall it, In it (tl items) -> fst it <> []) -> ends_number last ->
  forall text, written items last = Some text -> offers s text ->
  exists s', read_all space (map (fun it => fst (snd it)) items) s = Some (s', Ok (map (fun it => snd (snd it)) items)) /\
    st_rest s' = last /\ st_fail s' = false.
Proof.
  induction items as [|[spaces [B x]] items IH]; intros s F Sep E text W O.
  - cbn [written] in W. injection W as <-. cbn [map read_all]. exists s. destruct O as (R & _ & _ & Ef & _). auto.
  - inversion F as [|? ? (A & HB & F6 & Hx) F']; subst. cbn [fst snd] in *. cbn [written] in W.
    destruct (write_exact B x HB Hx F6) as (w & Ew & C). rewrite Ew in W.
    destruct (written items last) as [r|] eqn:Er; [|discriminate]. injection W as <-.
    assert (ends_number r /\ (items <> [] -> r <> [])) as [Er' Nr].
    { destruct items as [|[sp [B' x']] items]; [cbn [written] in Er; injection Er as <-; split; [exact E|congruence]|].
      assert (sp <> []) as N by (apply (Sep (sp, (B', x'))); left; reflexivity).
      inversion F' as [|? ? (A' & _) _]; subst. cbn [fst] in A'. cbn [written] in Er.
      destruct (write B' x') as [[w'| |]|]; try discriminate. destruct (written items last); [|discriminate]. injection Er as <-.
      destruct sp as [|c sp]; [congruence|]. cbn [app ends_number]. split; [|discriminate].
      intros D. inversion A' as [|? ? Sc _]; subst. rewrite (Or c (or_introl D)) in Sc. discriminate. }
    destruct (read_ok space B s spaces w r x HB F6 Or O A (canonical_number _ _ C) Er' Hx) as (s1 & E1 & (L1 & L2 & _ & L3 & L4 & L5)).
    cbn [map fst snd]. remember (map (fun it : list Z * (bty * Z) => fst (snd it)) items) as Bs eqn:EB. cbn [read_all]. rewrite E1. subst Bs.
    destruct items as [|it items].
    + cbn [written] in Er. injection Er as <-. cbn [map read_all]. exists s1. auto.
    + destruct (IH s1 F') with (text := r) as (s2 & E2 & R2 & F2); auto.
      { intros it' I. apply Sep. right. destruct items; [destruct I|]. cbn [tl] in *. auto. }
      { destruct O as (_ & K & Eo & Ef & Eb). repeat split; [auto|congruence| |auto|congruence].
        destruct (st_eof s1); [|reflexivity]. exfalso. apply Nr; [discriminate|]. apply L3. reflexivity. }
      rewrite E2. exists s2. auto.
Qed.
