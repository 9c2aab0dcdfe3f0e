(** * Property C155: the type of an index and the index that containers::at uses

    [valid], [holds_value], [ivalid], [iholds], [ilo], [ihi], [representable]: Spec.v. *)

From Coq Require Import ZArith Lia Bool List.
From Verif Require Import Cxx CxxLemmas Core CoreLemmas Spec Arith ArithLemmas ArithProofs Funcs FuncLemmas CoreProofs PropsExactCheck IndexType.
Import ListNotations.
Open Scope Z_scope.

Lemma zero_cst : zero_bi = cst 0. Proof. reflexivity. Qed.
Lemma one_cst : one_bi = cst 1. Proof. reflexivity. Qed.
Lemma integer_of_spec T x : ivalid T -> iholds T x -> integer_of T x = Some (bt (ilo T) (ihi T), Ok x).
Proof.
  intros HT Hx. unfold integer_of. rewrite deduced_spec by exact HT. cbn [obind]. rewrite convert_spec; auto using valid_deduced. rewrite lo_bt, hi_bt, !Z.leb_refl. reflexivity.
Qed.

(** ** The type of an index: from 0 to the largest size - 1; there is none for a container that is always empty. *)
Lemma index_type_bounded B : valid B -> to_index_type (Bounded B) = if 1 <=? hi B then Some (Bounded (bt 0 (hi B - 1))) else None.
Proof.
  intros HB. destruct (valid_bounds _ HB) as (H1 & H2 & H3 & _ & E). unfold to_index_type. rewrite E. change (Bty (nt (hi B)) (nt (hi B))) with (cst (hi B)).
  rewrite one_cst, minus_spec; auto using valid_cst, holds_cst; [|apply valid_cst; unfold in128; cbn; lia]. unfold cst. rewrite !lo_bt, !hi_bt.
  assert (reprb (- (1)) (- (1)) = true) as -> by reflexivity. cbn [andb].
  destruct (reprb (hi B - 1) (hi B - 1)) eqn:R.
  - cbn [obind]. rewrite bmin_bt. assert (in128 (hi B - 1)) as I by (apply reprb_spec, representable_in128 in R; apply R). rewrite normalize_nt by exact I.
    change (lit 0) with (nt 0). rewrite mk_integer_nt; [|unfold in128; cbn; lia|exact I].
    destruct (Z.leb_spec 1 (hi B)).
    + assert (reprb 0 (hi B - 1) = true) as ->; [|reflexivity]. unfold reprb, in128 in *. cbn in *. lia.
    + assert (reprb 0 (hi B - 1) = false) as ->; [|reflexivity]. unfold reprb. lia.
  - cbn [obind]. destruct (Z.leb_spec 1 (hi B)); [|reflexivity]. exfalso. unfold reprb, in128 in *. cbn in *. lia.
Qed.
Theorem C155_index_type : forall B, valid B ->
  (1 <= hi B -> exists R, to_index_type (Bounded B) = Some (Bounded R) /\ valid R /\ forall i, holds_value R i <-> exists n, 0 <= i < n /\ n <= hi B) /\
  (hi B < 1 -> to_index_type (Bounded B) = None).
Proof.
  intros B HB. rewrite index_type_bounded by exact HB. destruct (valid_bounds _ HB) as (H1 & H2 & H3 & _). split; intros H.
  - rewrite (proj2 (Z.leb_le 1 _) H). eexists. split; [reflexivity|]. split.
    + apply valid_bt, reprb_spec. unfold reprb, in128 in *. cbn in *. lia.
    + intros i. unfold holds_value. rewrite lo_bt, hi_bt. split; [intros K; exists (hi B); lia|intros (n & K & L); lia].
  - rewrite (proj2 (Z.leb_gt 1 _)) by lia. reflexivity.
Qed.
Print Assumptions C155_index_type.

Lemma then_ok R z f : then_ (Some (R, Ok z)) f = f R z. Proof. reflexivity. Qed.
Lemma check_index I M i m : valid I -> valid M -> holds_value I i -> holds_value M m ->
  check_in_range (Bounded I) (Bounded zero_bi) (Bounded M) i 0 m =
  if Z.max 0 (lo I) <=? Z.min (hi M) (hi I)
  then Some (bt (Z.max 0 (lo I)) (Z.min (hi M) (hi I)), if (0 <=? i) && (i <=? m) then Ok i else Throw) else None.
Proof.
  intros HI HM Hi Hm. assert (valid (cst 0)) as HZ by (apply valid_cst; unfold in128; cbn; lia). assert (holds_value (cst 0) 0) as H0 by apply holds_cst.
  rewrite zero_cst. unfold check_in_range. rewrite assume_impl_spec by assumption. rewrite !less_equal_counts by assumption. cbn [counts_as].
  unfold isect_lo, isect_hi. cbn [ilo ihi]. change (lo (cst 0)) with 0.
  destruct (Z.leb_spec (Z.max 0 (lo I)) (Z.min (hi M) (hi I))) as [L|L]; [|reflexivity]. cbn [obind bind]. do 2 f_equal.
  destruct (Z.leb_spec 0 i); [|reflexivity]. destruct (Z.leb_spec i m); [|reflexivity]. cbn [andb].
  unfold holds_value in *. apply store_spec; [|exact HI|exact Hi|lia]. apply reprb_spec.
  eapply reprb_mono; [apply reprb_spec; apply (valid_inv _ HI)| lia ..].
Qed.

(** ** at(range, index) with an index of any integer type: it compiles when that type and the size type have a valid index in common and the
    type of size - 1 exists; it throws exactly when the index is not valid; otherwise operator[] gets the index. *)
Theorem C155_at : forall size index n i,
  ivalid size -> ivalid index -> 0 <= ilo size -> iholds size n -> iholds index i ->
  ((exists o, at_index size index n i = Some o) <->
     representable (ilo size - 1) (ihi size - 1) /\ exists v, iholds index v /\ 0 <= v < ihi size) /\
  (forall o, at_index size index n i = Some o -> (0 <= i < n -> o = Ok i) /\ (~ 0 <= i < n -> o = Throw)).
Proof.
  intros size index n i HS HI Hpos Hn Hi. pose proof (valid_deduced _ HS) as VS. pose proof (valid_deduced _ HI) as VI.
  pose proof (ivalid_le _ HS) as LS. pose proof (ivalid_le _ HI) as LI.
  assert (Hno : hi (bt (ilo size) (ihi size)) < 1 -> ~ exists v, iholds index v /\ 0 <= v < ihi size) by (rewrite hi_bt; intros H (v & _ & K); lia).
  assert (HT : to_index_type size = None /\ (~ exists v, iholds index v /\ 0 <= v < ihi size) \/
    exists T, to_index_type size = Some T /\ forall l h x, representable l h -> 0 <= l <= x -> x <= h -> h < ihi size -> cast_to T (bt l h) x = Some (Ok x)).
  { destruct size as [t|B].
    - right. exists (Builtin t). split; [reflexivity|]. intros l h x R Hx Hh Hs. cbn [cast_to]. cbn [ilo ihi] in *.
      rewrite to_builtin_spec; [|apply valid_bt; exact R|unfold iholds; cbn [ilo ihi]; rewrite lo_bt, hi_bt; lia]. cbn [bind vl]. do 2 f_equal. unfold wrap. rewrite Z.mod_small; [lia|].
      clear - Hx Hh Hs Hpos. destruct t; cbn in *; lia.
    - rewrite index_type_bounded by exact HS. cbn [ihi ilo] in *. destruct (Z.leb_spec 1 (hi B)) as [L|L].
      + right. eexists. split; [reflexivity|]. intros l h x R Hx Hh Hs. cbn [cast_to].
        rewrite convert_spec; [| |apply valid_bt; exact R|unfold iholds; cbn [ilo ihi]; rewrite lo_bt, hi_bt; lia].
        * cbn [ilo ihi]. rewrite !lo_bt, !hi_bt. rewrite (proj2 (Z.leb_le 0 l)), (proj2 (Z.leb_le h (hi B - 1))) by lia. reflexivity.
        * destruct (valid_bounds _ HS) as (H1 & H2 & H3 & _). apply valid_bt, reprb_spec. unfold reprb, in128 in *. cbn in *. lia.
      + left. split; [reflexivity|]. apply Hno. rewrite hi_bt. exact L. }
  unfold at_index. destruct HT as [(E & Hnot)|(T & E & Hcast)]; rewrite E; cbn [obind].
  { split; [split; [intros (o & H); discriminate|intros (_ & H); contradiction]|discriminate]. }
  rewrite !integer_of_spec by assumption. rewrite !then_ok.
  rewrite one_cst, minus_spec; [|exact VS|apply valid_cst; unfold in128; cbn; lia|unfold holds_value; rewrite lo_bt, hi_bt; exact Hn|apply holds_cst].
  unfold cst. rewrite !lo_bt, !hi_bt. assert (reprb (- (1)) (- (1)) = true) as -> by reflexivity. cbn [andb].
  destruct (reprb (ilo size - 1) (ihi size - 1)) eqn:R.
  2:{ cbn [then_ obind then_cast]. split; [split; [intros (o & H); discriminate|intros (H & _); apply reprb_spec in H; congruence]|discriminate]. }
  apply reprb_spec in R. rewrite then_ok, check_index; [|exact VI|apply valid_bt; exact R|unfold holds_value; rewrite lo_bt, hi_bt; exact Hi|unfold holds_value, iholds in *; rewrite lo_bt, hi_bt; lia].
  rewrite !lo_bt, !hi_bt. destruct (Z.leb_spec (Z.max 0 (ilo index)) (Z.min (ihi size - 1) (ihi index))) as [L|L].
  2:{ cbn [then_cast obind]. split; [split; [intros (o & H); discriminate|intros (_ & v & H1 & H2); unfold iholds in H1; lia]|discriminate]. }
  assert (R2 : representable (Z.max 0 (ilo index)) (Z.min (ihi size - 1) (ihi index))).
  { apply reprb_spec. eapply reprb_mono; [apply reprb_spec; exact (proj1 (valid_inv _ VI))|rewrite ?lo_bt, ?hi_bt; lia ..]. }
  cbn [then_cast obind]. unfold then_cast. cbn [obind].
  assert (HC : representable (ilo size - 1) (ihi size - 1) /\ exists v, iholds index v /\ 0 <= v < ihi size).
  { split; [exact R|]. exists (Z.max 0 (ilo index)). unfold iholds. lia. }
  unfold iholds in *.
  destruct (Z.leb_spec 0 i) as [A|A]; [destruct (Z.leb_spec i (n - 1)) as [A2|A2]|]; cbn [andb].
  - rewrite Hcast by (try assumption; lia). split; [split; [intros _; exact HC|intros _; eexists; reflexivity]|]. intros o H. injection H as <-. split; [reflexivity|lia].
  - rewrite lo_bt, Hcast by (try assumption; lia). cbn [obind]. split; [split; [intros _; exact HC|intros _; eexists; reflexivity]|]. intros o H. injection H as <-. split; [lia|reflexivity].
  - rewrite lo_bt, Hcast by (try assumption; lia). cbn [obind]. split; [split; [intros _; exact HC|intros _; eexists; reflexivity]|]. intros o H. injection H as <-. split; [lia|reflexivity].
Qed.
Print Assumptions C155_at.

(** ** at(range, index, unchecked): with a bounded size it compiles when every value of the type of the index is an index of the largest
    range, and operator[] gets the index; with a built-in size it always compiles and the index is converted to that type. *)
Theorem C155_at_unchecked : forall B index i, valid B -> ivalid index -> iholds index i ->
  ((exists o, at_index_unchecked (Bounded B) index i = Some o) <-> forall v, iholds index v -> 0 <= v < hi B) /\
  (forall o, at_index_unchecked (Bounded B) index i = Some o -> o = Ok i).
Proof.
  intros B index i HB HI Hi. unfold at_index_unchecked. rewrite index_type_bounded by exact HB. pose proof (ivalid_le _ HI) as LI.
  destruct (valid_bounds _ HB) as (H1 & H2 & H3 & _). destruct (Z.leb_spec 1 (hi B)) as [L|L]; cbn [obind].
  - rewrite convert_spec; [|apply valid_bt, reprb_spec; unfold reprb, in128 in *; cbn in *; lia|exact HI|exact Hi]. rewrite lo_bt, hi_bt. unfold iholds in *.
    destruct (Z.leb_spec 0 (ilo index)), (Z.leb_spec (ihi index) (hi B - 1)); cbn [andb].
    + split; [split; [intros _ v K; lia|eauto]|congruence].
    + split; [split; [intros (o & K); discriminate|intros K; specialize (K (ihi index)); lia]|discriminate].
    + split; [split; [intros (o & K); discriminate|intros K; specialize (K (ilo index)); lia]|discriminate].
    + split; [split; [intros (o & K); discriminate|intros K; specialize (K (ilo index)); lia]|discriminate].
  - split; [split; [intros (o & K); discriminate|intros K; specialize (K i Hi); lia]|discriminate].
Qed.
Print Assumptions C155_at_unchecked.
Theorem C155_at_unchecked_builtin : forall t index i, ivalid index -> iholds index i ->
  exists z, at_index_unchecked (Builtin t) index i = Some (Ok z) /\ ty_min t <= z <= ty_max t /\ (ty_min t <= i <= ty_max t -> z = i).
Proof.
  intros t index i HI Hi. unfold at_index_unchecked. cbn [to_index_type obind]. rewrite to_builtin_spec by assumption. cbn [bind vl]. eexists. split; [reflexivity|].
  split; [apply wrap_range|apply wrap_id].
Qed.
Print Assumptions C155_at_unchecked_builtin.

(** A range of at most 10 elements that has 3, and a std::vector of 3 elements. *)
Example C155_example :
  let size := Bounded (Bty (lit 0) (lit 10)) in
  ivalid size /\ iholds size 3 /\ ivalid (Builtin I32) /\ iholds (Builtin I32) (-1) /\
  to_index_type size = Some (Bounded (Bty (lit 0) (lit 9))) /\
  at_index size (Builtin I32) 3 2 = Some (Ok 2) /\ at_index size (Builtin I32) 3 3 = Some Throw /\ at_index size (Builtin I32) 3 (-1) = Some Throw /\
  at_index size (Builtin U64) 0 0 = Some Throw /\ at_index size (Bounded (Bty (lit 10) (lit 20))) 3 12 = None /\
  at_index (Builtin U64) (Builtin I32) 3 2 = Some (Ok 2) /\ at_index (Builtin U64) (Builtin I32) 3 (-1) = Some Throw /\
  at_index_unchecked size (Bounded (Bty (lit 0) (lit 9))) 4 = Some (Ok 4) /\ at_index_unchecked size (Builtin I32) 4 = None.
Proof.
  cbv zeta. split; [vm_compute; repeat split; congruence|]. split; [vm_compute; split; congruence|]. split; [exact I|]. split; [vm_compute; split; congruence|].
  repeat (split; [vm_compute; reflexivity|]). vm_compute. reflexivity.
Qed.
