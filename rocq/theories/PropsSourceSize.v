(** * Property C156: sources that are longer than the container can ever be

    [valid], [ivalid], [iholds], [holds_value]: Spec.v. [is_vector], [makes], [untouched], [someone_throws], [grown]: SpecVec.v.
    [is_sbo], [sbo_capacity], [sbo_grown]: SpecSbo.v. *)

From Coq Require Import List Arith ZArith NArith Bool Lia.
From Verif Require Import Cxx CxxLemmas Core CoreLemmas Spec Arith ArithLemmas ArithProofs Funcs FuncLemmas CoreProofs.
From Verif Require Import Mem Vec SpecVec MemLemmas VecLemmas VecProofs Sbo SpecSbo SourceSize PropsVec PropsSbo.
Import ListNotations.
Local Open Scope nat_scope.

(** ** The size of a source: what a bounded integer says is used; what a built-in integer says is assumed to be a size of the target. *)
Theorem C156_get_source_size : forall target source n, valid target -> ivalid source -> iholds source n ->
  match source with
  | Bounded B => get_source_size target source n = Some (B, Ok n)
  | Builtin _ =>
      ((exists R o, get_source_size target source n = Some (R, o)) <-> exists v, iholds source v /\ holds_value target v) /\
      (forall R o, get_source_size target source n = Some (R, o) ->
         (holds_value target n -> o = Ok n /\ holds_value R n) /\
         (~ holds_value target n -> o = UB) /\
         (forall v, holds_value R v <-> iholds source v /\ holds_value target v))
  end.
Proof.
  intros target source n HT HS Hn. destruct source as [t|B]; [|reflexivity]. unfold get_source_size. rewrite assume_to_spec by assumption.
  pose proof (valid_le _ HT) as LT. pose proof (ivalid_le _ HS) as LS. unfold holds_value, iholds in *.
  destruct (Z.leb_spec (ilo (Builtin t)) (hi target)) as [A|A]; [destruct (Z.leb_spec (lo target) (ihi (Builtin t))) as [A2|A2]|]; cbn [andb].
  - split.
    { split; [intros _|intros _; eexists _, _; reflexivity]. exists (Z.max (lo target) (ilo (Builtin t))). lia. }
    cbn [ilo ihi] in *. intros R o H. injection H as <- <-. rewrite lo_bt, hi_bt.
    split; [|split; [|intros v; lia]].
    + intros H. rewrite (proj2 (Z.leb_le _ _) (proj1 H)), (proj2 (Z.leb_le _ _) (proj2 H)). cbn [andb]. split; [reflexivity|lia].
    + intros H. destruct (Z.leb_spec (lo target) n), (Z.leb_spec n (hi target)); cbn [andb]; try reflexivity. lia.
  - split; [|discriminate]. split; [intros (R & o & H); discriminate|intros (v & H1 & H2); lia].
  - split; [|discriminate]. split; [intros (R & o & H); discriminate|intros (v & H1 & H2); lia].
Qed.
Print Assumptions C156_get_source_size.

Lemma vector_fits {V} minc maxc o (vs : list V) others w : is_vector minc maxc o vs others w -> length vs <= maxc.
Proof.
  intros ((_ & H) & _). destruct (u_pointer (b_storage o)) as [b|]; [destruct H as (_ & (k & _ & _ & H) & _); lia|].
  destruct H as (-> & _). cbn. lia.
Qed.

(** ** append from a source whose size is a bounded integer: too many elements are an exception and the vector is as it was. *)
Theorem C156_append_too_long : forall V (moved : V -> V) minc maxc mks us o vs others w,
  minc < maxc -> is_vector minc maxc o vs others w -> Forall2 (makes (heap w)) mks us -> maxc < length vs + length us ->
  exists o' w', append moved (bounded_vector moved minc maxc) (Source mks true) o w = Exc o' w' /\ untouched o o' w w'.
Proof.
  intros V moved minc maxc mks us o vs others w Hlt Hv Hm Hl. pose proof (C33_append V moved minc maxc mks us o vs others w Hlt Hv Hm) as C.
  unfold ends in C. destruct (append moved _ _ o w) as [o' [] w'|o' w'|f]; [|exists o', w'; tauto|contradiction].
  destruct C as [C _]. apply vector_fits in C. rewrite app_length in C. lia.
Qed.
Print Assumptions C156_append_too_long.

Lemma builtin_size_cases {V} (moved : V -> V) {O} (C : container (V := V) O) r mks o w : c_reserve C = Some r ->
  append_builtin_size moved C (Source mks true) o w = if length mks <=? c_max C then append moved C (Source mks true) o w else Bad Broken.
Proof.
  intros H. unfold append_builtin_size. rewrite H. cbn [s_sized s_elements]. unfold bind, assume_capacity, require.
  destruct (length mks <=? c_max C); reflexivity.
Qed.

(** ** append from a source whose size is a built-in integer, such as a std::vector: undefined exactly when the source alone is longer than
    the largest size; an exception when only the sum is, and otherwise as append from any other source. *)
Theorem C156_append_builtin : forall V (moved : V -> V) minc maxc mks us o vs others w,
  minc < maxc -> is_vector minc maxc o vs others w -> Forall2 (makes (heap w)) mks us ->
  match append_builtin_size moved (bounded_vector moved minc maxc) (Source mks true) o w with
  | Bad f => f = Broken /\ maxc < length us
  | Ret o' _ w' => length vs + length us <= maxc /\ is_vector minc maxc o' (vs ++ us) others w' /\ capacity_of o' = grown o (length (vs ++ us))
  | Exc o' w' => length us <= maxc /\ untouched o o' w w' /\
      (someone_throws w \/ capacity_of o < length (vs ++ us) /\ maxc < grown o (length (vs ++ us)))
  end.
Proof.
  intros V moved minc maxc mks us o vs others w Hlt Hv Hm. pose proof (C33_append V moved minc maxc mks us o vs others w Hlt Hv Hm) as C.
  pose proof (Forall2_len _ _ _ Hm) as Hlen. erewrite builtin_size_cases by (cbn; rewrite (proj2 (Nat.eqb_neq minc maxc)) by lia; reflexivity).
  change (c_max (bounded_vector moved minc maxc)) with maxc. destruct (Nat.leb_spec (length mks) maxc) as [L|L].
  - unfold ends in C. destruct (append moved _ _ o w) as [o' [] w'|o' w'|f]; [|split; [lia|exact C]|contradiction].
    destruct C as [C1 C2]. split; [|tauto]. apply vector_fits in C1. rewrite app_length in C1. exact C1.
  - split; [reflexivity|lia].
Qed.
Print Assumptions C156_append_builtin.
Theorem C156_append_builtin_sbo : forall V (moved : V -> V) small max mks us o vs others w,
  small < max -> (N.of_nat max < 2 ^ 63)%N -> is_sbo small max o vs others w -> Forall2 (makes (heap w)) mks us ->
  match append_builtin_size moved (sbo_vector moved small max) (Source mks true) o w with
  | Bad f => f = Broken /\ max < length us
  | Ret o' _ w' => length us <= max /\ is_sbo small max o' (vs ++ us) others w' /\ sbo_capacity small o' = sbo_grown small o (length (vs ++ us))
  | Exc o' w' => length us <= max /\ untouched o o' w w' /\
      (someone_throws w \/ sbo_capacity small o < length (vs ++ us) /\ max < sbo_grown small o (length (vs ++ us)))
  end.
Proof.
  intros V moved small max mks us o vs others w Hlt Hmax Hv Hm. pose proof (C88_append V moved small max mks us o vs others w Hlt Hmax Hv Hm) as C.
  pose proof (Forall2_len _ _ _ Hm) as Hlen. erewrite builtin_size_cases by reflexivity.
  change (c_max (sbo_vector moved small max)) with max. destruct (Nat.leb_spec (length mks) max) as [L|L].
  - unfold ends in C. destruct (append moved _ _ o w) as [o' [] w'|o' w'|f]; [split; [lia|exact C]|split; [lia|exact C]|contradiction].
  - split; [reflexivity|lia].
Qed.
Print Assumptions C156_append_builtin_sbo.

(** ** Construction from a range with a size, whatever its type is: undefined exactly when it is longer than the largest size. *)
Theorem C156_construct : forall V (moved : V -> V) minc maxc fits mks us w,
  minc <= maxc -> unused_names w -> Forall2 (makes (heap w)) mks us ->
  match bv_from moved minc maxc fits (Source mks true) tt w with
  | Bad f => f = Broken /\ maxc < length us
  | Ret _ o w' => length us <= maxc /\ is_vector minc maxc o us (heap w) w' /\ capacity_of o = Nat.max (length us) minc
  | Exc _ w' => length us <= maxc /\ same (heap w') (heap w) /\ someone_throws w
  end.
Proof.
  intros V moved minc maxc fits mks us w Hmm Hu Hm. pose proof (Forall2_len _ _ _ Hm) as Hlen. destruct (Nat.le_gt_cases (length us) maxc) as [L|L].
  - pose proof (C38_from_range V moved minc maxc fits mks us w Hmm Hu Hm L) as C. unfold ends in C.
    destruct (bv_from moved minc maxc fits _ tt w) as [x o w'|x w'|f]; [tauto|tauto|contradiction].
  - unfold bv_from, constructor, reservation_size, bind, require. cbn [s_sized s_elements].
    assert (((minc <=? Nat.max (length mks) minc) && (Nat.max (length mks) minc <=? maxc)) = false) as ->; [|cbn; split; [reflexivity|lia]].
    apply andb_false_iff. right. apply Nat.leb_gt. lia.
Qed.
Print Assumptions C156_construct.

(** The claim that append adds all elements or throws is false for such sources: five elements for a vector of at most four. *)
Theorem C156_append_refuted : exists maxc o (vs us : list nat) others w,
  is_vector 0 maxc o vs others w /\ ~ someone_throws w /\
  append_builtin_size forget (bounded_vector forget 0 maxc) (Source (map Supply us) true) o w = Bad Broken /\
  append forget (bounded_vector forget 0 maxc) (Source (map Supply us) true) o w = Exc o w.
Proof.
  exists 4, full, [1; 2; 3], [4; 5; 6; 7; 8], nothing, (alone some123 []). split; [alone_tac; exists 0; cbn; repeat split; lia|].
  split; [intros []|]. split; reflexivity.
Qed.
Print Assumptions C156_append_refuted.

Example C156_example :
  is_vector 0 20 full [1; 2; 3] nothing (alone some123 []) /\
  match append_builtin_size forget (bounded_vector forget 0 20) (Source (map Supply [4; 5]) true) full (alone some123 []) with
  | Ret o' _ w' => b_size o' = 5 /\ heap w' 0 = None /\ heap w' 1 = Some [Some 1; Some 2; Some 3; Some 4; Some 5; None]
  | _ => False
  end /\
  get_source_size (Bty (lit 0) (lit 10)) (Builtin U64) 7 = Some (Bty (lit 0) (lit 10), Ok 7%Z) /\
  get_source_size (Bty (lit 0) (lit 10)) (Builtin U64) 11 = Some (Bty (lit 0) (lit 10), UB) /\
  get_source_size (Bty (lit 0) (lit 10)) (Bounded (Bty (lit 0) (lit 20))) 11 = Some (Bty (lit 0) (lit 20), Ok 11%Z).
Proof. split; [exact (full_is_vector [])|]. vm_compute. repeat split. Qed.
