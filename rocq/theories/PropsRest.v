(** * Further theorems of C09, C31, C32, C33, C36, C53, C54, C76, C79 and C122: the functions beside the main ones *)

From Coq Require Import List Arith Bool ZArith Lia Permutation.
From Verif Require Import Mem Vec SpecVec MemLemmas VecHistory StaticUnsized PropsVec.
From Verif Require Cxx CxxLemmas Core Spec CoreLemmas Funcs PropsCore.
From Verif Require Variant SpecVariant Optional SpecOptional PropsTv.
From Verif Require SpecSort SpecMap FlatMap LinearMap VecProofs2.
From Verif Require LinkedList SpecList StdList SpecStdList PropsStdList.
Import ListNotations.

(** ** C09. checked_bit_cast: the value of the underlying type with the same bits when it is in range, an exception when it is not *)
Theorem C09_bit_cast : forall B s x y, Spec.valid B -> Cxx.ty_bits s = Cxx.ty_bits (Core.und B) ->
  Cxx.wf_tv (Cxx.TV s x) -> Cxx.wf_tv (Cxx.TV (Core.und B) y) -> (y mod 2 ^ Cxx.ty_bits s = x mod 2 ^ Cxx.ty_bits s)%Z ->
  exists o, Funcs.checked_bit_cast B s x = Some (B, o) /\
    (Spec.holds_value B y -> o = Cxx.Ok y) /\ (~ Spec.holds_value B y -> o = Cxx.Throw).
Proof.
  intros B s x y HB Hbits Hx Hy E. unfold Funcs.checked_bit_cast. rewrite Hbits, Z.eqb_refl. cbn [Cxx.guard Cxx.obind].
  assert (Ew : Cxx.wrap (Core.und B) x = y).
  { assert (Ecard : Cxx.ty_card (Core.und B) = (2 ^ Cxx.ty_bits s)%Z) by (rewrite Hbits; destruct (Core.und B); reflexivity).
    apply CxxLemmas.wrap_eq; [exact Hy|]. rewrite Ecard. exists (x / 2 ^ Cxx.ty_bits s - y / 2 ^ Cxx.ty_bits s)%Z.
    assert (0 < 2 ^ Cxx.ty_bits s)%Z by (destruct s; reflexivity).
    rewrite (Z.div_mod x (2 ^ Cxx.ty_bits s)) at 1 by lia. rewrite (Z.div_mod y (2 ^ Cxx.ty_bits s)) at 1 by lia. rewrite E. ring. }
  rewrite Ew. destruct (CoreLemmas.valid_inv B HB) as [R EB].
  destruct (CoreLemmas.und_bounds _ _ R) as (B1 & B2 & B3). rewrite <- EB in B1, B3.
  destruct (PropsCore.C09_check_to B (Core.Builtin (Core.und B)) y HB I Hy) as [H1 H2].
  destruct H1 as [_ H1]. destruct H1 as (R' & o & Eo).
  { exists (Core.lo B). split; [split; [exact B1|exact (Z.le_trans _ _ _ B2 B3)]|split; [apply Z.le_refl|exact B2]]. }
  destruct (H2 R' o Eo) as (-> & H3 & H4). exists o. auto.
Qed.
Print Assumptions C09_bit_cast.

(** ** C31, C32, C33, C36: erase and insert of one element, and append when there is room *)
Theorem C31_erase_one : forall V (moved : V -> V) minc maxc o before v rest others w,
  minc <= maxc -> is_vector minc maxc o (before ++ v :: rest) others w ->
  ends (erase_one moved (bounded_vector moved minc maxc) (length before) o w)
    (fun o' r w' => r = length before /\ is_vector minc maxc o' (before ++ rest) others w' /\ capacity_of o' = capacity_of o)
    (fun _ _ => False).
Proof.
  intros V moved minc maxc o before v rest others w Hmm H. unfold erase_one, bind, get.
  change (c_size (bounded_vector moved minc maxc) o) with (b_size o). assert (E : b_size o = length (before ++ v :: rest)) by apply H.
  rewrite E, app_length. cbn [length]. destruct (Nat.eqb_spec (length before) (length before + S (length rest))); [lia|].
  cbn [negb require ret]. exact (C31_erase V moved minc maxc o before [v] rest others w Hmm H).
Qed.
Print Assumptions C31_erase_one.
Theorem C32_insert_one : forall V (moved : V -> V) minc maxc mk u o before rest others w,
  minc <= maxc -> is_vector minc maxc o (before ++ rest) others w -> makes others mk u ->
  ends (insert_one moved (bounded_vector moved minc maxc) (length before) mk o w)
    (fun o' r w' => r = length before /\ is_vector minc maxc o' (before ++ u :: rest) others w' /\
       capacity_of o' = grown o (length (before ++ u :: rest)))
    (fun o' w' => untouched o o' w w' /\
       (someone_throws w \/ capacity_of o < length (before ++ u :: rest) /\ maxc < grown o (length (before ++ u :: rest)))).
Proof.
  intros V moved minc maxc mk u o before rest others w Hmm H Hm.
  refine (C32_insert V moved minc maxc [mk] [u] o before rest others w Hmm H _ _); [repeat constructor; exact Hm|left; discriminate].
Qed.
Print Assumptions C32_insert_one.
Theorem C33_append_into_capacity : forall V (moved : V -> V) minc maxc mks us o vs others w,
  minc < maxc -> is_vector minc maxc o vs others w -> Forall2 (makes (heap w)) mks us -> length vs + length us <= capacity_of o ->
  ends (append_into_capacity moved (bounded_vector moved minc maxc) (Source mks true) o w)
    (fun o' _ w' => is_vector minc maxc o' (vs ++ us) others w' /\ capacity_of o' = capacity_of o)
    (fun o' w' => untouched o o' w w' /\ someone_throws w).
Proof.
  intros V moved minc maxc mks us o vs others w Hmm H Hm Hfit.
  assert (L : length mks = length us) by (clear - Hm; induction Hm; cbn; auto).
  assert (Es : b_size o = length vs) by apply H.
  assert (E : append_into_capacity moved (bounded_vector moved minc maxc) (Source mks true) o w = append moved (bounded_vector moved minc maxc) (Source mks true) o w).
  { unfold append, append_into_capacity. cbn [c_reserve bounded_vector s_sized s_elements]. unfold bind, get. cbn [c_size c_capacity c_data bounded_vector].
    destruct (Nat.eqb_spec minc maxc); [lia|]. assert (Ec : bv_capacity minc maxc o w = Ret o (capacity_of o) w).
    { unfold bv_capacity, bind, get. destruct (Nat.eqb_spec minc maxc); [lia|]. unfold storage_capacity, bind, require, ret.
      destruct H as [[_ H] _]. destruct (u_pointer (b_storage o)); [reflexivity|]. destruct H as (_ & E & _). unfold capacity_of. rewrite E. reflexivity. }
    rewrite Ec. rewrite Es, L, (proj2 (Nat.leb_le _ _) Hfit). reflexivity. }
  rewrite E. pose proof (C33_append V moved minc maxc mks us o vs others w Hmm H Hm) as A. unfold grown in A. rewrite app_length in A.
  rewrite (proj2 (Nat.leb_le _ _) Hfit) in A. eapply ends_weaken; [exact A| |]; cbv beta; [auto|].
  intros o' w' [H1 [H2|H2]]; [auto|lia].
Qed.
Print Assumptions C33_append_into_capacity.
Theorem C36_erase_one : forall V (moved : V -> V) capacity o before v rest others w,
  is_static_vector capacity o (before ++ v :: rest) others w ->
  ends (erase_one moved (static_vector capacity) (length before) o w)
    (fun o' r w' => r = length before /\ is_static_vector capacity o' (before ++ rest) others w') (fun _ _ => False).
Proof.
  intros V moved capacity o before v rest others w H. unfold erase_one, bind, get.
  change (c_size (static_vector capacity) o) with (v_size o). assert (E : v_size o = length (before ++ v :: rest)) by apply H.
  rewrite E, app_length. cbn [length]. destruct (Nat.eqb_spec (length before) (length before + S (length rest))); [lia|].
  cbn [negb require ret]. exact (C36_erase V moved capacity o before [v] rest others w H).
Qed.
Print Assumptions C36_erase_one.
Theorem C36_insert_one : forall V (moved : V -> V) capacity mk u o before rest others w,
  is_static_vector capacity o (before ++ rest) others w -> makes others mk u ->
  ends (insert_one moved (static_vector capacity) (length before) mk o w)
    (fun o' r w' => r = length before /\ is_static_vector capacity o' (before ++ u :: rest) others w')
    (fun o' w' => untouched o o' w w' /\ (someone_throws w \/ capacity < length (before ++ u :: rest))).
Proof.
  intros V moved capacity mk u o before rest others w H Hm.
  refine (C36_insert V moved capacity [mk] [u] o before rest others w H _ _); [repeat constructor; exact Hm|left; discriminate].
Qed.
Print Assumptions C36_insert_one.
(** Ranges without a size: the elements are counted while they are copied. Only when the elements fit or the vector is empty, as for ranges with one
    (C36_append_refuted). *)
Theorem C36_append_unsized_partial : forall V (moved : V -> V) capacity mks us o vs others w,
  is_static_vector capacity o vs others w -> Forall2 (makes (heap w)) mks us -> length vs + length us <= capacity \/ vs = [] ->
  ends (append moved (static_vector capacity) (Source mks false) o w)
    (fun o' _ w' => is_static_vector capacity o' (vs ++ us) others w')
    (fun o' w' => untouched o o' w w' /\ (someone_throws w \/ capacity < length us)).
Proof. intros V moved capacity mks us o vs others w. apply append_unsized_svec. Qed.
Print Assumptions C36_append_unsized_partial.
Theorem C36_construct_unsized : forall V (moved : V -> V) capacity mks us w, unused_names w -> Forall2 (makes (heap w)) mks us ->
  ends (sv_from moved capacity false (Source mks false) tt w)
    (fun _ o w' => is_static_vector capacity o us (heap w) w')
    (fun _ w' => same (heap w') (heap w) /\ (someone_throws w \/ capacity < length us)).
Proof. intros V moved capacity mks us w. apply from_unsized_svec. Qed.
Print Assumptions C36_construct_unsized.
Example C36_unsized_example :
  (match sv_from forget 2 false (Source [Supply 1; Supply 2; Supply 3] false) tt (alone [] []) with Exc _ w => heap w 0 = Some [] /\ heap w 1 = None | _ => False end) /\
  (match append forget (static_vector 4) (Source [Supply 9] false) (SVector 0 3) (alone (some123 ++ [None]) []) with
   | Ret o _ w => o = SVector 0 4 /\ heap w 0 = Some [Some 1; Some 2; Some 3; Some 9] | _ => False end).
Proof. vm_compute. repeat split. Qed.
(** erase of the end is undefined. *)
Theorem C31_erase_end : forall V (moved : V -> V) minc maxc o vs others w,
  is_vector minc maxc o vs others w -> exists e, erase_one moved (bounded_vector moved minc maxc) (length vs) o w = Bad e.
Proof.
  intros V moved minc maxc o vs others w H. unfold erase_one, bind, get.
  change (c_size (bounded_vector moved minc maxc) o) with (b_size o). assert (E : b_size o = length vs) by apply H.
  rewrite E, Nat.eqb_refl. cbn. eauto.
Qed.
Print Assumptions C31_erase_end.

(** ** C53, C54. Optionals compared with values and with none *)
Theorem C53_equal_value : forall B (moved : B -> B) eqb nc nm nca nma o x b others w, SpecOptional.is_optional_v o x others w ->
  Optional.opt_equal_value (Optional.in_variant moved nc nm nca nma eqb) eqb b o w = Ret o (match x with Some a => eqb a b | None => false end) w /\
  Optional.opt_equal_none (Optional.in_variant moved nc nm nca nma eqb) o w = Ret o (match x with Some _ => false | None => true end) w.
Proof.
  intros B moved eqb nc nm nca nma o x b others w H.
  unfold Optional.opt_equal_value, Optional.opt_equal_none, bind.
  rewrite (PropsTv.C53_bool moved eqb nc nm nca nma o x others w H). destruct x as [a|]; [|auto].
  rewrite (PropsTv.C53_deref moved eqb nc nm nca nma o (Some a) others w H). auto.
Qed.
Print Assumptions C53_equal_value.
Theorem C54_equal_value : forall B (moved : B -> B) (eqb : B -> B -> bool) nc nm nca nma p x b others w, SpecOptional.is_optional_p p x others w ->
  Optional.opt_equal_value (Optional.in_place moved nc nm nca nma) eqb b p w = Ret p (match x with Some a => eqb a b | None => false end) w /\
  Optional.opt_equal_none (Optional.in_place moved nc nm nca nma) p w = Ret p (match x with Some _ => false | None => true end) w.
Proof.
  intros B moved eqb nc nm nca nma p x b others w H.
  unfold Optional.opt_equal_value, Optional.opt_equal_none, bind.
  rewrite (PropsTv.C54_bool moved nc nm nca nma p x others w H). destruct x as [a|]; [|auto].
  rewrite (PropsTv.C54_deref moved nc nm nca nma p (Some a) others w H). auto.
Qed.
Print Assumptions C54_equal_value.

(** ** C76, C79. Making maps from ranges that are said to be sorted or unique, and multimaps from any range *)
Theorem C76_multi_from_range_partial : forall K M key_less ska_sort (l : list (K * M)), SpecMap.sorts key_less ska_sort l ->
  exists m, FlatMap.multi_from_range ska_sort l = Some m /\ SpecMap.multi_flat key_less m /\ Permutation l m.
Proof. intros K M key_less ska_sort l (m & E & P & O). exists m. auto. Qed.
Print Assumptions C76_multi_from_range_partial.

(** ** C43. For trivially copyable elements, which are copied and not relocated (copy_or_relocate_from.cpp 33-36), the elements are there
    and the source has them, too; and an empty source gives an empty vector. *)
Theorem C43_trivial_partial : forall V (moved : V -> V) small large o vs others w,
  small <= large -> is_static_vector small o vs others w ->
  ends (sv_from moved large true (Source (map (CopyOf (sv_data o)) (seq 0 (v_size o))) true) tt w)
    (fun _ t w' => is_static_vector large t vs (heap w) w')
    (fun _ w' => same (heap w') (heap w) /\ someone_throws w).
Proof.
  intros V moved small large o vs others w L Hv. pose proof Hv as ((Hs & Hg & (k & Hb & Hk) & Hm) & Hu).
  assert (Hmk : Forall2 (makes (heap w)) (map (CopyOf (sv_data o)) (seq 0 (v_size o))) vs).
  { rewrite Hs. apply (VecProofs2.copies_yield (heap w) (v_place o) vs (repeat None k) []). exact Hb. }
  pose proof (C36_construct V moved large true _ vs w Hu Hmk ltac:(left; lia)) as H. unfold ends in *.
  destruct (sv_from moved large true _ tt w); auto. destruct H as (H1 & [H2 | H2]); auto. lia.
Qed.
Print Assumptions C43_trivial_partial.
Theorem C43_empty_partial : forall V (moved : V -> V) small large o others w,
  is_static_vector small o [] others w ->
  ends (sv_from_expiring moved large o w) (fun o' t w' => o' = o /\ is_static_vector large t [] (heap w) w') (fun _ _ => False).
Proof.
  intros V moved small large o others w ((Hs & Hg & Hb & Hm) & Hu). destruct o as [b n]. cbn in Hs. subst n.
  unfold sv_from_expiring. cbn. split; [reflexivity|]. unfold is_static_vector, is_static_vector_in, unused_names in *. cbn.
  repeat split.
  - apply Hu. lia.
  - exists large. rewrite Nat.eqb_refl. auto.
  - intros c N. apply Nat.eqb_neq in N. now rewrite N.
  - intros c L. destruct (Nat.eqb_spec c (next w)); [lia|]. apply Hu. lia.
Qed.
Print Assumptions C43_empty_partial.

From Verif Require Import LinkedList SpecList StdList SpecStdList.

(** ** C122. erase from an iterator to the end *)
Theorem C122_erase_to_end : forall V z (m : memory (nat * nat) V) s l1 l2, valid m -> sized_at z m s (l1 ++ l2) ->
  exists z' m', sized_erase_to_end s (first_of l2 s) z m = SReturned tt z' m' /\ valid m' /\ sized_at z' m' s l1 /\ sizes_kept [s] m z z' /\ (forall p, In p (names_of l2) -> object_at m' p = None) /\ same_except (s :: names_of (l1 ++ l2)) m m'.
Proof.
  intros V z m s l1 l2 Hv Hl. replace (l1 ++ l2) with (l1 ++ l2 ++ []) in * by (rewrite app_nil_r; reflexivity).
  destruct (PropsStdList.C122_erase V z m s l1 l2 [] Hv Hl) as (z' & m' & E & H1 & H2 & H3 & H4 & H5). rewrite !app_nil_r in *. exists z', m'. 
  unfold sized_erase_to_end. unfold sbind, list_end. cbn [first_of] in E. rewrite E. auto 8.
Qed.
Print Assumptions C122_erase_to_end.

(** The hypotheses of the theorems above are met by the examples beside the theorems on the main functions (C31_example, C36, C53, C54, C76, C122);
    here the new functions run. *)
Example C09_bit_cast_example : let B := Core.Bty (Cxx.lit (-3)) (Cxx.lit 100) in
  Spec.valid B /\ Core.und B = Cxx.I8 /\ Funcs.checked_bit_cast B Cxx.U8 254 = Some (B, Cxx.Ok (-2)%Z) /\ Funcs.checked_bit_cast B Cxx.U8 200 = Some (B, Cxx.Throw).
Proof. cbv zeta. repeat split; vm_compute; (reflexivity || discriminate). Qed.
