(** * C134: bytes *)

From Coq Require Import List ZArith Bool Lia.
From Verif Require Import Range Strings SpecStrings Bytes SpecBytes BytesProofs.
From Verif Require Cxx Core Spec.
Import ListNotations.
Local Open Scope Z_scope.

(** A shift of a byte by a bounded integer less than 32 is the byte times or divided by that power of two, without the bits that leave the byte. *)
Theorem C134_shift : forall B n byte, Spec.valid B -> Spec.holds_value B n -> 0 <= Core.lo B -> 0 <= byte <= 255 -> n < 32 ->
  byte_shl byte B n = Some (Cxx.Ok ((byte * 2 ^ n) mod 256)) /\ byte_shr byte B n = Some (Cxx.Ok (byte / 2 ^ n)).
Proof.
  intros B n byte HB Hn Hlo Hb H32. destruct (value_ok B n HB Hn) as (t & E). assert (0 <= n) by (unfold Spec.holds_value in Hn; lia).
  unfold byte_shl, byte_shr. rewrite (proj2 (Z.leb_le _ _) Hlo), E. cbn [Cxx.bind].
  rewrite std_shl, std_shr, (proj2 (Z.ltb_lt n 32) H32) by assumption. auto.
Qed.
Print Assumptions C134_shift.
(** A type with negative values has no shift of bytes. *)
Theorem C134_no_shift : forall B n byte, Core.lo B < 0 -> byte_shl byte B n = None /\ byte_shr byte B n = None.
Proof. intros B n byte H. unfold byte_shl, byte_shr. destruct (Z.leb_spec 0 (Core.lo B)); [lia|]. auto. Qed.
Print Assumptions C134_no_shift.
(** But nothing rules out larger shifts, although a byte has eight bits and the type of the amount says how large it can be: they are undefined
    (the comments at byte.cpp 18 and 24). *)
Theorem C134_shift_refuted : forall B n byte, Spec.valid B -> Spec.holds_value B n -> 0 <= Core.lo B -> 0 <= byte <= 255 -> 32 <= n ->
  byte_shl byte B n = Some Cxx.UB /\ byte_shr byte B n = Some Cxx.UB.
Proof.
  intros B n byte HB Hn Hlo Hb H32. destruct (value_ok B n HB Hn) as (t & E). 
  unfold byte_shl, byte_shr. rewrite (proj2 (Z.leb_le _ _) Hlo), E. cbn [Cxx.bind].
  rewrite std_shl, std_shr by lia. destruct (Z.ltb_spec n 32); [lia|]. auto.
Qed.
Print Assumptions C134_shift_refuted.

(** A span of a range, of a place and a number, or of two places has the elements there: its size is their number, and [span[i]] is the i-th of them.
    It can be made of any range whose size is never more than the largest array. *)
Theorem C134_elements : forall s m p xs most, elements s m p xs -> Z.of_nat (length xs) <= most -> most <= max_count s ->
  exists t, sp_data t = p /\ sp_size t = Z.of_nat (length xs) /\
    span_of_range s p most (Z.of_nat (length xs)) = Some t /\
    span_of_size s p (Z.of_nat (length xs)) = t /\
    span_of_iterators s p (element_at s p (length xs)) = Val t /\
    span_to_std t = (p, Z.of_nat (length xs)) /\
    forall i x, nth_error xs i = Some x -> span_get s m t (Z.of_nat i) = Val x.
Proof.
  intros s m p xs most H Hn Hm. exists (Span p (Z.of_nat (length xs))). split; [reflexivity|]. split; [reflexivity|]. split; [|split; [reflexivity|split; [|split]]].
  - unfold span_of_range, as_size. rewrite (proj2 (Z.leb_le _ _) Hm). reflexivity.
  - destruct H as (Hs & Hf & H). unfold span_of_iterators, difference, element_at. destruct p as [[b o]|]; cbn [option_map].
    + rewrite Nat.eqb_refl. cbn [assume bind]. replace (o + s * Z.of_nat (length xs) - o) with (Z.of_nat (length xs) * s) by lia.
      rewrite Z.div_mul by lia. rewrite (proj2 (Z.leb_le _ _)) by lia. reflexivity.
    + cbn in H. pose proof (concat_length s xs Hf) as L. rewrite H in L. cbn in L. replace (Z.of_nat (length xs)) with 0 by nia. reflexivity.
  - unfold span_to_std. cbn [sp_data sp_size]. rewrite Z.mod_small; [reflexivity|]. split; [lia|]. destruct H as (Hs & _).
    pose proof (max_bytes s _ Hs Hm). unfold max_count in *. rewrite Z.div_1_r in *. assert (most <= most * s) by nia. lia.
  - intros i x Hi. apply (load_spec s m p xs i x H Hi).
Qed.
Print Assumptions C134_elements.
(** A range whose size can be more has no span, whatever its size is; and two places in the wrong order are undefined. *)
Theorem C134_no_span : forall s p most n, max_count s < most -> span_of_range s p most n = None.
Proof. intros s p most n H. unfold span_of_range, as_size. destruct (Z.leb_spec most (max_count s)); [lia|reflexivity]. Qed.
Print Assumptions C134_no_span.
Theorem C134_wrong_order : forall s b offset i j, 0 < s -> (j < i)%nat ->
  span_of_iterators s (element_at s (Some (b, offset)) i) (element_at s (Some (b, offset)) j) = Undefined.
Proof.
  intros s b offset i j Hs Hij. unfold span_of_iterators, difference, element_at. cbn [option_map]. rewrite Nat.eqb_refl. cbn [assume bind].
  replace (offset + s * Z.of_nat j - (offset + s * Z.of_nat i)) with ((Z.of_nat j - Z.of_nat i) * s) by lia. rewrite Z.div_mul by lia.
  destruct (Z.leb_spec 0 (Z.of_nat j - Z.of_nat i)); [lia|reflexivity].
Qed.
Print Assumptions C134_wrong_order.
(** An assignment to [span[i]] changes that element, and nothing else in memory. *)
Theorem C134_write : forall s m t xs i x y, elements s m (sp_data t) xs -> nth_error xs i = Some x -> Z.of_nat (length y) = s ->
  exists m', span_set s m t (Z.of_nat i) y = Val m' /\
    replaced m (sp_data t) (concat xs) (concat (firstn i xs ++ y :: skipn (S i) xs)) m' /\
    elements s m' (sp_data t) (firstn i xs ++ y :: skipn (S i) xs).
Proof.
  intros s m t xs i x y H Hi Hy. destruct (store_spec s m _ xs i x y H Hi Hy) as (m' & E & R). exists m'. split; [exact E|]. split; [exact R|].
  destruct (elements_at s m _ xs i x H Hi) as (_ & _ & _ & _ & Hp & _). destruct H as (Hs & Hf & _). split; [exact Hs|]. split.
  - destruct (concat_split xs i x Hi) as (_ & Ex & _). rewrite Ex in Hf. apply Forall_app in Hf. destruct Hf as [H1 H2]. inversion H2; subst.
    apply Forall_app. split; [exact H1|]. constructor; [reflexivity|assumption].
  - exact (replaced_holds _ _ _ _ _ R Hp).
Qed.
Print Assumptions C134_write.

(** as_bytes and as_writeable_bytes of any range that has a span exist. They have sizeof times as many bytes, and the byte [i * sizeof + j] is the byte [j] of the
    element [i]. *)
Theorem C134_as_bytes : forall s m p xs most, elements s m p xs -> Z.of_nat (length xs) <= most -> most <= max_count s ->
  exists t, as_bytes s p most (Z.of_nat (length xs)) = Some t /\ sp_data t = p /\ sp_size t = Z.of_nat (length xs) * s /\ sp_size t <= max_count 1 /\
    elements 1 m p (map (fun v => [v]) (concat xs)) /\ sp_size t = Z.of_nat (length (concat xs)) /\
    forall i x j v, nth_error xs i = Some x -> nth_error x j = Some v -> span_get 1 m t (Z.of_nat i * s + Z.of_nat j) = Val [v].
Proof.
  intros s m p xs most H Hn Hm. destruct H as (Hs & Hf & H). exists (Span p (Z.of_nat (length xs) * s)). cbn [sp_data sp_size].
  pose proof (max_bytes s most Hs Hm) as Hb. split; [unfold as_bytes, as_size; rewrite (proj2 (Z.leb_le _ _) Hb); reflexivity|].
  split; [reflexivity|]. split; [reflexivity|]. split; [nia|]. split; [apply (elements_bytes s); split; auto|]. split; [rewrite (concat_length s) by exact Hf; lia|].
  intros i x j v Hi Hj. unfold span_get. cbn [sp_data]. replace (Z.of_nat i * s + Z.of_nat j) with (Z.of_nat (Z.to_nat (Z.of_nat i * s + Z.of_nat j))) by lia.
  apply (load_spec 1 m p (map (fun v => [v]) (concat xs))); [apply (elements_bytes s); split; auto|].
  rewrite nth_error_map, (nth_concat s xs i j x v) by assumption. reflexivity.
Qed.
Print Assumptions C134_as_bytes.
(** An assignment to the byte [i * sizeof + j] changes the byte [j] of the element [i], and nothing else in memory. *)
Theorem C134_write_byte : forall s m p xs most t i x j v w, elements s m p xs -> as_bytes s p most (Z.of_nat (length xs)) = Some t ->
  nth_error xs i = Some x -> nth_error x j = Some v ->
  exists m', span_set 1 m t (Z.of_nat i * s + Z.of_nat j) [w] = Val m' /\
    let ys := firstn i xs ++ (firstn j x ++ w :: skipn (S j) x) :: skipn (S i) xs in
    replaced m p (concat xs) (concat ys) m' /\ elements s m' p ys.
Proof.
  intros s m p xs most t i x j v w H Et Hi Hj. unfold as_bytes, as_size in Et. destruct (most * s <=? max_count 1); [|discriminate]. injection Et as <-.
  pose proof (elements_bytes s m p xs H) as Hb. unfold span_set. cbn [sp_data].
  set (k := Z.to_nat (Z.of_nat i * s + Z.of_nat j)).
  assert (Hs : 0 < s) by apply H. assert (Hf : Forall (fun x => Z.of_nat (length x) = s) xs) by apply H.
  replace (Z.of_nat i * s + Z.of_nat j) with (Z.of_nat k) by (subst k; lia).
  assert (Hk : nth_error (concat xs) k = Some v) by (apply (nth_concat s xs i j x); assumption).
  destruct (store_spec 1 m p (map (fun b => [b]) (concat xs)) k [v] [w] Hb) as (m' & E & R); [rewrite nth_error_map, Hk; reflexivity|reflexivity|].
  exists m'. split; [exact E|].
  destruct (elements_at s m p xs i x H Hi) as (_ & _ & _ & _ & Hp & Hx & _).
  destruct (concat_split xs i x Hi) as (Ec & Exs & Hl).
  assert (Ey : concat (firstn k (map (fun b => [b]) (concat xs)) ++ [w] :: skipn (S k) (map (fun b => [b]) (concat xs))) =
    concat (firstn i xs ++ (firstn j x ++ w :: skipn (S j) x) :: skipn (S i) xs)).
  { rewrite firstn_map, skipn_map, concat_app. cbn [concat]. rewrite !concat_singles, concat_app. cbn [concat].
    destruct (nth_error_split x j Hj) as (x1 & x2 & -> & Hx1).
    assert (Hkl : k = length (concat (firstn i xs) ++ x1)).
    { pose proof (concat_length s _ (Forall_firstn _ i xs Hf)) as L. rewrite Hl in L. rewrite app_length. subst k. lia. }
    assert (Ef : forall X (u w : list X), firstn (length u) (u ++ w) = u) by (intros X u w'; rewrite firstn_app, Nat.sub_diag, firstn_all; cbn [firstn]; apply app_nil_r).
    assert (Es : forall X (u w : list X) x, skipn (S (length u)) (u ++ x :: w) = w).
    { intros X u w' x. rewrite skipn_app, (skipn_all2 u) by lia. replace (S (length u) - length u)%nat with 1%nat by lia. reflexivity. }
    rewrite <- Hx1, Ef, Es. rewrite Hkl, Ec.
    replace (concat (firstn i xs) ++ (x1 ++ v :: x2) ++ concat (skipn (S i) xs)) with ((concat (firstn i xs) ++ x1) ++ v :: x2 ++ concat (skipn (S i) xs)) by (rewrite <- !app_assoc; reflexivity).
    rewrite Ef, Es, <- !app_assoc. reflexivity. }
  rewrite concat_singles, Ey in R. cbv zeta. split; [exact R|]. split; [exact Hs|]. split; [|exact (replaced_holds _ _ _ _ _ R Hp)].
  rewrite Exs in Hf. apply Forall_app in Hf. destruct Hf as [H1 H2]. inversion H2; subst. apply Forall_app. split; [exact H1|]. constructor; [|assumption].
  destruct (nth_error_split x j Hj) as (x1 & x2 & -> & <-). rewrite !app_length. cbn [length]. rewrite firstn_length, skipn_length, !app_length. cbn [length]. lia.
Qed.
Print Assumptions C134_write_byte.

(** The hypotheses are met: two numbers of four bytes in the middle of a block between other things. *)
Example C134_elements_example : elements 4 [[9]; [8; 7; 1; 0; 0; 0; 2; 0; 0; 0; 6]] (Some (1%nat, 2)) [[1; 0; 0; 0]; [2; 0; 0; 0]].
Proof. split; [lia|]. split; [repeat constructor|]. exists [8; 7], [6]. auto. Qed.
Example C134_bytes_example :
  option_map (fun t => (sp_size t, span_get 1 [[9]; [8; 7; 1; 0; 0; 0; 2; 0; 0; 0; 6]] t 4, span_set 1 [[9]; [8; 7; 1; 0; 0; 0; 2; 0; 0; 0; 6]] t 5 [3]))
    (as_bytes 4 (Some (1%nat, 2)) 10 2) =
  Some (8, Val [2], Val [[9]; [8; 7; 1; 0; 0; 0; 2; 3; 0; 0; 6]]).
Proof. vm_compute. reflexivity. Qed.
Example C134_shift_example :
  let B := Core.Bty (Cxx.lit 0) (Cxx.lit 40) in
  Spec.valid B /\ Spec.holds_value B 3 /\ Spec.holds_value B 32 /\ 0 <= Core.lo B /\
  byte_shl 255 B 3 = Some (Cxx.Ok 248) /\ byte_shr 255 B 3 = Some (Cxx.Ok 31) /\ byte_shl 255 B 32 = Some Cxx.UB.
Proof.
  cbv zeta. repeat split; try (vm_compute; reflexivity); vm_compute; discriminate.
Qed.
