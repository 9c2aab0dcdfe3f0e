(** * Properties C68 to C70: radix sort keys, double_buffered_ska_sort, ska_sort

    [sorting lt l l'] (SpecSort.v): [l'] has the elements of [l], and no element is before one that is less. [stable_sorting]: and
    equivalent elements are in the same order as in [l]. [key_less] (SpecRadix.v) is the order of keys: false before true, integers by value,
    tuples and ranges by the first difference. [Some] in front of a result: no index was out of range. *)

From Coq Require Import List Arith Bool Lia Permutation ZArith.
From Verif Require Import Cxx Core Spec CoreLemmas CoreProofs SpecSort SortLemmas RadixLemmas DoubleBuffer InplaceRadix RadixKey SpecRadix DoubleBufferProofs InplaceProofs5 RadixKeyProofs.
Import ListNotations.
Local Open Scope Z_scope.

(** ** C68. to_radix_sort_key gives an unsigned integer, and keys are in the order of the values. *)
Theorem C68_integer : forall t a b, wf_tv (TV t a) -> wf_tv (TV t b) ->
  exists ka kb, integer_key false (TV t a) = Ok ka /\ integer_key false (TV t b) = Ok kb /\
    ty ka = make_unsigned t /\ ty kb = make_unsigned t /\ wf_tv ka /\ wf_tv kb /\ (vl ka < vl kb <-> a < b).
Proof.
  intros t a b Ha Hb. rewrite !integer_key_spec by assumption. cbn [ty vl]. unfold wf_tv in *. cbn [ty vl] in *.
  eexists _, _. split; [reflexivity|]. split; [reflexivity|]. cbn [ty vl]. split; [reflexivity|]. split; [reflexivity|].
  destruct t; cbn [ty_min ty_max make_unsigned] in *; lia.
Qed.
Print Assumptions C68_integer.
Theorem C68_byte : forall a b, 0 <= a <= 255 -> 0 <= b <= 255 -> (vl (byte_key a) < vl (byte_key b) <-> a < b) /\ wf_tv (byte_key a).
Proof. intros a b Ha Hb. unfold byte_key, wf_tv. cbn [vl ty]. rewrite !wrap_in by (cbn; lia). cbn. lia. Qed.
Print Assumptions C68_byte.
(** A bounded integer has the key of its value in the underlying type. *)
Theorem C68_bounded : forall B a b, valid B -> holds_value B a -> holds_value B b ->
  exists ka kb, bounded_key B a = Ok ka /\ bounded_key B b = Ok kb /\
    ty ka = make_unsigned (und B) /\ ty kb = make_unsigned (und B) /\ wf_tv ka /\ wf_tv kb /\ (vl ka < vl kb <-> a < b).
Proof.
  intros B a b HB Ha Hb. unfold bounded_key. rewrite !value_valid by assumption. cbn [bind].
  destruct (und_valid _ HB) as [U1 U2]. unfold holds_value in *. apply C68_integer; unfold wf_tv; cbn [ty vl]; lia.
Qed.
Print Assumptions C68_bounded.
(** An enumeration whose limits are declared, and some built-in type holds them: values between the limits. *)
Theorem C68_enumeration : forall t mn mx a b, wf_tv mn -> wf_tv mx -> representable (vl mn) (vl mx) ->
  vl mn <= a <= vl mx -> vl mn <= b <= vl mx ->
  exists ka kb, enumeration_key t (Some (mn, mx)) a = Some (Ok ka) /\ enumeration_key t (Some (mn, mx)) b = Some (Ok kb) /\
    ty ka = ty kb /\ ty_min (ty ka) = 0 /\ wf_tv ka /\ wf_tv kb /\ (vl ka < vl kb <-> a < b).
Proof.
  intros t mn mx a b Wn Wx R Ha Hb. unfold enumeration_key. rewrite !normalize_spec by assumption.
  rewrite mk_integer_nt by (destruct (representable_in128 _ _ R); assumption). rewrite (proj2 (reprb_spec _ _) R).
  cbn [obind]. fold (bt (vl mn) (vl mx)). set (B := bt (vl mn) (vl mx)).
  assert (HB : valid B) by now apply valid_bt.
  assert (L : lo B = vl mn) by reflexivity. assert (H : hi B = vl mx) by reflexivity.
  destruct (und_valid _ HB) as [U1 U2].
  assert (E : forall x, vl mn <= x <= vl mx -> (if is_constant B then lo B else vl (cast (und B) (TV t x))) = x).
  { intros x Hx. destruct (is_constant B) eqn:Ec.
    - unfold is_constant in Ec. apply andb_prop in Ec. destruct Ec as [_ Ec]. apply Z.eqb_eq in Ec. lia.
    - unfold cast. cbn [vl ty]. apply wrap_in. lia. }
  rewrite !E by assumption.
  destruct (C68_bounded B a b HB) as (ka & kb & K1 & K2 & T1 & T2 & W1 & W2 & K); [unfold holds_value; lia..|].
  exists ka, kb. rewrite K1, K2. split; [reflexivity|]. split; [reflexivity|]. split; [congruence|].
  split; [rewrite T1; destruct (und B); reflexivity|]. auto.
Qed.
Print Assumptions C68_enumeration.
(** Without declared limits the key of an enumeration does not compile. *)
Theorem C68_enumeration_refuted : exists t value, wf_tv (TV t value) /\ enumeration_key t None value = None.
Proof. exists I32, 3. split; [split; vm_compute; congruence|reflexivity]. Qed.
Print Assumptions C68_enumeration_refuted.
(** Characters: only where the values are not negative. *)
Theorem C68_character_partial : forall t a b, wf_tv (TV t a) -> wf_tv (TV t b) -> 0 <= a -> 0 <= b ->
  exists ka kb, integer_key true (TV t a) = Ok ka /\ integer_key true (TV t b) = Ok kb /\
    ty ka = make_unsigned t /\ ty kb = make_unsigned t /\ wf_tv ka /\ wf_tv kb /\ (vl ka < vl kb <-> a < b).
Proof.
  intros t a b Ha Hb Pa Pb. rewrite !character_key_spec by assumption. cbn [ty vl]. unfold wf_tv in *. cbn [ty vl] in *.
  destruct (Z.ltb_spec a 0); [lia|]. destruct (Z.ltb_spec b 0); [lia|].
  eexists _, _. split; [reflexivity|]. split; [reflexivity|]. cbn [ty vl]. split; [reflexivity|]. split; [reflexivity|].
  destruct t; cbn [ty_min ty_max make_unsigned] in *; lia.
Qed.
Print Assumptions C68_character_partial.
(** A char of value -1 gets a greater key than a char of value 0; char is signed on this platform. *)
Theorem C68_character_refuted : exists t a b ka kb, wf_tv (TV t a) /\ wf_tv (TV t b) /\ t = I8 /\ a < b /\
  integer_key true (TV t a) = Ok ka /\ integer_key true (TV t b) = Ok kb /\ vl kb < vl ka.
Proof. exists I8, (-1), 0, (TV U8 255), (TV U8 0). repeat split; try reflexivity; cbn; lia. Qed.
Print Assumptions C68_character_refuted.
(** float and double: [a] and [b] are bit patterns. Of the two zeros, which are equal numbers, the negative one has the smaller key. *)
Theorem C68_float : forall E M t a b, (E, M, t) = (8, 23, U32) \/ (E, M, t) = (11, 52, U64) ->
  0 <= a < 2 ^ (1 + E + M) -> 0 <= b < 2 ^ (1 + E + M) -> number_of E M a <> Not_a_number -> number_of E M b <> Not_a_number ->
  exists ka kb, float_key t (TV t a) = Ok (TV t ka) /\ float_key t (TV t b) = Ok (TV t kb) /\ wf_tv (TV t ka) /\ wf_tv (TV t kb) /\
    (ka < kb <-> number_less (number_of E M a) (number_of E M b) = true \/ (a = 2 ^ (E + M) /\ b = 0)).
Proof.
  intros E M t a b Ht Ha Hb Na Nb.
  assert (P : 2 ^ (1 + E + M) = 2 * 2 ^ (E + M)) by (destruct Ht as [[= -> -> ->]|[= -> -> ->]]; reflexivity).
  destruct (float_order E M t a b Ht) as (ka & kb & E1 & E2 & R1 & R2 & H); try assumption; try lia.
  exists ka, kb. split; [exact E1|]. split; [exact E2|].
  assert (W : forall k, 0 <= k < 2 * 2 ^ (E + M) -> wf_tv (TV t k)) by (unfold wf_tv; destruct Ht as [[= -> -> ->]|[= -> -> ->]]; cbn; lia).
  auto.
Qed.
Print Assumptions C68_float.
(** So a sort by these keys may change the order of equal numbers. *)
Theorem C68_float_zero_refuted : exists a b ka kb, number_of 8 23 a = Finite 0 /\ number_of 8 23 b = Finite 0 /\
  float_key U32 (TV U32 a) = Ok ka /\ float_key U32 (TV U32 b) = Ok kb /\ vl ka <> vl kb.
Proof. exists (2 ^ 31), 0, (TV U32 (2 ^ 31 - 1)), (TV U32 (2 ^ 31)). repeat split; vm_compute; congruence. Qed.
Print Assumptions C68_float_zero_refuted.
Example C68_example :
  integer_key false (TV I16 (-256)) = Ok (TV U16 32512) /\ integer_key false (TV I16 5) = Ok (TV U16 32773) /\
  integer_key true (TV I8 97) = Ok (TV U8 97) /\ vl (byte_key 255) = 255 /\
  bounded_key (bt (-1) 200) (-1) = Ok (TV U16 32767) /\ bounded_key (bt (-1) 200) 200 = Ok (TV U16 32968) /\
  bounded_key (bt (-1) 200) 201 = UB /\ bounded_key (bt 1000 1000) 0 = Ok (TV U16 33768) /\
  enumeration_key I32 (Some (TV I32 (-3), TV I32 3)) (-3) = Some (Ok (TV U8 125)) /\
  enumeration_key I32 (Some (TV I32 7, TV I32 7)) 7 = Some (Ok (TV U8 135)) /\
  (** 0.5 and -2.0 *)
  number_of 8 23 1056964608 = Finite (2 ^ 148) /\ number_of 8 23 3221225472 = Finite (- 2 ^ 150) /\ number_of 8 23 2139095040 = Plus_infinity /\
  number_of 8 23 2143289344 = Not_a_number /\
  float_key U32 (TV U32 1056964608) = Ok (TV U32 3204448256) /\ float_key U32 (TV U32 3221225472) = Ok (TV U32 1073741823).
Proof. repeat split; reflexivity. Qed.

(** ** C69. double_buffered_ska_sort sorts stably by the key: the result, which is in the buffer when the function returns true and in the
    source otherwise, has the elements of the source, in order. [moved]: what a moved-from element is. *)
Theorem C69_double_buffered_ska_sort : forall V (moved : V -> V) k (extract_key : V -> key) source buffer,
  builtin_kind k -> (forall v, has_kind k (extract_key v)) -> length source = length buffer ->
  exists in_buffer source' buffer', double_buffered_ska_sort moved k extract_key source buffer = Some (in_buffer, source', buffer') /\
    length source' = length source /\ length buffer' = length source /\
    stable_sorting (fun a b => key_less (extract_key a) (extract_key b)) source (if in_buffer then buffer' else source').
Proof.
  intros V moved k ex source buffer Hk Hex Hl. unfold double_buffered_ska_sort. rewrite (proj2 (Nat.eqb_eq _ _) Hl).
  exact (impl_spec moved k Hk ex source buffer Hex Hl).
Qed.
Print Assumptions C69_double_buffered_ska_sort.
(** With to_radix_sort_key, integers end up in the order of their values. *)
Definition radix_key (t : cty) (value : Z) : key := match integer_key false (TV t value) with Ok k => Ku (vl k) | _ => Kb false end.
Definition size_in_bytes (t : cty) : nat := Z.to_nat (ty_bits t / 8).
Theorem C69_integers : forall V (moved : V -> V) t (value : V -> Z) source buffer,
  (forall v, wf_tv (TV t (value v))) -> length source = length buffer ->
  exists in_buffer source' buffer',
    double_buffered_ska_sort moved (KUint (size_in_bytes t)) (fun v => radix_key t (value v)) source buffer = Some (in_buffer, source', buffer') /\
    length source' = length source /\ length buffer' = length source /\
    stable_sorting (fun a b => value a <? value b) source (if in_buffer then buffer' else source').
Proof.
  intros V moved t value source buffer Hv Hl.
  assert (Hk : forall v, radix_key t (value v) = Ku (value v - ty_min t)) by (intro v; unfold radix_key; rewrite integer_key_spec by apply Hv; reflexivity).
  destruct (C69_double_buffered_ska_sort V moved (KUint (size_in_bytes t)) (fun v => radix_key t (value v)) source buffer) as (w & s' & b' & E & L1 & L2 & H).
  - constructor. destruct t; cbn; intuition.
  - intro v. rewrite Hk. constructor. specialize (Hv v). unfold wf_tv in Hv. cbn [ty vl] in Hv. assert (X : 256 ^ Z.of_nat (size_in_bytes t) = ty_card t) by (destruct t; reflexivity).
    rewrite X. clear - Hv. destruct t; cbn in *; lia.
  - exact Hl.
  - exists w, s', b'. split; [exact E|]. split; [exact L1|]. split; [exact L2|]. revert H.
    assert (X : forall a b, key_less (radix_key t (value a)) (radix_key t (value b)) = (value a <? value b)).
    { intros a b. rewrite !Hk, key_less_uint. destruct (Z.ltb_spec (value a - ty_min t) (value b - ty_min t)), (Z.ltb_spec (value a) (value b)); try reflexivity; lia. }
    apply stable_ext. intros; apply X.
Qed.
Print Assumptions C69_integers.
Example C69_example :
  double_buffered_ska_sort (fun v => v) (KList [KUint 2; KBool]) (fun v : Z * bool * nat => Kl [Ku (fst (fst v)); Kb (snd (fst v))])
    [(513, true, 0%nat); (2, true, 1%nat); (513, false, 2%nat); (2, true, 3%nat)]
    [(0, true, 9%nat); (0, true, 9%nat); (0, true, 9%nat); (0, true, 9%nat)] <> None /\
  builtin_kind (KList [KUint 2; KBool]) /\ has_kind (KList [KUint 2; KBool]) (Kl [Ku 513; Kb true]).
Proof.
  split; [vm_compute; discriminate|]. split.
  - apply builtin_list. constructor; [apply builtin_uint; cbn; auto|]. constructor; [apply builtin_bool|constructor].
  - repeat constructor; cbn; lia.
Qed.

(** ** C70. ska_sort sorts by the key. [sort_all] is containers::sort by the key, which ska_sort uses for small ranges and for long common
    prefixes; C67 is about containers::sort.

    This is true of at most 128 elements, with keys that are booleans, unsigned integers, tuples of keys, and ranges of booleans, of unsigned
    integers or of such ranges. *)
Theorem C70_ska_sort_partial : forall V (sort_all : list V -> list V) t (extract_key : V -> key) l,
  (forall g, sorting (fun a b => key_less (extract_key a) (extract_key b)) g (sort_all g)) ->
  simple_ranges t -> (forall v, In v l -> has_type t (extract_key v)) -> (length l <= 128)%nat ->
  exists l', ska_sort sort_all t extract_key l = Some l' /\ sorting (fun a b => key_less (extract_key a) (extract_key b)) l l'.
Proof.
  intros V sort_all t ex l Hs Ht Hv Hl. apply inplace_spec; try assumption. intros n Hn. left. lia.
Qed.
Print Assumptions C70_ska_sort_partial.
(** With other thresholds, inplace_radix_sort does so for every number of elements if american_flag_sort is never chosen. *)
Theorem C70_inplace_radix_sort_partial : forall V std_sort_threshold american_flag_sort_threshold (sort_all : list V -> list V) t (extract_key : V -> key) l,
  (american_flag_sort_threshold <= S std_sort_threshold)%nat ->
  (forall g, sorting (fun a b => key_less (extract_key a) (extract_key b)) g (sort_all g)) ->
  simple_ranges t -> (forall v, In v l -> has_type t (extract_key v)) ->
  exists l', inplace_radix_sort std_sort_threshold american_flag_sort_threshold sort_all t extract_key l = Some l' /\
    sorting (fun a b => key_less (extract_key a) (extract_key b)) l l'.
Proof. intros V std american sort_all t ex l Hth Hs Ht Hv. apply inplace_spec; try assumption. intros n Hn. lia. Qed.
Print Assumptions C70_inplace_radix_sort_partial.
(** One unsigned integer of [n] bytes, any number of elements: it is enough that, for every number [j] of at least two bytes, the elements
    that agree in all but the last [j] bytes are at most 128 or at least 1024. For integers of one byte that is no condition. *)
Theorem C70_unsigned_partial : forall V (sort_all : list V -> list V) n (key : V -> Z) l,
  (forall g, sorting (fun a b => key a <? key b) g (sort_all g)) ->
  (forall v, In v l -> 0 <= key v < 256 ^ Z.of_nat n) ->
  (forall j c, (2 <= j <= n)%nat -> let group := filter (fun v => key v / 256 ^ Z.of_nat j =? c) l in (length group <= 128 \/ 1024 <= length group)%nat) ->
  exists l', ska_sort sort_all (TUint n) (fun v => Ku (key v)) l = Some l' /\ sorting (fun a b => key a <? key b) l l'.
Proof. intros V sort_all n key l Hs Hv Hg. exact (uint_spec 128 1024 sort_all n key Hs l Hv Hg). Qed.
Print Assumptions C70_unsigned_partial.
Theorem C70_unsigned_char : forall V (sort_all : list V -> list V) (key : V -> Z) l,
  (forall g, sorting (fun a b => key a <? key b) g (sort_all g)) -> (forall v, In v l -> 0 <= key v < 256) ->
  exists l', ska_sort sort_all (TUint 1) (fun v => Ku (key v)) l = Some l' /\ sorting (fun a b => key a <? key b) l l'.
Proof. intros V sort_all key l Hs Hv. apply C70_unsigned_partial; [exact Hs|exact Hv|]. intros. lia. Qed.
Print Assumptions C70_unsigned_char.
(** american_flag_sort returns without sorting by the remaining bytes: 129, and 1023, integers of two bytes that ska_sort does not sort,
    however containers::sort behaves. *)
Definition unsorted (n : nat) : list Z := [1; 0] ++ map (fun i => 256 * (1 + Z.of_nat i mod 60)) (seq 0 (n - 2)).
Theorem C70_american_flag_refuted : forall n, In n [129; 1023]%nat -> length (unsorted n) = n /\ (forall z, In z (unsorted n) -> 0 <= z < 256 ^ 2) /\
  forall sort_all l', ska_sort sort_all (TUint 2) Ku (unsorted n) = Some l' -> ~ ordered Z.ltb l'.
Proof.
  intros n Hn. split; [|split].
  - destruct Hn as [<-|[<-|[]]]; reflexivity.
  - intros z [<-|[<-|Hz]]; [lia|lia|]. apply in_map_iff in Hz as (i & <- & _). pose proof (Z.mod_pos_bound (Z.of_nat i) 60). lia.
  - intros sort_all l' E H.
    assert (F : nth_error l' 0 = Some 1 /\ nth_error l' 1 = Some 0).
    { destruct Hn as [<-|[<-|[]]]; vm_compute in E; injection E as <-; split; reflexivity. }
    destruct F as [F0 F1]. specialize (H 0%nat 1%nat 1 0 ltac:(lia) F0 F1). discriminate.
Qed.
Print Assumptions C70_american_flag_refuted.
(** A range of pairs is compared by the first elements of the pairs only: { {1, 2} } and { {1, 1} } stay in this order. *)
Theorem C70_range_of_pairs_refuted : exists t a b, has_type t a /\ has_type t b /\ key_less b a = true /\
  forall sort_all, ska_sort sort_all t (fun v => v) [a; b] = Some [a; b].
Proof.
  exists (TRange (TTuple [TUint 1; TUint 1])), (Kl [Kl [Ku 1; Ku 2]]), (Kl [Kl [Ku 1; Ku 1]]).
  split; [repeat constructor; cbn; lia|]. split; [repeat constructor; cbn; lia|]. split; [reflexivity|]. intros. reflexivity.
Qed.
Print Assumptions C70_range_of_pairs_refuted.
Fixpoint insert_by {V} (lt : V -> V -> bool) (x : V) (l : list V) : list V := match l with [] => [x] | y :: l' => if lt y x then y :: insert_by lt x l' else x :: l end.
Definition insertion {V} (lt : V -> V -> bool) (l : list V) : list V := fold_right (insert_by lt) [] l.
Example C70_example :
  (let l := [Kl [Kl [Ku 2; Ku 1]; Kb true]; Kl [Kl [Ku 2]; Kb true]; Kl [Kl [Ku 2; Ku 0]; Kb false]; Kl [Kl [Ku 2]; Kb false]] in
  let t := TTuple [TRange (TUint 1); TBool] in
  simple_ranges t /\ (forall v, In v l -> has_type t v) /\
  ska_sort (insertion key_less) t (fun v => v) l = Some [Kl [Kl [Ku 2]; Kb false]; Kl [Kl [Ku 2]; Kb true]; Kl [Kl [Ku 2; Ku 0]; Kb false]; Kl [Kl [Ku 2; Ku 1]; Kb true]]) /\
  (let l := [Kl [Kl [Ku 2]; Kl [Ku 1; Ku 7]; Kl []]; Kl [Kl [Ku 2]; Kl [Ku 1; Ku 7]]; Kl [Kl [Ku 2]; Kl [Ku 1]; Kl [Ku 9]]; Kl [Kl []; Kl [Ku 3]]; Kl []] in
  let t := TRange (TRange (TUint 1)) in
  simple_ranges t /\ (forall v, In v l -> has_type t v) /\ ska_sort (insertion key_less) t (fun v => v) l = inplace_radix_sort 0 0 (fun l => l) t (fun v => v) l /\
  ska_sort (insertion key_less) t (fun v => v) l =
    Some [Kl []; Kl [Kl []; Kl [Ku 3]]; Kl [Kl [Ku 2]; Kl [Ku 1]; Kl [Ku 9]]; Kl [Kl [Ku 2]; Kl [Ku 1; Ku 7]]; Kl [Kl [Ku 2]; Kl [Ku 1; Ku 7]; Kl []]]) /\
  ska_sort (insertion Z.ltb) (TUint 1) Ku (map (fun i => (Z.of_nat i * 77) mod 256) (seq 0 1030)) =
    Some (insertion Z.ltb (map (fun i => (Z.of_nat i * 77) mod 256) (seq 0 1030))).
Proof.
  split.
  - cbn [In]. split; [repeat constructor|]. split; [|reflexivity].
    intros v [<-|[<-|[<-|[<-|[]]]]]; repeat (constructor; try (cbn; lia)).
  - split; [|vm_compute; reflexivity]. cbn [In]. split; [repeat constructor|]. split; [|split; reflexivity].
    intros v [<-|[<-|[<-|[<-|[<-|[]]]]]]; repeat (constructor; try (cbn; lia)).
Qed.
