(** * Views whose elements are ranges, and integer ranges: properties C103 to C109 *)

From Coq Require Import List ZArith Bool Lia.
From Verif Require Import Range SpecRange Views Pieces RangeProofs ViewProofs PiecesProofs JoinProofs.
Import ListNotations.
Local Open Scope Z_scope.

(** The elements of the ranges in a range. *)
Definition visit_all {O I A} (fuel : nat) (r : range O (range I A)) : res (list (list A)) :=
  let* rs := visit fuel r in each (visit fuel) rs.

(** ** C103. join_with and join. [max_inner] and [max_joiner] are the largest sizes that the types of the ranges inside and of the
    joiner have. *)
Theorem C103_join_with : forall Out I J A (outer : range Out (range I A)) rs xss (joiner : range J A) separator fuel max_inner max_joiner,
  lists outer rs -> Forall2 lists rs xss -> lists joiner separator -> has (last joiner) = true ->
  Forall (fun xs => Z.of_nat (length xs) <= max_inner) xss -> 0 <= max_inner -> Z.of_nat (length separator) <= max_joiner ->
  (2 * length rs + 2 < fuel)%nat ->
  lists (join_with fuel max_inner max_joiner outer joiner) (joined separator xss).
Proof.
  intros Out I J A outer rs xss joiner separator fuel max_inner max_joiner [o Ho] Hr [j Hj] Hl Hi Hi0 Hm Hf. eapply join_lists; eauto.
  intros E. now rewrite E in Hl.
Qed.
Print Assumptions C103_join_with.
Theorem C103_join : forall Out I A (outer : range Out (range I A)) rs xss fuel max_inner,
  lists outer rs -> Forall2 lists rs xss -> Forall (fun xs => Z.of_nat (length xs) <= max_inner) xss -> 0 <= max_inner ->
  (2 * length rs + 2 < fuel)%nat ->
  lists (join fuel max_inner outer) (concat xss).
Proof.
  intros Out I A outer rs xss fuel max_inner Ho Hr Hi Hi0 Hf. replace (concat xss) with (joined [] xss).
  - eapply C103_join_with; eauto; try reflexivity. now apply array_lists.
  - destruct xss as [|xs xss]; [reflexivity|]. rewrite joined_cons. unfold following. cbn. now rewrite map_id.
Qed.
Print Assumptions C103_join.
Theorem C103_linear_size : forall Out I J A (outer : range Out (range I A)) rs xss (joiner : range J A) separator fuel max_size,
  lists outer rs -> Forall2 lists rs xss -> lists joiner separator ->
  Forall (fun xs => length xs + length rs < fuel)%nat xss -> (length rs + length separator < fuel)%nat ->
  Z.of_nat (length (joined separator xss)) <= max_size ->
  join_linear_size fuel max_size outer joiner = Val (Z.of_nat (length (joined separator xss))).
Proof. intros. eapply join_linear_size_lists; eauto. Qed.
Print Assumptions C103_linear_size.

Definition words : range Z (range Z Z) := array_range 4 [array_range 3 [1; 2]; array_range 3 []; array_range 3 [3]].
Example words_lists : lists words [array_range 3 [1; 2]; array_range 3 []; array_range 3 [3]] /\
  Forall2 lists [array_range 3 [1; 2]; array_range 3 []; array_range 3 [3]] [[1; 2]; []; [3]].
Proof. split; [now apply array_lists|]. repeat constructor; now apply array_lists. Qed.
Example C103_example :
  lists (join_with 20 3 2 words (array_range 2 [0; 0])) [1; 2; 0; 0; 0; 0; 3] /\
  visit 20 (join_with 20 3 2 words (array_range 2 [0; 0])) = Val [1; 2; 0; 0; 0; 0; 3] /\
  join_linear_size 20 16 words (array_range 2 [0; 0]) = Val 7 /\
  visit 20 (join 20 3 words) = Val [1; 2; 3] /\
  visit 20 (join 20 3 (array_range 4 (@nil (range Z Z)))) = Val [].
Proof.
  split; [|vm_compute; repeat split].
  destruct words_lists as [Hw Hi].
  apply (C103_join_with _ _ _ _ words _ [[1; 2]; []; [3]] (array_range 2 [0; 0]) [0; 0] 20%nat 3 2 Hw Hi); try (now apply array_lists); try reflexivity; try discriminate.
  - repeat constructor; cbn; lia.
  - cbn. lia.
Qed.

(** ** C104. split. For a delimiter that is one element, and for a delimiter that is a range of elements [ds] whose type says that it
    has at least [min] elements. Every iterator operation but <=> is right at every position; <=> is at all but the end. *)
Theorem C104_split_partial : forall I A (r : range I A) xs is_delimiter fuel,
  lists r xs -> has (same r) = true -> (length xs < fuel)%nat ->
  let view := split_view false r (single_element_delimiter fuel r is_delimiter) in
  exists it rs pss delimiters, lists_at (without_order view) it rs /\ Forall2 lists rs pss /\
    cut_by [is_delimiter] xs pss delimiters /\
    forall f i j, order view = Some f -> (i < length rs)%nat -> (j < length rs)%nat -> f (it i) (it j) = Val (Nat.compare i j).
Proof.
  intros I A r xs is_delimiter fuel [it H] Hs Hf. eapply split_lists_at; eauto.
  - intros E. now rewrite E in Hs.
  - now apply single_delimits.
Qed.
Print Assumptions C104_split_partial.
Theorem C104_split_range_partial : forall I A (r : range I A) xs (equal : A -> A -> bool) min ds fuel,
  lists r xs -> has (same r) = true -> (length xs < fuel)%nat -> ds <> [] -> min <= Z.of_nat (length ds) ->
  let view := split_view false r (range_delimiter fuel r equal min ds) in
  exists it rs pss delimiters, lists_at (without_order view) it rs /\ Forall2 lists rs pss /\
    cut_by (map (fun d x => equal x d) ds) xs pss delimiters /\
    forall f i j, order view = Some f -> (i < length rs)%nat -> (j < length rs)%nat -> f (it i) (it j) = Val (Nat.compare i j).
Proof.
  intros I A r xs equal min ds fuel [it H] Hs Hf Hd Hm. eapply split_lists_at; eauto.
  - intros E. now rewrite E in Hs.
  - apply range_delimits; auto. destruct ds; [easy|]. cbn. lia.
Qed.
Print Assumptions C104_split_range_partial.
(** When the range ends with a delimiter, the iterator to the empty piece after it is before the end and compares greater. *)
Definition seven : Z -> bool := Z.eqb 7.
Theorem C104_split_order_refuted : exists (xs : list Z), let r := array_range 3 xs in
  let view := split_view false r (single_element_delimiter 4 r seven) in
  match order view with
  | Some f => (let* a := first view in let* b := next view a in let* c := next view b in
               let* eb := stop view b in let* ec := stop view c in
               let* o := f b c in Val (eb, ec, o)) = Val (false, true, Gt)
  | None => False
  end.
Proof. exists [1; 7]. vm_compute. reflexivity. Qed.
Print Assumptions C104_split_order_refuted.
(** There is one way to cut a list by delimiters, and the pieces with the delimiters between them are the list. *)
Theorem C104_cut_once : forall A (ds : list (A -> bool)) xs ps dels ps' dels', ds <> [] ->
  cut_by ds xs ps dels -> cut_by ds xs ps' dels' -> ps = ps' /\ dels = dels' /\ concat (alternate ps dels) = xs.
Proof.
  intros A ds xs ps dels ps' dels' Hne H. revert ps' dels'. 
  assert (forall ds (xs ys : list A), begins ds xs -> begins ds (xs ++ ys)) as Hmore.
  { clear. induction ds as [|d ds IH]; [easy|]. intros [|x xs] ys Hb; [easy|]. cbn in *. split; [easy|]. now apply IH. }
  assert (forall (p q : list A) del rest, begins ds del -> (length del = length ds) -> begins ds (skipn (length p) (p ++ del ++ rest))) as Hat.
  { intros p q del rest Hb _. rewrite skipn_app, skipn_all, Nat.sub_diag. cbn. now apply Hmore. }
  induction H as [xs Hno|p del rest ps dels Hlen Hb Hno Hcut IH]; intros ps' dels' H'.
  - inversion H' as [xs' Hno'|p' del' rest' qs dels'' Hlen' Hb' Hno' Hcut' E]; subst.
    + cbn. now rewrite app_nil_r.
    + exfalso. apply (Hno (length p')). now apply Hat.
  - inversion H' as [xs' Hno'|p' del' rest' qs dels'' Hlen' Hb' Hno' Hcut' E]; subst.
    + exfalso. apply (Hno' (length p)). now apply Hat.
    + assert (length p = length p') as El.
      { destruct (Nat.lt_trichotomy (length p) (length p')) as [Hlt|[He|Hlt]]; [exfalso|exact He|exfalso].
        - apply (Hno' _ Hlt). rewrite E. now apply Hat.
        - apply (Hno _ Hlt). rewrite <- E. now apply Hat. }
      assert (p = p' /\ del' ++ rest' = del ++ rest) as [-> E'].
      { clear - E El. revert p' E El. induction p as [|x p IH]; intros [|y p'] E El; try discriminate; [auto|]. cbn in *. injection E as -> E. injection El as El.
        destruct (IH p' E El) as [-> ->]. auto. }
      assert (del = del' /\ rest' = rest) as [-> ->].
      { assert (length del = length del') as El' by congruence. clear - E' El'. revert del' E' El'. induction del as [|x p IH]; intros [|y p''] E El; try discriminate; [auto|].
        cbn in *. injection E as -> E. injection El as El. destruct (IH p'' E El) as [-> ->]. auto. }
      destruct (IH _ _ Hcut') as (-> & -> & Hc). split; [reflexivity|]. split; [reflexivity|]. cbn. now rewrite Hc.
Qed.
Print Assumptions C104_cut_once.

Definition text : range Z Z := array_range 20 [1; 7; 2; 3; 7; 7; 4; 7].
Example C104_example :
  lists text [1; 7; 2; 3; 7; 7; 4; 7] /\ has (same text) = true /\
  visit_all 20 (split_view false text (single_element_delimiter 20 text seven)) = Val [[1]; [2; 3]; []; [4]; []] /\
  cut_by [seven] [1; 7; 2; 3; 7; 7; 4; 7] [[1]; [2; 3]; []; [4]; []] [[7]; [7]; [7]; [7]] /\
  visit_all 20 (split_view false text (range_delimiter 20 text Z.eqb 2 [7; 7])) = Val [[1; 7; 2; 3]; [4; 7]] /\
  visit_all 20 (split_view false (as_forward text) (range_delimiter 20 (as_forward text) Z.eqb 2 [7; 7])) = Val [[1; 7; 2; 3]; [4; 7]].
Proof.
  split; [now apply array_lists|]. split; [reflexivity|]. split; [vm_compute; reflexivity|]. split; [|vm_compute; split; reflexivity].
  assert (forall i : nat, ~ begins [seven] (skipn i (@nil Z))) as Hnil by (intros []; cbn; tauto).
  apply (cut_more _ [1] [7]); [reflexivity|cbn; auto|intros [|i] Hi; cbn in *; [intros [Hx _]; discriminate|lia]|].
  apply (cut_more _ [2; 3] [7]); [reflexivity|cbn; auto|intros [|[|i]] Hi; cbn in *; [intros [Hx _]; discriminate|intros [Hx _]; discriminate|lia]|].
  apply (cut_more _ [] [7]); [reflexivity|cbn; auto|intros i Hi; cbn in *; lia|].
  apply (cut_more _ [4] [7]); [reflexivity|cbn; auto|intros [|i] Hi; cbn in *; [intros [Hx _]; discriminate|lia]|].
  now apply cut_last.
Qed.

(** ** C105. split_keep_delimiters: the pieces and the delimiters in turn *)
Theorem C105_split_keep_partial : forall I A (r : range I A) xs is_delimiter fuel,
  lists r xs -> has (same r) = true -> (length xs < fuel)%nat ->
  exists it rs pss delimiters,
    lists_at (without_comparison (split_view true r (single_element_delimiter fuel r is_delimiter))) it rs /\
    Forall2 lists rs (alternate pss delimiters) /\ cut_by [is_delimiter] xs pss delimiters.
Proof.
  intros I A r xs is_delimiter fuel [it H] Hs Hf. eapply keep_lists_at; eauto.
  - intros E. now rewrite E in Hs.
  - now apply single_delimits.
Qed.
Print Assumptions C105_split_keep_partial.
Theorem C105_split_keep_range_partial : forall I A (r : range I A) xs (equal : A -> A -> bool) min ds fuel,
  lists r xs -> has (same r) = true -> (length xs < fuel)%nat -> ds <> [] -> min <= Z.of_nat (length ds) ->
  exists it rs pss delimiters,
    lists_at (without_comparison (split_view true r (range_delimiter fuel r equal min ds))) it rs /\
    Forall2 lists rs (alternate pss delimiters) /\ cut_by (map (fun d x => equal x d) ds) xs pss delimiters.
Proof.
  intros I A r xs equal min ds fuel [it H] Hs Hf Hd Hm. eapply keep_lists_at; eauto.
  - intros E. now rewrite E in Hs.
  - apply range_delimits; auto. destruct ds; [easy|]. cbn. lia.
Qed.
Print Assumptions C105_split_keep_range_partial.
(** The iterators to an empty piece and to the delimiter after it compare equal. *)
Theorem C105_split_keep_equal_refuted : exists (xs : list Z), let r := array_range 3 xs in
  let view := split_view true r (single_element_delimiter 4 r seven) in
  match same view with
  | Some f => (let* a := first view in let* b := next view a in
               let* x := get view a in let* x := visit 4 x in let* y := get view b in let* y := visit 4 y in
               let* e := f a b in Val (x, y, e)) = Val ([], [7], true)
  | None => False
  end.
Proof. exists [7; 1]. vm_compute. reflexivity. Qed.
Print Assumptions C105_split_keep_equal_refuted.

Example C105_example : lists text [1; 7; 2; 3; 7; 7; 4; 7] /\ has (same text) = true /\
  visit_all 20 (split_view true text (single_element_delimiter 20 text seven)) = Val [[1]; [7]; [2; 3]; [7]; []; [7]; [4]; [7]; []] /\
  visit_all 20 (split_view true text (range_delimiter 20 text Z.eqb 2 [7; 7])) = Val [[1; 7; 2; 3]; [7; 7]; [4; 7]].
Proof. split; [now apply array_lists|]. vm_compute. repeat split. Qed.

(** ** C106. chunk_by: the pieces are not empty and together the range; consecutive elements are in one piece when they are related *)
Theorem C106_chunk_by : forall I A (r : range I A) xs (p : A -> A -> bool) fuel,
  lists r xs -> has (same r) = true -> (length xs < fuel)%nat ->
  exists rs pss, lists (chunk_by fuel p r) rs /\ Forall2 lists rs pss /\ concat pss = xs /\ Forall (linked p) pss /\ breaks p pss.
Proof.
  intros I A r xs p fuel [it H] Hs Hf. eapply chunk_by_lists; eauto. intros E. now rewrite E in Hs.
Qed.
Print Assumptions C106_chunk_by.
Example C106_example : lists text [1; 7; 2; 3; 7; 7; 4; 7] /\ has (same text) = true /\
  visit_all 20 (chunk_by 20 Z.leb text) = Val [[1; 7]; [2; 3; 7; 7]; [4; 7]] /\
  linked Z.leb [2; 3; 7; 7] /\ breaks Z.leb [[1; 7]; [2; 3; 7; 7]; [4; 7]].
Proof.
  split; [now apply array_lists|]. split; [reflexivity|]. split; [vm_compute; reflexivity|]. split; [cbn; auto|].
  cbn. repeat split; try discriminate; [exists [2; 3; 7], 7|exists [1], 7]; auto.
Qed.

(** ** C107. adjacent<g>: the groups of g consecutive elements. Differences of iterators are right only when difference_type has room
    for one more than the size, or when there is no group. *)
Theorem C107_adjacent_partial : forall I A (r : range I A) xs g, lists r xs -> (0 < g)%nat ->
  lists (without_difference (reach r) (adjacent g r)) (windows g xs) /\
  ((length xs < g)%nat \/ Z.of_nat (length xs) < reach r -> lists (adjacent g r) (windows g xs)).
Proof.
  intros I A r xs g [it H] Hg. split; [eexists; eapply adjacent_lists_at; eauto|]. intros Hr. eexists. eapply adjacent_lists_at_all; eauto.
Qed.
Print Assumptions C107_adjacent_partial.
(** For an array of three elements, end - begin of its pairs is undefined: there are two, and difference_type goes up to one. *)
Theorem C107_difference_refuted : exists (xs : list Z), let r := array_range (Z.of_nat (length xs)) xs in
  lists r xs /\
  match minus (adjacent 2 r) with
  | Some f => (let* a := first (adjacent 2 r) in let* b := next (adjacent 2 r) a in let* c := next (adjacent 2 r) b in
               let* e := stop (adjacent 2 r) c in if e then f c a else Val 0) = Undefined
  | None => False
  end.
Proof. exists [1; 2; 3]. split; [now apply array_lists|]. vm_compute. reflexivity. Qed.
Print Assumptions C107_difference_refuted.
Theorem C107_windows : forall A (xs : list A) g, (0 < g)%nat ->
  length (windows g xs) = (length xs + 1 - g)%nat /\
  forall i, (i + g <= length xs)%nat -> nth_error (windows g xs) i = Some (firstn g (skipn i xs)).
Proof. intros A xs g Hg. split; [now apply windows_length|]. intros. now apply windows_nth. Qed.
Print Assumptions C107_windows.
Example C107_example : lists text [1; 7; 2; 3; 7; 7; 4; 7] /\ 8 < reach text /\
  visit 20 (adjacent 3 text) = Val [[1; 7; 2]; [7; 2; 3]; [2; 3; 7]; [3; 7; 7]; [7; 7; 4]; [7; 4; 7]] /\
  visit 20 (adjacent 9 (as_forward text)) = Val [] /\
  windows 3 [1; 7; 2; 3] = [[1; 7; 2]; [7; 2; 3]].
Proof. split; [now apply array_lists|]. vm_compute. repeat split. Qed.

(** ** C108. batched: [batches] ranges that together are the range, the larger ones first. [max_count] is the largest value of the
    type of the number of batches. *)
Theorem C108_batched : forall I A (r : range I A) xs batches max_count z,
  lists r xs -> has (same r) = true -> (0 < batches)%nat -> Z.of_nat batches <= max_count ->
  batched max_count (Z.of_nat batches) r = Some z ->
  exists rs pss, lists z rs /\ Forall2 lists rs pss /\ concat pss = xs /\
    abilities z = [true; false; true; true; true; true; true; true] /\
    map (@length A) pss =
      map (fun b => (length xs / batches + (if Nat.ltb b (length xs mod batches) then 1 else 0))%nat) (seq 0 batches).
Proof.
  intros I A r xs batches max_count z [it H] Hs Hb Hm Hz. destruct (batched_lists_at r it xs batches max_count H ltac:(intros E; now rewrite E in Hs) Hb Hm z Hz) as [Hl Hp].
  do 2 eexists. split; [eexists; exact Hl|]. split; [exact Hp|]. split; [now apply batches_all|]. split; [|now apply batches_sizes].
  unfold batched in Hz. destruct (size r), (plus r); try discriminate. now injection Hz as <-.
Qed.
Print Assumptions C108_batched.
Example C108_example : lists text [1; 7; 2; 3; 7; 7; 4; 7] /\ has (same text) = true /\
  match batched 10 3 text with Some z => visit_all 20 z = Val [[1; 7; 2]; [3; 7; 7]; [4; 7]] /\ size z = Some (Val 3) | None => False end.
Proof. split; [now apply array_lists|]. vm_compute. repeat split. Qed.

(** ** C109. integer_range and inclusive_integer_range. The type of the values has [min] as its least value, that of the end has [max] as its
    largest, that of the step [min_step] as its least. The largest difference has to be at least one. *)
Theorem C109_integer_range_partial : forall min max min_step f l step n,
  1 <= min_step <= step -> min <= f -> l <= max -> l = f + Z.of_nat n * step -> min + min_step <= max ->
  exists r, integer_range min max min_step f l step = Val r /\ lists r (progression f step n) /\
    abilities r = [true; true; true; true; true; true; true; true].
Proof.
  intros min max min_step f l step n Hs Hf Hl Hn Hr. destruct (integer_range_lists_at min max min_step f l step n Hs Hf Hl Hn Hr) as (r & E & H).
  exists r. split; [exact E|]. split; [eexists; exact H|]. unfold integer_range in E. unfold assume in E. destruct (Z.rem _ _ =? 0); [|discriminate]. injection E as <-. reflexivity.
Qed.
Print Assumptions C109_integer_range_partial.
Theorem C109_inclusive : forall min max min_step max_step f l step n,
  1 <= min_step <= step -> step <= max_step -> min <= f -> l <= max -> l = f + Z.of_nat n * step ->
  exists r, inclusive_integer_range min max min_step max_step f l step = Val r /\ lists r (progression f step (S n)).
Proof.
  intros min max min_step max_step f l step n Hs Hm Hf Hl Hn. unfold inclusive_integer_range.
  assert (0 <= Z.of_nat n * step) by (apply Z.mul_nonneg_nonneg; lia).
  destruct (integer_range_lists_at min (max + max_step) min_step f (l + step) step (S n)) as (r & E & H1); try lia. exists r. split; [exact E|eexists; exact H1].
Qed.
Print Assumptions C109_inclusive.
(** An end that is not reached is refused, in a build with assertions. *)
Theorem C109_unreachable : forall min max min_step f l step, 1 <= step -> f <= l -> (l - f) mod step <> 0 ->
  integer_range min max min_step f l step = Undefined.
Proof.
  intros min max min_step f l step Hs Hl Hn. unfold integer_range, assume. rewrite Z.rem_mod_nonneg by lia.
  destruct (Z.eqb_spec ((l - f) mod step) 0); [contradiction|reflexivity].
Qed.
Print Assumptions C109_unreachable.
(** In a range whose type has no values, such as integer_range(0_bi), adding 0 to an iterator is undefined. *)
Theorem C109_offset_refuted : exists r, integer_range 0 0 1 0 0 1 = Val r /\
  match plus r, first r with
  | Some p, Val b => stop r b = Val true /\ p b 0 = Undefined
  | _, _ => False
  end.
Proof. eexists. split; [reflexivity|]. vm_compute. split; reflexivity. Qed.
Print Assumptions C109_offset_refuted.
Example C109_example :
  (let* r := integer_range 0 10 2 1 9 2 in visit 20 r) = Val [1; 3; 5; 7] /\ progression 1 2 4 = [1; 3; 5; 7] /\
  (let* r := inclusive_integer_range 0 10 2 2 1 9 2 in visit 20 r) = Val [1; 3; 5; 7; 9] /\
  (let* r := integer_range 0 10 2 1 9 2 in match size r with Some s => s | None => Undefined end) = Val 4 /\
  integer_range 0 10 2 1 8 2 = Undefined.
Proof. vm_compute. repeat split. Qed.
