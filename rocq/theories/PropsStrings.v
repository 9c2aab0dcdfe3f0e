(** * Property C132: string_view, static_string and static_null_terminated_string

    [shows m t cs] (SpecStrings.v): the text [t] is the characters [cs]. [lexicographic cmp xs ys o] (SpecSequence.v): the first difference
    decides, and a text that ends there is the smaller one. *)

From Coq Require Import List ZArith Bool Lia Permutation.
From Verif Require Import Range SpecRange Sequence SpecSequence RangeProofs SequenceProofs Strings SpecStrings StringsProofs.
From Verif Require SpecSort DoubleBuffer InplaceRadix SpecRadix.
Import ListNotations.
Local Open Scope Z_scope.

(** ** C132. A text has the characters it was made of. *)
Theorem C132_pointer : forall m p cs fuel, holds m p (cs ++ [0]) -> ~ In 0 cs -> Z.of_nat (length cs) <= max_size -> (length cs < fuel)%nat ->
  exists t, view_of_pointer fuel m p = Val t /\ shows m t cs /\ t_data t = p.
Proof.
  intros m p cs fuel H Hn Hm Hf. unfold view_of_pointer.
  rewrite (length_loop_spec m p (cs ++ [0]) 0 fuel) with (cs := cs) (tail := []); try assumption; [|intros k c Hk; apply (holds_read m p _ k c H Hk)|reflexivity].
  cbn [bind]. rewrite Z.add_0_l. unfold view_of. rewrite (proj2 (Z.leb_le _ _)), (proj2 (Z.leb_le _ _)) by lia.
  eexists. split; [reflexivity|]. split; [|reflexivity]. split; [|auto]. exact (holds_app m p cs [0] H).
Qed.
Print Assumptions C132_pointer.
Theorem C132_pointer_and_size : forall m p cs, holds m p cs -> Z.of_nat (length cs) <= max_size ->
  exists t, view_of p (Z.of_nat (length cs)) = Val t /\ shows m t cs /\ to_std t = (p, Z.of_nat (length cs)).
Proof.
  intros m p cs H Hm. unfold view_of. rewrite (proj2 (Z.leb_le _ _)), (proj2 (Z.leb_le _ _)) by lia.
  eexists. split; [reflexivity|]. split; [|reflexivity]. split; [exact H|]. cbn. auto.
Qed.
Print Assumptions C132_pointer_and_size.
(** The views of nothing, of a static text, and of a part of a text: [view_of] with what [begin(t) + i] and a size [n] give. *)
Theorem C132_views : forall m, shows m empty_view [] /\
  (forall t cs, shows m t cs -> shows m (view_of_static t) cs /\ t_data (view_of_static t) = t_data t) /\
  (forall t cs i n, shows m t cs -> (i + n <= length cs)%nat ->
     exists p part, advance m (t_data t) (Z.of_nat i) = Val p /\ view_of p (Z.of_nat n) = Val part /\ shows m part (firstn n (skipn i cs))).
Proof.
  intro m. split; [split; [reflexivity|]; cbn; unfold max_size; lia|]. split.
  - intros t cs H. split; [exact H|reflexivity].
  - intros t cs i n (H & Hs & Hm) Hi. destruct (holds_advance m (t_data t) cs (Z.of_nat i) H) as [p Hp]; [lia|]. exists p.
    assert (K : holds m p (firstn n (skipn i cs))).
    { destruct (t_data t) as [[b offset]|].
      - rewrite <- (firstn_skipn i cs) in H. pose proof (holds_skip m b offset _ _ H) as K. rewrite firstn_length, Nat.min_l in K by lia.
        assert (p = Some (b, offset + Z.of_nat i)) as ->.
        { unfold advance in Hp. destruct (nth_error m b); [|discriminate]. unfold assume in Hp. destruct (_ && _); [congruence|discriminate]. }
        rewrite <- (firstn_skipn n (skipn i cs)) in K. exact (holds_app m _ _ _ K).
      - cbn in H. subst cs. cbn in Hi. assert (i = 0%nat /\ n = 0%nat) as [-> ->] by lia. cbn in Hp. injection Hp as <-. reflexivity. }
    assert (L : length (firstn n (skipn i cs)) = n) by (rewrite firstn_length, skipn_length; lia).
    destruct (C132_pointer_and_size m p (firstn n (skipn i cs)) K) as (part & E & S & _); [rewrite L; lia|]. rewrite L in E. eauto.
Qed.
Print Assumptions C132_views.
(** The literals: "..."_s, "..."_null_terminated and "..."_sv. The characters may include null characters. *)
Theorem C132_literals : forall m cs, Z.of_nat (length cs) <= max_size ->
  (let (m', t) := literal_s m (cs ++ [0]) in shows m' t cs /\ firstn (length m) m' = m) /\
  (exists m' t, literal_null_terminated m (cs ++ [0]) = Val (m', t) /\ shows m' t cs /\ holds m' (c_str t) (cs ++ [0]) /\ firstn (length m) m' = m) /\
  (exists m' t, literal_sv m (cs ++ [0]) = Val (m', t) /\ shows m' t cs /\ firstn (length m) m' = m).
Proof.
  intros m cs Hm.
  assert (L : Z.of_nat (length (cs ++ [0])) - 1 = Z.of_nat (length cs)) by (rewrite app_length; cbn; lia).
  assert (L' : (length (cs ++ [0%Z]) - 1)%nat = length cs) by (rewrite app_length; cbn; lia).
  assert (F : forall x, firstn (length m) (m ++ x) = m) by (intro x; rewrite firstn_app, Nat.sub_diag, firstn_all; apply app_nil_r).
  assert (N : forall x : list Z, nth_error (m ++ [x]) (length m) = Some x) by (intro x; rewrite nth_error_app2, Nat.sub_diag by lia; reflexivity).
  assert (H : holds (m ++ [cs ++ [0]]) (Some (length m, 0)) (cs ++ [0])) by (exists [], []; rewrite N, app_nil_r; auto).
  split; [|split].
  - unfold literal_s, static_string. rewrite L. rewrite L'.
    rewrite firstn_app, Nat.sub_diag, firstn_all, app_nil_r. split; [|apply F]. split; [|auto]. exists [], []. cbn [app length t_data]. rewrite N, app_nil_r. auto.
  - unfold literal_null_terminated, null_terminated. replace (length (m ++ [cs ++ [0%Z]]) - 1)%nat with (length m) by (rewrite app_length; cbn; lia). rewrite L.
    rewrite (holds_read _ _ _ (length cs) 0 H) by (rewrite nth_error_app2, Nat.sub_diag by lia; reflexivity). cbn [bind]. change (assume (0 =? 0)) with (assume (A := text) true). cbn [assume bind].
    do 2 eexists. split; [reflexivity|]. split; [|split; [exact H|apply F]]. split; [|auto]. exact (holds_app _ _ _ _ H).
  - unfold literal_sv, view_of. rewrite L, (proj2 (Z.leb_le _ _)), (proj2 (Z.leb_le _ _)) by lia. cbn [andb assume bind].
    do 2 eexists. split; [reflexivity|]. split; [|apply F]. split; [|auto]. exact (holds_app _ _ _ _ H).
Qed.
Print Assumptions C132_literals.
(** An array that does not end with a null character cannot become a static_null_terminated_string. *)
Theorem C132_null_terminated : forall m n p cs, holds m p cs -> Z.of_nat (length cs) = n + 1 -> 0 <= n <= max_size ->
  (forall t, null_terminated m n p = Val t <-> t = Text p n /\ exists text, cs = text ++ [0]) /\
  ((forall text, cs <> text ++ [0]) -> null_terminated m n p = Undefined).
Proof.
  intros m n p cs H L Hn. unfold null_terminated.
  destruct (exists_last (l := cs)) as (text & c & ->); [intros ->; cbn in L; lia|]. rewrite app_length in L. cbn in L.
  replace n with (Z.of_nat (length text)) by lia.
  rewrite (holds_read m p _ (length text) c H) by (rewrite nth_error_app2, Nat.sub_diag by lia; reflexivity). cbn [bind].
  destruct (Z.eqb_spec c 0) as [->|Hc]; cbn [assume].
  - split; [|intro F; now destruct (F text)]. intro t. split; [intro E; injection E as <-; eauto|]. now intros [-> _].
  - split; [|reflexivity]. intro t. split; [discriminate|]. intros [_ [x E]]. apply app_inj_tail in E as [_ E]. contradiction.
Qed.
Print Assumptions C132_null_terminated.
Theorem C132_characters : forall m t cs, shows m t cs -> lists (characters m t) cs /\
  forall i c, nth_error cs i = Some c -> at_ m t (Z.of_nat i) = Val c.
Proof.
  intros m t cs H. split; [eexists; apply characters_lists, H|]. intros i c Hc. destruct H as [H _]. exact (holds_read m _ cs i c H Hc).
Qed.
Print Assumptions C132_characters.
(** Comparisons look at the characters only, and == agrees with <=> and with std::hash. *)
Theorem C132_compare : forall m a b xs ys fuel, shows m a xs -> shows m b ys -> (length xs < fuel)%nat ->
  exists o, compare_texts fuel m a b = Val o /\ lexicographic compare_chars xs ys o /\ (forall o', lexicographic compare_chars xs ys o' -> o' = o) /\
  exists e, equal_texts fuel m a b = Val e /\ (e = true <-> xs = ys) /\ (e = true <-> o = Equivalent).
Proof.
  intros m a b xs ys fuel Ha Hb Hf. pose proof (characters_lists m a xs Ha) as La. pose proof (characters_lists m b ys Hb) as Lb.
  exists (lexi compare_chars xs ys). split; [eapply compare_lists; eauto|]. split; [apply lexi_spec|]. split; [apply lexicographic_one|].
  eexists. split; [eapply equal_lists; eauto|].
  assert (Q : all_equal Z.eqb xs ys = true <-> xs = ys).
  { rewrite all_equal_spec. split.
    - clear. induction 1 as [|x y u v E _ IH]; [reflexivity|]. apply Z.eqb_eq in E. congruence.
    - intros ->. clear. induction ys; constructor; [apply Z.eqb_refl|assumption]. }
  split; [exact Q|]. rewrite Q, lexi_equivalent. split.
  - intros ->. clear. induction ys; constructor; [now apply of_comparison_eq|assumption].
  - clear. induction 1 as [|x y xs ys E _ IH]; [reflexivity|]. apply of_comparison_eq in E. congruence.
Qed.
Print Assumptions C132_compare.
Theorem C132_hash : forall hash m a b xs fuel, shows m a xs -> shows m b xs -> (length xs < fuel)%nat -> equal_texts fuel m a b = Val true /\
  hash_text hash m a = hash_text hash m b /\ hash_text hash m a = Val (hash xs).
Proof.
  intros hash m a b xs fuel Ha Hb Hf. split.
  - destruct (C132_compare m a b xs xs fuel Ha Hb Hf) as (o & _ & _ & _ & e & -> & He & _). f_equal. now apply He.
  - assert (K : forall t, shows m t xs -> hash_text hash m t = Val (hash xs)).
    { intros t (H & Hs & _). unfold hash_text, to_std. cbn [fst snd]. rewrite Hs, Nat2Z.id, (read_all_spec m _ xs); [reflexivity|].
      intros k c Hc. exact (holds_read m _ xs k c H Hc). }
    rewrite !K by assumption. auto.
Qed.
Print Assumptions C132_hash.

(** ** The order is that of std::string_view for ASCII texts, *)
Theorem C132_std_order_partial : forall m a b xs ys fuel, shows m a xs -> shows m b ys -> plain xs -> plain ys -> (length xs < fuel)%nat ->
  exists o, compare_texts fuel m a b = Val o /\ lexicographic std_compare_chars xs ys o.
Proof.
  intros m a b xs ys fuel Ha Hb Hx Hy Hf. destruct (C132_compare m a b xs ys fuel Ha Hb Hf) as (o & E & Ho & _). exists o. split; [exact E|]. now apply std_same.
Qed.
Print Assumptions C132_std_order_partial.
(** and not for others: the texts of the one character 0x80 and of the one character 'a'. *)
Theorem C132_std_order_refuted : exists m a b xs ys, shows m a xs /\ shows m b ys /\
  compare_texts 9 m a b = Val Less /\ lexicographic std_compare_chars xs ys Greater.
Proof.
  exists [[-128]; [97]], (Text (Some (0%nat, 0)) 1), (Text (Some (1%nat, 0)) 1), [-128], [97].
  split; [split; [exists [], []; auto|split; [reflexivity|unfold max_size; cbn; lia]]|].
  split; [split; [exists [], []; auto|split; [reflexivity|unfold max_size; cbn; lia]]|]. split; [reflexivity|].
  exists 0%nat. split; [|reflexivity]. split; [intros i Hi; lia|]. intros x y Ex Ey. injection Ex as <-. injection Ey as <-. discriminate.
Qed.
Print Assumptions C132_std_order_refuted.
(** ska_sort of texts uses the characters as unsigned integers of one byte (to_radix_sort_key), and so does not sort by [<]: 1024 texts of
    the character 'a' and 1024 of 0x80, whatever containers::sort does. *)
Definition key_of (cs : list Z) : DoubleBuffer.key := DoubleBuffer.Kl (map (fun c => DoubleBuffer.Ku (unsigned c)) cs).
Definition less (xs ys : list Z) : bool := match lexi compare_chars xs ys with Less => true | _ => false end.
Theorem C132_ska_sort_refuted : exists l l', (forall cs, In cs l -> SpecRadix.has_type (InplaceRadix.TRange (InplaceRadix.TUint 1)) (key_of cs)) /\
  (forall sort_all, InplaceRadix.ska_sort sort_all (InplaceRadix.TRange (InplaceRadix.TUint 1)) key_of l = Some l') /\ Permutation l l' /\ ~ SpecSort.ordered less l'.
Proof.
  exists (repeat [97] 1024 ++ repeat [-128] 1024), (repeat [97] 1024 ++ repeat [-128] 1024). split; [|split; [|split; [reflexivity|]]].
  - intros cs H. apply in_app_or in H as [H|H]; apply repeat_spec in H; subst cs; repeat constructor; cbn; lia.
  - intro sort_all. vm_compute. reflexivity.
  - intro H. specialize (H 1023%nat 1024%nat [97] [-128] ltac:(lia)).
    assert (A : nth_error (repeat [97] 1024 ++ repeat [-128] 1024) 1023 = Some [97]) by (vm_compute; reflexivity).
    assert (B : nth_error (repeat [97] 1024 ++ repeat [-128] 1024) 1024 = Some [-128]) by (vm_compute; reflexivity).
    specialize (H A B). discriminate.
Qed.
Print Assumptions C132_ska_sort_refuted.

(** "ab" at the beginning of a block, seen by a pointer, as a literal, and its second character. *)
Example C132_example : let m := [[97; 98; 0; 99]] in
  holds m (Some (0%nat, 0)) ([97; 98] ++ [0]) /\ view_of_pointer 9 m (Some (0%nat, 0)) = Val (Text (Some (0%nat, 0)) 2) /\
  shows m (Text (Some (0%nat, 0)) 2) [97; 98] /\ plain [97; 98] /\
  (let (m', t) := literal_s m [97; 0] in compare_texts 9 m' (Text (Some (0%nat, 0)) 2) t = Val Greater /\ equal_texts 9 m' t t = Val true) /\
  null_terminated m 2 (Some (0%nat, 0)) = Val (Text (Some (0%nat, 0)) 2) /\ null_terminated m 1 (Some (0%nat, 0)) = Undefined /\
  view_of_pointer 9 [[97; 98]] (Some (0%nat, 0)) = Undefined.
Proof.
  cbn zeta. split; [exists [], [99]; auto|]. split; [reflexivity|].
  split; [split; [exists [], [0; 99]; auto|]; cbn; unfold max_size; lia|]. split; [repeat constructor; lia|]. repeat split.
Qed.
