(** * inplace_radix_sort sorts, as long as american_flag_sort has nothing left to do when it returns *)

From Coq Require Import List Arith Bool Permutation Lia ZArith.
From Verif Require Import Mem MemLemmas SpecSort SortLemmas AlgoProofs DoubleBuffer RadixLemmas DoubleBufferProofs SpecRadix InplaceRadix InplaceProofs InplaceProofs2 InplaceProofs3.
Import ListNotations.
Local Open Scope nat_scope.

Section Radix.
Context {V : Type} (lt : V -> V -> bool) (std american : nat) (sort_all : list V -> list V).
Context (Hall : forall l, sorting lt l (sort_all l)).

(** Among the elements of [l], [r] is the order. *)
Definition agree (r : V -> V -> bool) (l : list V) : Prop := forall a b, In a l -> In b l -> lt a b = r a b.
Definition sorts (f : list V -> option (list V)) (l : list V) : Prop := exists l', f l = Some l' /\ sorting lt l l'.
Definition part_of (g l : list V) : Prop := exists rest, Permutation l (g ++ rest).
Definition closed (P : list V -> Prop) : Prop := forall l g, P l -> part_of g l -> P g.

Lemma part_in g l v : part_of g l -> In v g -> In v l.
Proof. intros [rest P] H. eapply Permutation_in; [symmetry; exact P|]. apply in_or_app. now left. Qed.
Lemma part_length g l : part_of g l -> length g <= length l.
Proof. intros [rest P]. rewrite (Permutation_length P), app_length. lia. Qed.
Lemma agree_part r l g : agree r l -> part_of g l -> agree r g.
Proof. intros H Hp a b Ha Hb. apply H; eapply part_in; eauto. Qed.
Lemma filter_split {A} (f : A -> bool) l : Permutation l (filter f l ++ filter (fun a => negb (f a)) l).
Proof.
  induction l as [|a l IH]; [reflexivity|]. cbn. destruct (f a); cbn; [now apply perm_skip|].
  etransitivity; [apply perm_skip, IH|]. apply Permutation_middle.
Qed.
Lemma part_group (d : V -> nat) i l g : Permutation g (group d i l) -> part_of g l.
Proof. intro P. exists (filter (fun v => negb (d v =? i)) l). etransitivity; [apply (filter_split (fun v => d v =? i))|]. apply Permutation_app_tail. now symmetry. Qed.
Lemma short_sorting l : length l <= 1 -> sorting lt l l.
Proof. intro H. split; [reflexivity|]. intros i j a b Hij Ha Hb. assert (j < length l) by (apply nth_error_Some; congruence). lia. Qed.
Lemma equal_sorting l : agree (fun _ _ => false) l -> sorting lt l l.
Proof. intro H. split; [reflexivity|]. intros i j a b Hij Ha Hb. apply H; eapply nth_error_In; eauto. Qed.

(** ** Unsigned integers *)
Section Uint.
Context (key : V -> Z).
Definition low (k : nat) : V -> V -> bool := by_mod key k.

(** All bytes above [k] are the same; then the order is that of the lower ones, then [r]. *)
Fixpoint fine (k : nat) (P : list V -> Prop) (l : list V) : Prop :=
  match k with
  | 0 => P l
  | S k =>
      (length l <= std \/ american <= length l \/ (forall a b, In a l -> In b l -> digit (key a) k <= digit (key b) k -> lt b a = false)) /\
      forall i g, Permutation g (group (fun v => digit (key v) k) i l) -> 1 < length g -> fine k P g
  end.

Lemma lex_low_S k r a b : lex (low (S k)) r a b = lex (by_d (fun v => digit (key v) k)) (lex (low k) r) a b.
Proof.
  unfold low. transitivity (lex (lex (by_d (fun v => digit (key v) k)) (by_mod key k)) r a b).
  - unfold lex at 1 2. rewrite <- !by_mod_S. reflexivity.
  - unfold lex. destruct (by_d _ a b), (by_d _ b a), (by_mod key k a b), (by_mod key k b a), (r a b); reflexivity.
Qed.

Lemma sort_selector_spec (r : V -> V -> bool) (P : list V -> Prop) (next : list V -> option (list V)) :
  (forall g, P g -> agree r g -> sorts next g) ->
  forall k l, agree (lex (low k) r) l -> fine k P l -> sorts (sort_selector std american sort_all k key next) l.
Proof.
  intro Hnext. induction k as [|k IH]; intros l Ha Hf; cbn [sort_selector fine] in *.
  - apply Hnext; [exact Hf|]. intros a b Hia Hib. rewrite Ha by assumption. unfold lex, low, by_mod. cbn. now rewrite !Z.mod_1_r.
  - destruct Hf as [Hsize Hf]. unfold sorts.
    set (d := fun v => digit (key v) k) in *.
    assert (Hd : forall v, In v l -> d v < 256) by (intros; apply digit_small).
    assert (Hlt : forall a b, In a l -> In b l -> d a < d b -> lt b a = false).
    { intros a b Hia Hib H. rewrite Ha, lex_low_S by assumption. fold d. unfold lex at 1. unfold by_d.
      destruct (Nat.ltb_spec (d b) (d a)); [lia|]. destruct (Nat.ltb_spec (d a) (d b)); [reflexivity|lia]. }
    assert (Hsub : forall i g, i < 256 -> 1 < length g -> Permutation g (group d i l) ->
      exists g', sort_selector std american sort_all k key next g = Some g' /\ sorting lt g g').
    { intros i g Hi Hg Hp. apply IH; [|apply (Hf i); assumption].
      intros a b Hia Hib.
      pose proof (Permutation_in a Hp Hia) as Ka. pose proof (Permutation_in b Hp Hib) as Kb. apply in_group in Ka as [Ka1 Ka2], Kb as [Kb1 Kb2].
      rewrite Ha, lex_low_S by assumption. fold d. unfold lex at 1. unfold by_d. rewrite Ka2, Kb2, Nat.ltb_irrefl. reflexivity. }
    destruct (Nat.leb_spec (length l) std) as [T|T]; [exists (sort_all l); split; [reflexivity|apply Hall]|].
    destruct (Nat.ltb_spec (length l) american) as [T'|T'].
    + apply american_flag_sort_spec; [exact Hd| |exact Hsub]. destruct Hsize as [H|[H|H]]; [lia|lia|exact H].
    + apply ska_byte_sort_spec; assumption.
Qed.
End Uint.

(** ** Any key: no range has a size for which american_flag_sort is used. *)
Definition scalar_lt {A} (s : scalar A) (a b : A) : bool :=
  match s with Bool f => negb (f a) && f b | Uint _ f => (f a <? f b)%Z end.
Definition scalar_ok {A} (s : scalar A) (a : A) : Prop :=
  match s with Bool _ => True | Uint n f => (0 <= f a < 256 ^ Z.of_nat n)%Z end.
Lemma scalar_of_lt {A B} (g : A -> B) s a b : scalar_lt (scalar_of g s) a b = scalar_lt s (g a) (g b).
Proof. destruct s; reflexivity. Qed.
Lemma scalar_of_ok {A B} (g : A -> B) s a : scalar_ok (scalar_of g s) a <-> scalar_ok s (g a).
Proof. destruct s; reflexivity. Qed.
Lemma same_key_lt {A} (s : scalar A) a b : same_key s a b = true <-> scalar_lt s a b = false /\ scalar_lt s b a = false.
Proof.
  destruct s as [f|n f]; cbn.
  - destruct (f a), (f b); cbn; intuition congruence.
  - rewrite Z.eqb_eq, !Z.ltb_ge. lia.
Qed.

Lemma part_firstn n (l l' : list V) : Permutation l l' -> part_of (firstn n l') l.
Proof. intro P. exists (skipn n l'). now rewrite firstn_skipn. Qed.
Lemma part_skipn n (l l' : list V) : Permutation l l' -> part_of (skipn n l') l.
Proof. intro P. exists (firstn n l'). rewrite Permutation_app_comm, firstn_skipn. exact P. Qed.
Lemma sorting_join l l' n a b : Permutation l l' -> sorting lt (firstn n l') a -> sorting lt (skipn n l') b ->
  (forall x y, In x (firstn n l') -> In y (skipn n l') -> lt y x = false) -> sorting lt l (a ++ b).
Proof.
  intros P [Pa Oa] [Pb Ob] H. split.
  - etransitivity; [exact P|]. rewrite <- (firstn_skipn n l') at 1. now apply Permutation_app.
  - apply ordered_app. split; [exact Oa|]. split; [exact Ob|]. intros x y Hx Hy. apply H.
    + eapply Permutation_in; [symmetry; exact Pa|exact Hx].
    + eapply Permutation_in; [symmetry; exact Pb|exact Hy].
Qed.

Section Scalar.
Context (P : list V -> Prop) (HP : closed P) (Hsize : forall l, P l -> length l <= std \/ american <= length l).

Lemma fine_closed key k : forall l, P l -> fine key k P l.
Proof.
  induction k as [|k IH]; intros l Hl; cbn [fine]; [exact Hl|]. split.
  - destruct (Hsize l Hl); auto.
  - intros i g Hg _. apply IH. eapply HP; [exact Hl|]. eapply part_group, Hg.
Qed.
Lemma bool_sort_spec f r next : (forall g, P g -> agree r g -> sorts next g) ->
  forall l, P l -> agree (lex (scalar_lt (Bool f)) r) l -> sorts (bool_sort f next) l.
Proof.
  intros Hnext l Hl Ha. unfold sorts, bool_sort.
  destruct (pure_partition (fun v => negb (f v)) l) as (n & l' & -> & Hn & Hp & Hy & Hno).
  pose proof (part_firstn n l l' Hp) as P1. pose proof (part_skipn n l l' Hp) as P2.
  pose proof (fun v => part_in _ _ v P1) as In1. pose proof (fun v => part_in _ _ v P2) as In2.
  destruct (Hnext (firstn n l')) as (a & -> & Sa).
  - eapply HP; eauto.
  - intros x y Hx Hy'. rewrite Ha by auto. unfold lex. cbn.
    pose proof (Hy x Hx) as Fx. pose proof (Hy y Hy') as Fy. apply negb_true_iff in Fx, Fy. rewrite Fx, Fy. reflexivity.
  - destruct (Hnext (skipn n l')) as (b & -> & Sb).
    + eapply HP; eauto.
    + intros x y Hx Hy'. rewrite Ha by auto. unfold lex. cbn.
      pose proof (Hno x Hx) as Fx. pose proof (Hno y Hy') as Fy. apply negb_false_iff in Fx, Fy. rewrite Fx, Fy. reflexivity.
    + exists (a ++ b). split; [reflexivity|]. eapply sorting_join; eauto.
      intros x y Hx Hy'. rewrite Ha by auto. unfold lex. cbn.
      pose proof (Hy x Hx) as Fx. pose proof (Hno y Hy') as Fy. apply negb_true_iff in Fx. apply negb_false_iff in Fy. rewrite Fx, Fy. reflexivity.
Qed.
Lemma scalar_sort_spec s r next : (forall g, P g -> agree r g -> sorts next g) ->
  forall l, P l -> (forall v, In v l -> scalar_ok s v) -> agree (lex (scalar_lt s) r) l -> sorts (scalar_sort std american sort_all s next) l.
Proof.
  intros Hnext l Hl Hok Ha. destruct s as [f|n f]; cbn [scalar_sort].
  - eapply bool_sort_spec; eauto.
  - eapply sort_selector_spec; [exact Hnext| |apply fine_closed, Hl].
    intros a b Hia Hib. rewrite Ha by assumption. unfold lex, low, by_mod. cbn [scalar_lt].
    cbn [scalar_ok] in Hok. rewrite !Z.mod_small by auto. reflexivity.
Qed.
End Scalar.

(** ** Ranges *)
Definition seq_lt {A} (lt_e : A -> A -> bool) : list A -> list A -> bool :=
  fix go (x y : list A) : bool := match x, y with
  | a :: x, b :: y => lt_e a b || (negb (lt_e b a) && go x y)
  | [], _ :: _ => true
  | _, [] => false
  end.

Lemma same_key_sym {A} (q : scalar A) a b : same_key q a b = same_key q b a.
Proof. destruct q; cbn; [destruct (f a), (f b); reflexivity|apply Z.eqb_sym]. Qed.
Lemma same_key_trans {A} (q : scalar A) a b c : same_key q a b = true -> same_key q b c = true -> same_key q a c = true.
Proof. destruct q; cbn; [destruct (f a), (f b), (f c); cbn; congruence|rewrite !Z.eqb_eq; congruence]. Qed.

Lemma same_value_spec : forall a b, same_value a b = true <-> a = b.
Proof.
  fix IH 1. intros [p|p|x] [q|q|y]; cbn [same_value]; try (split; discriminate).
  - rewrite eqb_true_iff. split; congruence.
  - rewrite Z.eqb_eq. split; congruence.
  - transitivity (x = y); [|split; congruence]. revert y. induction x as [|a x IHx]; intros [|b y]; try (split; [discriminate|discriminate] || easy).
    rewrite andb_true_iff, IH, IHx. split; [intros []; congruence|intro H; injection H; auto].
Qed.
(** A way to sort by an element: for every function that gives the element. *)
Definition element_sorts (lt_e : DoubleBuffer.key -> DoubleBuffer.key -> bool) (ok_e : DoubleBuffer.key -> Prop)
    (sort_e : (V -> DoubleBuffer.key) -> (list V -> option (list V)) -> list V -> option (list V)) : Prop :=
  forall get (P : list V -> Prop) r next, closed P -> (forall l, P l -> length l <= std \/ american <= length l) ->
  (forall g, P g -> agree r g -> sorts next g) ->
  forall l, P l -> (forall v, In v l -> ok_e (get v)) -> agree (lex (fun a b => lt_e (get a) (get b)) r) l -> sorts (sort_e get next) l.
(** [==] of elements *)
Definition equality (lt_e : DoubleBuffer.key -> DoubleBuffer.key -> bool) (same : DoubleBuffer.key -> DoubleBuffer.key -> bool) : Prop :=
  (forall a, same a a = true) /\ (forall a b, same a b = same b a) /\ (forall a b c, same a b = true -> same b c = true -> same a c = true) /\
  (forall a b, same a b = true -> lt_e a b = false).

Section Ranges.
Context (P : list V -> Prop) (HP : closed P) (Hsize : forall l, P l -> length l <= std \/ american <= length l).
Context (key : V -> list key) (lt_e same : DoubleBuffer.key -> DoubleBuffer.key -> bool) (ok_e : DoubleBuffer.key -> Prop).
Context (sort_e : (V -> DoubleBuffer.key) -> (list V -> option (list V)) -> list V -> option (list V)).
Context (Hsame : equality lt_e same) (Hsort : element_sorts lt_e ok_e sort_e).
Definition from (i : nat) (a b : V) : bool := seq_lt lt_e (skipn i (key a)) (skipn i (key b)).

(** The first [n] elements are the same. *)
Definition same_start (n : nat) (x y : list DoubleBuffer.key) : Prop :=
  n <= length x /\ n <= length y /\ forall k a b, k < n -> nth_error x k = Some a -> nth_error y k = Some b -> same a b = true.
Lemma match_length_spec x : forall y n, n <= match_length same x y -> same_start n x y.
Proof.
  induction x as [|a x IH]; intros [|b y] n H; cbn [match_length] in H; try (assert (n = 0) as -> by lia; split; [lia|]; split; [lia|]; lia).
  destruct (same a b) eqn:E; [|assert (n = 0) as -> by lia; split; [lia|]; split; [lia|]; lia].
  destruct n as [|n]; [split; [lia|]; split; [lia|]; lia|].
  destruct (IH y n ltac:(lia)) as (H1 & H2 & H3). split; [cbn; lia|]. split; [cbn; lia|].
  intros [|k] a' b' Hk Ha Hb; cbn in Ha, Hb; [congruence|]. apply (H3 k); [lia|assumption|assumption].
Qed.
Lemma same_start_refl n x : n <= length x -> same_start n x x.
Proof. intro H. split; [exact H|]. split; [exact H|]. intros k a b _ Ha Hb. assert (a = b) as -> by congruence. apply Hsame. Qed.
Lemma same_start_via n f x y : same_start n f x -> same_start n f y -> same_start n x y.
Proof.
  intros (H1 & H2 & H3) (K1 & K2 & K3). split; [exact H2|]. split; [exact K2|]. intros k a b Hk Ha Hb.
  destruct (nth_error f k) as [c|] eqn:E; [|apply nth_error_None in E; lia].
  destruct Hsame as (_ & Hsym & Htrans & _). apply Htrans with c; [rewrite Hsym; apply (H3 k c a); assumption|apply (K3 k c b); assumption].
Qed.
Lemma same_start_lt n : forall x y, same_start n x y -> seq_lt lt_e x y = seq_lt lt_e (skipn n x) (skipn n y).
Proof.
  induction n as [|n IH]; intros x y (H1 & H2 & H3); [reflexivity|].
  destruct x as [|a x], y as [|b y]; cbn in H1, H2; try lia. cbn [skipn seq_lt].
  pose proof (H3 0 a b ltac:(lia) eq_refl eq_refl) as E. destruct Hsame as (_ & Hsym & _ & Hnot). rewrite (Hnot a b E), (Hnot b a (eq_trans (Hsym b a) E)). cbn [orb negb andb].
  apply IH. split; [lia|]. split; [lia|]. intros k a' b' Hk Ha Hb. apply (H3 (S k)); [lia|assumption|assumption].
Qed.
Lemma skipn_skipn {A} i : forall n (x : list A), skipn n (skipn i x) = skipn (i + n) x.
Proof. induction i as [|i IH]; intros n x; [reflexivity|]. destruct x; cbn; [now rewrite skipn_nil|apply IH]. Qed.

Lemma common_prefix_spec i l : (forall v, In v l -> i <= length (key v)) ->
  exists n, common_prefix key same l i = Some n /\
    forall a b, In a l -> In b l -> i + n <= length (key a) /\ from i a b = from (i + n) a b.
Proof.
  intro Hi. destruct l as [|f l]; [exists 0; split; [reflexivity|contradiction]|]. unfold common_prefix.
  assert (E : forallb (fun v => i <=? length (key v)) (f :: l) = true) by (apply forallb_forall; intros v Hv; apply Nat.leb_le, Hi, Hv).
  rewrite E. eexists. split; [reflexivity|].
  set (step := fun largest v => Nat.min largest (match_length same (skipn i (key f)) (skipn i (key v)))).
  assert (K : forall r m, fold_left step r m <= m /\ forall v, In v r -> fold_left step r m <= match_length same (skipn i (key f)) (skipn i (key v))).
  { induction r as [|u r IHr]; intro m; cbn [fold_left]; [split; [lia|contradiction]|].
    destruct (IHr (step m u)) as [K1 K2]. assert (Hu : step m u = Nat.min m (match_length same (skipn i (key f)) (skipn i (key u)))) by reflexivity.
    split; [lia|]. intros v [<-|Hv]; [lia|auto]. }
  destruct (K l (length (key f) - i)) as [K1 K2]. set (n := fold_left step l (length (key f) - i)) in *.
  assert (Hs : forall v, In v (f :: l) -> same_start n (skipn i (key f)) (skipn i (key v))).
  { intros v [<-|Hv]; [apply same_start_refl; rewrite skipn_length; lia|]. apply match_length_spec, K2, Hv. }
  intros a b Ha Hb. split.
  - destruct (Hs a Ha) as (_ & H & _). rewrite skipn_length in H. specialize (Hi a Ha). lia.
  - unfold from. rewrite (same_start_lt n) by (eapply same_start_via; eauto). now rewrite !skipn_skipn.
Qed.

Lemma skipn_cons i (x : list DoubleBuffer.key) : i < length x -> skipn i x = nth i x (Kb false) :: skipn (S i) x.
Proof. revert x. induction i as [|i IH]; intros [|a x] H; cbn in H; try lia; [reflexivity|]. apply IH. lia. Qed.

Lemma list_sort_spec r next : (forall g, P g -> agree r g -> sorts next g) ->
  forall limit i l, P l -> (forall v, In v l -> i <= length (key v)) -> (forall v e, In v l -> In e (key v) -> ok_e e) ->
  agree (lex (from i) r) l -> sorts (list_sort sort_all limit key same sort_e next i) l.
Proof.
  intro Hnext. induction limit as [|limit IH]; intros i l Hl Hi Hok Ha; unfold sorts; cbn [list_sort].
  - exists (sort_all l). split; [reflexivity|apply Hall].
  - destruct (common_prefix_spec i l Hi) as (n & -> & Hcp).
    set (j := i + n) in *.
    destruct (pure_partition (fun v => length (key v) <=? j) l) as (m & l' & -> & Hm & Hp & Hy & Hno).
    pose proof (part_firstn m l l' Hp) as P1. pose proof (part_skipn m l l' Hp) as P2.
    pose proof (fun v => part_in _ _ v P1) as In1. pose proof (fun v => part_in _ _ v P2) as In2.
    assert (Hj : agree (lex (from j) r) l).
    { intros a b Hia Hib. rewrite Ha by assumption. unfold lex. rewrite (proj2 (Hcp a b Hia Hib)), (proj2 (Hcp b a Hib Hia)). reflexivity. }
    assert (Hshort : forall v, In v (firstn m l') -> skipn j (key v) = []).
    { intros v Hv. apply skipn_all2. apply Nat.leb_le, Hy, Hv. }
    assert (Hlong : forall v, In v (skipn m l') -> j < length (key v)).
    { intros v Hv. pose proof (Hno v Hv) as H. apply Nat.leb_gt in H. exact H. }
    assert (S1 : exists a, (if 1 <? length (firstn m l') then next (firstn m l') else Some (firstn m l')) = Some a /\ sorting lt (firstn m l') a).
    { destruct (Nat.ltb_spec 1 (length (firstn m l'))) as [T|T]; [|eexists; split; [reflexivity|apply short_sorting, T]].
      apply Hnext; [eapply HP; eauto|]. intros x y Hx Hy'. rewrite Hj by auto. unfold lex, from. rewrite !Hshort by assumption. reflexivity. }
    assert (S2 : exists b, (if 1 <? length (skipn m l') then sort_e (nth_key key j)
        (list_sort sort_all limit key same sort_e next (S j)) (skipn m l') else Some (skipn m l')) = Some b /\ sorting lt (skipn m l') b).
    { destruct (Nat.ltb_spec 1 (length (skipn m l'))) as [T|T]; [|eexists; split; [reflexivity|apply short_sorting, T]].
      apply (Hsort (nth_key key j) (fun g => P g /\ (forall v, In v g -> S j <= length (key v)) /\ forall v e, In v g -> In e (key v) -> ok_e e)) with (r := lex (from (S j)) r).
      - intros l1 g (H1 & H2 & H3) Hg. split; [eapply HP; eauto|]. split; [intros v Hv; apply H2; eapply part_in; eauto|].
        intros v e Hv. apply H3. eapply part_in; eauto.
      - intros l1 (H1 & _). apply Hsize, H1.
      - intros g (H1 & H2 & H3) Hg. apply IH; assumption.
      - split; [eapply HP; eauto|]. split; [intros v Hv; apply Hlong in Hv; lia|]. intros v e Hv. apply Hok. auto.
      - intros v Hv. unfold nth_key. apply (Hok v); [auto|]. apply nth_In, Hlong, Hv.
      - intros x y Hx Hy'. rewrite Hj by auto. unfold lex, from, nth_key.
        rewrite (skipn_cons j (key x)), (skipn_cons j (key y)) by auto. cbn [seq_lt].
        destruct (lt_e (nth j (key x) (Kb false)) (nth j (key y) (Kb false))),
          (lt_e (nth j (key y) (Kb false)) (nth j (key x) (Kb false))); cbn [orb andb negb]; reflexivity. }
    destruct S1 as (a & -> & Sa). destruct S2 as (b & -> & Sb).
    exists (a ++ b). split; [reflexivity|]. eapply sorting_join; eauto.
    intros x y Hx Hy'. rewrite Hj by auto. unfold lex, from. rewrite (Hshort x Hx), (skipn_cons j (key y)) by auto. reflexivity.
Qed.
End Ranges.

(** ** The elements of ranges *)
Fixpoint element_lt (e : element_key) (a b : DoubleBuffer.key) : bool :=
  match e with EScalar s => scalar_lt s a b | ERange get e => seq_lt (element_lt e) (get a) (get b) end.
Fixpoint element_ok (e : element_key) (a : DoubleBuffer.key) : Prop :=
  match e with EScalar s => scalar_ok s a | ERange get e => forall x, In x (get a) -> element_ok e x end.
Lemma seq_lt_same {A} (lt_e : A -> A -> bool) : (forall a, lt_e a a = false) -> forall x, seq_lt lt_e x x = false.
Proof. intro H. induction x as [|a x IH]; [reflexivity|]. cbn [seq_lt] in *. rewrite H. exact IH. Qed.
Lemma element_lt_same e : forall a, element_lt e a a = false.
Proof.
  induction e as [s|get e IH]; intro a; cbn [element_lt]; [|apply seq_lt_same, IH].
  destruct s; cbn; [destruct (f a); reflexivity|apply Z.ltb_irrefl].
Qed.
Lemma same_element_spec e : equality (element_lt e) (same_element e).
Proof.
  destruct e as [s|get e]; cbn [same_element element_lt].
  - split; [intro a; destruct s; cbn; [apply eqb_reflx|apply Z.eqb_refl]|]. split; [apply same_key_sym|]. split; [apply same_key_trans|].
    intros a b H. apply same_key_lt in H. apply H.
  - split; [intro a; now apply same_value_spec|]. split; [|split].
    + intros a b. cbn [same_element]. apply eq_true_iff_eq. rewrite !same_value_spec. intuition congruence.
    + intros a b c. cbn [same_element]. rewrite !same_value_spec. congruence.
    + intros a b H. apply same_value_spec in H. injection H as ->. apply seq_lt_same, element_lt_same.
Qed.
Lemma element_sort_spec e : element_sorts (element_lt e) (element_ok e) (element_sort std american sort_all e).
Proof.
  induction e as [s|inner e IH]; intros get P r next HP Hsize Hnext l Hl Hok Ha; cbn [element_sort element_lt element_ok] in *.
  - apply (scalar_sort_spec P HP Hsize (scalar_of get s) r); [exact Hnext|exact Hl| |].
    + intros v Hv. apply scalar_of_ok, Hok, Hv.
    + intros a b Hia Hib. rewrite Ha by assumption. unfold lex. now rewrite !scalar_of_lt.
  - apply (list_sort_spec P HP Hsize (fun v => inner (get v)) (element_lt e) (same_element e) (element_ok e) (element_sort std american sort_all e) (same_element_spec e) IH r);
      [exact Hnext|exact Hl|lia| |].
    + intros v x Hv Hx. apply (Hok v Hv x Hx).
    + exact Ha.
Qed.

(** ** The whole key *)
Definition sub_lt (k : sub_key V) (a b : V) : bool :=
  match k with Scalar s => scalar_lt s a b | Range key e => seq_lt (element_lt e) (key a) (key b) end.
Definition sub_ok (k : sub_key V) (v : V) : Prop :=
  match k with Scalar s => scalar_ok s v | Range key e => forall x, In x (key v) -> element_ok e x end.
Fixpoint chain (ks : list (sub_key V)) : V -> V -> bool :=
  match ks with [] => fun _ _ => false | k :: ks => lex (sub_lt k) (chain ks) end.

Lemma sort_starter_spec (P : list V -> Prop) : closed P -> (forall l, P l -> length l <= std \/ american <= length l) ->
  forall ks l, P l -> (forall k v, In k ks -> In v l -> sub_ok k v) -> agree (chain ks) l -> sorts (sort_starter std american sort_all ks) l.
Proof.
  intros HP Hsize.
  enough (K : forall ks l, P l /\ (forall k v, In k ks -> In v l -> sub_ok k v) -> agree (chain ks) l -> sorts (sort_starter std american sort_all ks) l)
    by (intros; apply K; auto).
  induction ks as [|k ks IH]; intros l [Hl Hok] Ha; cbn [sort_starter chain] in *.
  - exists l. split; [reflexivity|]. apply equal_sorting, Ha.
  - unfold sorts. destruct (Nat.leb_spec (length l) 1) as [T|T]; [exists l; split; [reflexivity|apply short_sorting, T]|].
    set (Q := fun g => P g /\ forall k v, In k ks -> In v g -> sub_ok k v).
    assert (HQ : closed Q).
    { intros l1 g [H1 H2] Hg. split; [eapply HP; eauto|]. intros k' v Hk Hv. apply H2; [exact Hk|eapply part_in; eauto]. }
    assert (HQs : forall l, Q l -> length l <= std \/ american <= length l) by (intros l1 [H1 _]; apply Hsize, H1).
    assert (Ql : Q l) by (split; [exact Hl|]; intros k' v Hk; apply Hok; now right).
    pose proof (fun v => Hok k v (or_introl eq_refl)) as Hk. destruct k as [s|key e].
    + apply (scalar_sort_spec Q HQ HQs s (chain ks)); [|exact Ql|exact Hk|exact Ha]. intros g Hg Hg'. apply IH; assumption.
    + apply (list_sort_spec Q HQ HQs key _ _ _ _ (same_element_spec e) (element_sort_spec e) (chain ks)); [|exact Ql|lia| |].
      * intros g Hg Hg'. apply IH; assumption.
      * intros v x Hv Hx. exact (Hk v Hv x Hx).
      * intros a b Hia Hib. rewrite Ha by assumption. reflexivity.
Qed.
End Radix.
