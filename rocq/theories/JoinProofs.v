(** * Proofs about join_with, join and integer_range *)

From Coq Require Import List ZArith Bool Lia.
From Verif Require Import Range SpecRange Views Pieces RangeProofs ViewProofs PiecesProofs.
Import ListNotations.
Local Open Scope nat_scope.

Definition following {A} (sep : list A) (xss : list (list A)) : list A := concat (map (app sep) xss).
Lemma joined_cons {A} (sep : list A) xs xss : joined sep (xs :: xss) = xs ++ following sep xss.
Proof.
  revert xs. induction xss as [|ys xss IH]; intros xs; [cbn; now rewrite app_nil_r|].
  change (joined sep (xs :: ys :: xss)) with (xs ++ sep ++ joined sep (ys :: xss)). rewrite IH. unfold following. cbn. now rewrite <- app_assoc.
Qed.
Lemma joined_length {A} (sep : list A) xss : length (joined sep xss) = length (concat xss) + (length xss - 1) * length sep.
Proof.
  destruct xss as [|xs xss]; [reflexivity|]. rewrite joined_cons. cbn [concat length]. rewrite !app_length.
  assert (length (following sep xss) = length (concat xss) + length xss * length sep) as ->.
  { unfold following. induction xss as [|ys xss IH]; [reflexivity|]. cbn. rewrite !app_length, IH. lia. }
  replace (S (length xss) - 1) with (length xss) by lia. lia.
Qed.
Lemma Forall2_at {X Y} (P : X -> Y -> Prop) xs ys i x : Forall2 P xs ys -> nth_error xs i = Some x -> exists y, nth_error ys i = Some y /\ P x y.
Proof. intros H. revert i. induction H; intros [|i] Hx; cbn in *; try discriminate; [injection Hx as <-; eauto|eauto]. Qed.
Lemma Forall2_len {X Y} (P : X -> Y -> Prop) xs ys : Forall2 P xs ys -> length xs = length ys.
Proof. induction 1; cbn; congruence. Qed.

Section Join.
Context {Out I J A : Type} (outer : range Out (range I A)) (o : nat -> Out) (rs : list (range I A)) (xss : list (list A)).
Context (joiner : range J A) (jt : nat -> J) (js : list A) (fuel : nat) (max_inner max_joiner : Z).
Hypothesis Ho : lists_at outer o rs.
Hypothesis Hr : Forall2 lists rs xss.
Hypothesis Hj : lists_at joiner jt js.
Hypothesis Hlast : last joiner <> None.
Hypothesis Hfuel : 2 * length rs + 2 < fuel.
Let n := length rs.

Definition remaining (k : nat) : list A := match skipn k xss with [] => [] | xs :: xss' => xs ++ following js xss' end.
(** What is still to be read from a state, and how much fuel normalize needs. *)
Inductive denotes : join_iterator -> list A -> nat -> Prop :=
| denotes_range k r it xs i : nth_error rs k = Some r -> nth_error xss k = Some xs -> lists_at r it xs -> i <= length xs ->
    denotes (Join (o k) (In_range r (it i))) (skipn i xs ++ following js (skipn (S k) xss)) (2 * (n - k) + 1)
| denotes_joiner k j : k < n -> j <= length js -> denotes (Join (o k) (In_joiner (jt j))) (skipn j js ++ remaining k) (2 * (n - k) + 2)
| denotes_end i : denotes (Join (o n) i) [] 1.
Notation view := (join_with fuel max_inner max_joiner outer joiner).
Inductive settled : join_iterator -> list A -> Prop :=
| settled_range k r it xs i x : nth_error rs k = Some r -> nth_error xss k = Some xs -> lists_at r it xs -> nth_error xs i = Some x ->
    settled (Join (o k) (In_range r (it i))) (x :: skipn (S i) xs ++ following js (skipn (S k) xss))
| settled_joiner k j x : k < n -> nth_error js j = Some x -> settled (Join (o k) (In_joiner (jt j))) (x :: skipn (S j) js ++ remaining k)
| settled_end i : settled (Join (o n) i) [].
Lemma remaining_at k xs : nth_error xss k = Some xs -> remaining k = xs ++ following js (skipn (S k) xss).
Proof. intros Hx. unfold remaining. now rewrite (skipn_nth _ _ _ Hx). Qed.
Lemma following_at k : following js (skipn k xss) = if k <? n then js ++ remaining k else [].
Proof.
  pose proof (Forall2_len _ _ _ Hr) as Hlen. fold n in Hlen. destruct (Nat.ltb_spec k n).
  - unfold remaining. destruct (skipn k xss) as [|xs xss'] eqn:E; [|unfold following; cbn; now rewrite <- app_assoc].
    apply (f_equal (@length _)) in E. rewrite skipn_length in E. cbn in E. lia.
  - rewrite skipn_all2 by lia. reflexivity.
Qed.
Lemma normalize_denotes : forall m s c m', denotes s c m' -> m' <= m -> exists s', normalize m outer joiner s = Val s' /\ settled s' c.
Proof.
  pose proof (Forall2_len _ _ _ Hr) as Hlen. fold n in Hlen.
  assert (stop outer (o n) = Val true) as E by (rewrite (l_stop _ _ _ Ho) by auto; fold n; now rewrite Nat.eqb_refl).
  assert (forall k, k < n -> stop outer (o k) = Val false) as E' by (intros k Hk; rewrite (l_stop _ _ _ Ho) by (fold n; lia); fold n; f_equal; now apply Nat.eqb_neq, Nat.lt_neq).
  induction m as [|m IH]; intros s c m' Hs Hm; [destruct Hs; lia|]. destruct Hs as [k r it xs i Hr' Hx Hl Hi|k j Hk Hj'|i].
  - assert (k < n) as Hk by (eapply nth_error_in_length; eauto).
    cbn [normalize m_outer m_inner]. rewrite E' by auto. cbn [bind]. rewrite (l_stop _ _ _ Hl) by auto. cbn [bind]. destruct (Nat.eqb_spec i (length xs)) as [->|Hn].
    + rewrite (l_next _ _ _ Ho) by auto. cbn [bind]. rewrite (l_first _ _ _ Hj). cbn [bind]. rewrite skipn_all. cbn [app]. rewrite following_at.
      destruct (Nat.ltb_spec (S k) n).
      * apply (IH _ _ (2 * (n - S k) + 2)); [|lia]. apply (denotes_joiner (S k) 0); lia.
      * apply (IH _ _ 1); [|lia]. replace (S k) with n by lia. apply denotes_end.
    + eexists. split; [reflexivity|]. destruct (nth_error_below xs i ltac:(lia)) as [x Hx']. rewrite (skipn_nth _ _ _ Hx'). cbn [app]. econstructor; eauto.
  - cbn [normalize m_outer m_inner]. rewrite E' by auto. cbn [bind]. rewrite (l_stop _ _ _ Hj) by auto. cbn [bind]. destruct (Nat.eqb_spec j (length js)) as [->|Hn].
    + destruct (nth_error_below rs k Hk) as [r Hr']. destruct (Forall2_at _ _ _ _ _ Hr Hr') as (xs & Hx & it & Hl).
      rewrite (l_get _ _ _ Ho _ _ Hr'). cbn [bind]. rewrite (l_first _ _ _ Hl). cbn [bind]. rewrite skipn_all. cbn [app]. rewrite (remaining_at _ _ Hx).
      apply (IH _ _ (2 * (n - k) + 1)); [|lia]. apply (denotes_range k r it xs 0); auto. lia.
    + eexists. split; [reflexivity|]. destruct (nth_error_below js j ltac:(lia)) as [x Hx']. rewrite (skipn_nth _ _ _ Hx'). cbn [app]. econstructor; eauto.
  - cbn [normalize m_outer m_inner]. rewrite E. cbn [bind]. eexists. split; [reflexivity|]. constructor.
Qed.
Lemma settled_step s c : settled s c -> match c with
  | [] => stop view s = Val true
  | x :: c' => stop view s = Val false /\ get view s = Val x /\ exists s', next view s = Val s' /\ settled s' c'
  end.
Proof.
  assert (forall k, k < n -> stop outer (o k) = Val false) as E' by (intros k Hk; rewrite (l_stop _ _ _ Ho) by (fold n; lia); fold n; f_equal; now apply Nat.eqb_neq, Nat.lt_neq).
  fold n in Hfuel. destruct 1 as [k r it xs i x Hr' Hx' Hl Hx|k j x Hk Hx|i].
  - assert (k < n) as Hk by (eapply nth_error_in_length; eauto). assert (i < length xs) as Hi by (eapply nth_error_in_length; eauto).
    split; [apply E'; auto|]. split; [apply (l_get _ _ _ Hl); auto|]. cbn [next join_with m_outer m_inner]. rewrite (l_next _ _ _ Hl) by lia. cbn [bind].
    eapply normalize_denotes; [apply (denotes_range k r it xs (S i)); auto|lia].
  - assert (j < length js) as Hi by (eapply nth_error_in_length; eauto).
    split; [apply E'; auto|]. split; [apply (l_get _ _ _ Hj); auto|]. cbn [next join_with m_outer m_inner]. rewrite (l_next _ _ _ Hj) by lia. cbn [bind].
    eapply normalize_denotes; [apply (denotes_joiner k (S j)); auto|lia].
  - cbn [stop join_with m_outer]. rewrite (l_stop _ _ _ Ho) by auto. fold n. now rewrite Nat.eqb_refl.
Qed.
Lemma join_run c : forall s, settled s c -> exists ss, run view s ss c.
Proof.
  induction c as [|x c IH]; intros s Hs; apply settled_step in Hs; [eexists; now constructor|]. destruct Hs as (He & Hg & s' & Hn & Hs). destruct (IH _ Hs) as [ss Hss].
  eexists. econstructor; eauto.
Qed.
Lemma join_first : exists s, first view = Val s /\ settled s (joined js xss).
Proof.
  cbn [first join_with]. rewrite (l_first _ _ _ Ho). cbn [bind]. pose proof (l_last _ _ _ Hj) as Hl. destruct (last joiner) as [e|]; [|easy]. cbn in Hl. subst e. cbn [bind].
  pose proof (Forall2_len _ _ _ Hr) as Hlen. fold n in Hlen, Hfuel. destruct (Nat.eq_dec n 0) as [E|E].
  - assert (joined js xss = []) as -> by (destruct xss; [reflexivity|cbn in Hlen; lia]). eapply (normalize_denotes _ _ _ 1); [|lia]. replace (o 0) with (o n) by now rewrite E. apply denotes_end.
  - eapply (normalize_denotes _ _ _ (2 * (n - 0) + 2)); [|lia].
    replace (joined js xss) with (skipn (length js) js ++ remaining 0); [apply denotes_joiner; lia|].
    rewrite skipn_all. unfold remaining. cbn [app skipn]. destruct xss; [cbn in Hlen; lia|]. now rewrite joined_cons.
Qed.
Lemma concat_length_le (b : Z) : Forall (fun xs : list A => (Z.of_nat (length xs) <= b)%Z) xss -> (Z.of_nat (length (concat xss)) <= Z.of_nat (length xss) * b)%Z.
Proof. clear. induction 1 as [|xs l Hx Hl IH]; cbn [concat length]; [reflexivity|]. rewrite app_length, (Nat2Z.inj_succ (length l)), Z.mul_succ_l. lia. Qed.
Lemma join_lists : Forall (fun xs => (Z.of_nat (length xs) <= max_inner)%Z) xss -> (0 <= max_inner)%Z -> (Z.of_nat (length js) <= max_joiner)%Z ->
  lists view (joined js xss).
Proof.
  intros Hin Hin0 Hjo. destruct join_first as (s & Hs & Hd). destruct (join_run _ _ Hd) as [ss Hss]. eexists. eapply run_lists_at; eauto; cbn; auto.
  pose proof (concat_length_le _ Hin) as Hc. pose proof (l_reach _ _ _ Ho) as Hreach. pose proof (Forall2_len _ _ _ Hr) as Hlen. rewrite joined_length.
  rewrite Hlen in Hreach. assert (Z.of_nat (length xss) * max_inner <= reach outer * max_inner)%Z by (apply Z.mul_le_mono_nonneg_r; lia).
  rewrite Nat2Z.inj_add, Nat2Z.inj_mul. destruct xss as [|xs l]; [cbn in H |- *; lia|].
  assert (Z.of_nat (length (xs :: l) - 1) * Z.of_nat (length js) <= (reach outer - 1) * max_joiner)%Z; [|lia].
  apply Z.mul_le_mono_nonneg; cbn [length] in *; lia.
Qed.
End Join.

(** ** linear_size *)
Lemma count_from_lists {K B} (r : range K B) it xs : lists_at r it xs -> forall fuel i, i <= length xs -> length xs - i < fuel ->
  count_from fuel r (it i) = Val (Z.of_nat (length xs - i)).
Proof.
  intros H. induction fuel as [|fuel IH]; intros i Hi Hf; [lia|]. cbn [count_from]. rewrite (l_stop _ _ _ H) by auto. cbn [bind].
  destruct (Nat.eqb_spec i (length xs)) as [->|Hn]; [now rewrite Nat.sub_diag|]. rewrite (l_next _ _ _ H) by lia. cbn [bind]. rewrite IH by lia. cbn [bind]. f_equal. lia.
Qed.
Lemma linear_size_lists {K B} (r : range K B) xs fuel : lists r xs -> length xs < fuel -> linear_size fuel r = Val (Z.of_nat (length xs)).
Proof.
  intros [it H] Hf. unfold linear_size. pose proof (l_size _ _ _ H) as Hs. destruct (size r) as [s|]; [exact Hs|]. rewrite (l_first _ _ _ H). cbn [bind].
  rewrite (count_from_lists _ _ _ H) by lia. do 2 f_equal. lia.
Qed.
Lemma total_sizes_lists {Out I A : Type} (outer : range Out (range I A)) (o : nat -> Out) (rs : list (range I A)) (xss : list (list A)) :
  lists_at outer o rs -> Forall2 lists rs xss -> forall fuel k elements ranges, k <= length rs -> Forall (fun xs => length xs + (length rs - k) < fuel) xss -> length rs - k < fuel ->
  total_sizes fuel outer (o k) elements ranges = Val (elements + Z.of_nat (length (concat (skipn k xss))), ranges + Z.of_nat (length rs - k))%Z.
Proof.
  intros Ho Hr. pose proof (Forall2_len _ _ _ Hr) as Hlen. induction fuel as [|fuel IH]; intros k elements ranges Hk Hf Hf'; [lia|]. cbn [total_sizes].
  rewrite (l_stop _ _ _ Ho) by auto. cbn [bind]. destruct (Nat.eqb_spec k (length rs)) as [E|Hn].
  - rewrite skipn_all2 by lia. cbn. do 2 f_equal; lia.
  - destruct (nth_error_below rs k ltac:(lia)) as [r Hr']. destruct (Forall2_at _ _ _ _ _ Hr Hr') as (xs & Hx & Hl).
    rewrite (l_get _ _ _ Ho _ _ Hr'). cbn [bind]. pose proof Hf as Hf2. rewrite Forall_forall in Hf2. pose proof (Hf2 xs (nth_error_In _ _ Hx)) as Hxf. cbn beta in Hxf.
    rewrite (linear_size_lists _ _ _ Hl) by lia. cbn [bind]. rewrite (l_next _ _ _ Ho) by lia. cbn [bind]. rewrite IH; try lia.
    + rewrite (skipn_nth _ _ _ Hx). cbn [concat]. rewrite app_length. do 2 f_equal; lia.
    + revert Hf. apply Forall_impl. intros ys Hy. lia.
Qed.
Lemma join_linear_size_lists {Out I J A : Type} (outer : range Out (range I A)) rs xss (joiner : range J A) js fuel max_size :
  lists outer rs -> Forall2 lists rs xss -> lists joiner js -> Forall (fun xs => length xs + length rs < fuel) xss -> length rs + length js < fuel ->
  (Z.of_nat (length (joined js xss)) <= max_size)%Z -> join_linear_size fuel max_size outer joiner = Val (Z.of_nat (length (joined js xss))).
Proof.
  intros [o Ho] Hr Hj Hf Hf' Hmax. pose proof (Forall2_len _ _ _ Hr) as Hlen. unfold join_linear_size. rewrite (l_first _ _ _ Ho). cbn [bind]. rewrite (l_stop _ _ _ Ho) by lia. cbn [bind].
  destruct (Nat.eqb_spec 0 (length rs)) as [E|Hn]; [destruct xss; [reflexivity|cbn in Hlen; lia]|].
  rewrite (total_sizes_lists _ _ _ _ Ho Hr); try lia; [|revert Hf; apply Forall_impl; intros; lia]. cbn [bind fst snd skipn]. rewrite (linear_size_lists _ _ _ Hj) by lia. cbn [bind].
  rewrite joined_length in *.
  replace (0 + Z.of_nat (length rs - 0) - 1)%Z with (Z.of_nat (length xss - 1)) by lia. rewrite Z.add_0_l, <- Nat2Z.inj_mul, <- Nat2Z.inj_add. unfold assume.
  set (total := length (concat xss) + _) in *. clearbody total.
  match goal with |- (if ?c then _ else _) = _ => replace c with true end; [reflexivity|]. symmetry. apply andb_true_intro. split; apply Z.leb_le; lia.
Qed.

(** ** integer_range *)
Lemma progression_length f step n : length (progression f step n) = n.
Proof. revert f. induction n; intros; cbn; auto. Qed.
Lemma progression_nth f step n i : i < n -> nth_error (progression f step n) i = Some (f + Z.of_nat i * step)%Z.
Proof.
  revert f i. induction n as [|n IH]; intros f i Hi; [lia|]. destruct i as [|i]; cbn -[Z.of_nat]; [f_equal; lia|]. rewrite IH by lia. f_equal. lia.
Qed.
Section Integer_range.
Context (min max min_step f l step : Z) (n : nat).
Hypothesis Hstep : (1 <= min_step <= step)%Z.
Hypothesis Hf : (min <= f)%Z.
Hypothesis Hl : (l <= max)%Z.
Hypothesis Hn : l = (f + Z.of_nat n * step)%Z.
Hypothesis Hroom : (min + min_step <= max)%Z.
Lemma integer_range_lists_at : exists r, integer_range min max min_step f l step = Val r /\ lists_at r (fun i => (f + Z.of_nat i * step)%Z) (progression f step n).
Proof.
  assert (forall i, i <= n -> (min <= f + Z.of_nat i * step <= max)%Z) as Hin.
  { intros i Hi. assert (Z.of_nat i * step <= Z.of_nat n * step)%Z by (apply Z.mul_le_mono_nonneg_r; lia). assert (0 <= Z.of_nat i * step)%Z by (apply Z.mul_nonneg_nonneg; lia). lia. }
  assert (forall i d, (0 <= Z.of_nat i + d)%Z -> (f + Z.of_nat i * step + d * step)%Z = (f + Z.of_nat (Z.to_nat (Z.of_nat i + d)) * step)%Z) as Hshift.
  { intros i d Hd. rewrite Z2Nat.id by lia. ring. }
  assert (forall i j : Z, (((f + i * step) - (f + j * step)) ÷ step)%Z = (i - j)%Z) as Hquot.
  { intros i j. replace (f + i * step - (f + j * step))%Z with ((i - j) * step)%Z by ring. apply Z.quot_mul. lia. }
  assert (forall i j : Z, (f + i * step = f + j * step)%Z -> i = j) as Hinj.
  { intros i j E. apply (Z.mul_reg_r _ _ step); lia. }
  assert (Z.of_nat n <= (max - min) ÷ min_step)%Z as Hreach.
  { rewrite Z.quot_div_nonneg by (specialize (Hin 0 ltac:(lia)); lia). apply Z.div_le_lower_bound; [lia|]. assert (min_step * Z.of_nat n <= step * Z.of_nat n)%Z by (apply Z.mul_le_mono_nonneg_r; lia). lia. }
  assert (forall v, (min <= v <= max)%Z -> assume ((min <=? v) && (v <=? max))%Z (Val v) = Val v) as Hstored.
  { intros v Hv. unfold assume. replace ((min <=? v) && (v <=? max))%Z with true; [reflexivity|]. symmetry. apply andb_true_intro. split; apply Z.leb_le; lia. }
  unfold integer_range. replace (Z.rem (l - f) step) with 0%Z by (replace (l - f)%Z with (Z.of_nat n * step)%Z by lia; symmetry; apply Z.rem_mul; lia).
  cbn [assume Z.eqb]. eexists. split; [reflexivity|].
  constructor; cbn -[Z.of_nat Z.to_nat Z.quot Z.mul progression]; rewrite ?progression_length.
  - rewrite Hstored by (specialize (Hin 0 ltac:(lia)); lia). f_equal. lia.
  - intros i Hi. rewrite Hstored by (specialize (Hin n ltac:(lia)); lia). cbn [bind]. f_equal. rewrite Hn.
    destruct (Nat.eqb_spec i n) as [->|Hne]; [apply Z.eqb_refl|]. apply Z.eqb_neq. intros E. apply Hinj in E. lia.
  - intros i x Hx. assert (i < n) as Hi by (rewrite <- (progression_length f step n); eapply nth_error_in_length; eauto). rewrite progression_nth in Hx by auto. injection Hx as <-.
    unfold assume. match goal with |- (if ?c then _ else _) = _ => replace c with true end; [reflexivity|]. symmetry. apply andb_true_intro.
    pose proof (Hin i ltac:(lia)). pose proof (Hin (S i) ltac:(lia)). split; apply Z.leb_le; lia.
  - intros i Hi. destruct (Z.eqb_spec ((max - min) ÷ min_step) 0) as [E|_]; [lia|]. rewrite Hshift by lia. replace (Z.to_nat (Z.of_nat i + 1)) with (S i) by lia.
    apply Hstored. apply Hin. lia.
  - intros i j Hi Hj. f_equal. destruct (Nat.eqb_spec i j) as [->|Hne]; [apply Z.eqb_refl|]. apply Z.eqb_neq. intros E. apply Hinj in E. lia.
  - rewrite Hstored by (specialize (Hin n ltac:(lia)); lia). now rewrite Hn.
  - intros i Hi. destruct (Z.eqb_spec ((max - min) ÷ min_step) 0) as [E|_]; [lia|]. rewrite Hshift by lia. replace (Z.to_nat (Z.of_nat (S i) + -1)) with i by lia.
    apply Hstored. apply Hin. lia.
  - intros i d Hi Hd _. destruct (Z.eqb_spec ((max - min) ÷ min_step) 0) as [E|_].
    + exfalso. rewrite Z.quot_div_nonneg in E by lia. assert (1 <= (max - min) / min_step)%Z by (apply Z.div_le_lower_bound; lia). lia.
    + rewrite Hshift by lia. apply Hstored. apply Hin. lia.
  - intros i j Hi Hj. f_equal. apply Hquot.
  - intros i j Hi Hj. f_equal. rewrite <- Nat2Z.inj_compare. destruct (Z.compare_spec (Z.of_nat i) (Z.of_nat j)) as [E|E|E].
    + rewrite E. apply Z.compare_refl.
    + apply Z.compare_lt_iff. assert (Z.of_nat i * step < Z.of_nat j * step)%Z by (apply Z.mul_lt_mono_pos_r; lia). lia.
    + apply Z.compare_gt_iff. assert (Z.of_nat j * step < Z.of_nat i * step)%Z by (apply Z.mul_lt_mono_pos_r; lia). lia.
  - exact Hreach.
  - rewrite !Hstored; [| |specialize (Hin n ltac:(lia)); lia]; [|specialize (Hin 0 ltac:(lia)); lia]. cbn [bind]. f_equal. rewrite Hn.
    replace (f + Z.of_nat n * step - f)%Z with (Z.of_nat n * step)%Z by ring. apply Z.quot_mul. lia.
Qed.
End Integer_range.
