(** * From the laws to the properties of vector and static_vector *)

From Coq Require Import List Arith Bool Lia.
From Verif Require Import Mem MemLemmas Vec VecLemmas VecLemmas2 VecLemmas3 VecInst SpecVec.
Import ListNotations.

Section Proofs.
Context {V : Type} (moved : V -> V).
Local Notation world := (world V).
Local Notation contents := (@contents V).
Local Notation memory := (@memory V).

Definition calm (w : world) : Prop := ~ In true (script w).
Lemma at_start (w : world) : unused_names w -> at_ (calm w) w (heap w).
Proof. intros H. split; [|split]; auto. apply eqh_refl. Qed.
Lemma at_here q (w : world) h : at_ q w h -> eqh h (heap w) /\ unused_names w.
Proof. intros (H1 & H2 & _). split. { now apply eqh_sym. } intros b Hb. rewrite H1. auto. Qed.
Lemma not_calm (w : world) : ~ calm w -> someone_throws w.
Proof. unfold calm, someone_throws. intros H. destruct (in_dec bool_dec true (script w)); tauto. Qed.
Lemma calm_or (w : world) (P : Prop) : (calm w -> P) -> someone_throws w \/ P.
Proof. unfold calm, someone_throws. intros H. destruct (in_dec bool_dec true (script w)); tauto. Qed.
Lemma makes_yields (m : memory) mk v : makes m mk v <-> yields m mk v.
Proof. destruct mk as [v'|[b|] i|[b|] i|[b|] i]; reflexivity. Qed.
Lemma makes_all (m : memory) mks vs : Forall2 (makes m) mks vs -> Forall2 (yields m) mks vs.
Proof. apply Forall2_weaken. intros. now apply makes_yields. Qed.
Lemma untouched_intro {O} (o : O) (w w' : world) q : unused_names w -> at_ q w' (heap w) -> untouched o o w w'.
Proof. intros _ H. destruct (at_here _ _ _ H) as [H1 H2]. split; auto. split; auto. intros b. now rewrite H1. Qed.

Section BoundedVector.
Context (minc maxc : nat) (Hmm : minc <= maxc).
Local Notation C := (bounded_vector (V := V) moved minc maxc).
Local Notation own := (bv_own (V := V) minc maxc).
Local Notation cells := (holds_cells C own).
Local Notation is_vec := (is_vector (V := V) minc maxc).
Local Notation is_vec_in := (is_vector_in (V := V) minc maxc).
Local Notation B := (bv_base moved minc maxc Hmm).

Lemma vec_cells_in o vs (g m : memory) : is_vec_in o vs g m <-> exists k, cells o vs k g m /\ length vs + k = capacity_of o.
Proof.
  unfold is_vector_in, holds_cells, bv_own, bv_data, capacity_of. cbn [bounded_vector c_size].
  destruct (u_pointer (b_storage o)) as [b|].
  - split.
    + intros (Hs & Hg & (k & Hb & Hc & Hr) & Hm). exists k. rewrite !app_length, !map_length, !repeat_length.
      split; auto. split; auto. split; auto. split; auto. intros b'. unfold upd.
      destruct (Nat.eqb_spec b' b) as [->|]; auto.
    + intros (k & ((Hg & Hm & Hc & Hr) & Hs) & Hk). rewrite app_length, map_length, repeat_length in *.
      split; auto. split; auto. split. { exists k. split; auto. now rewrite Hm, upd_same. }
      intros b' Hb'. rewrite Hm. now apply upd_other.
  - split.
    + intros (Hs & -> & Hc & Hz & Hm). exists 0. cbn. rewrite Hc. auto 6.
    + intros (k & ((He & Hc & Hz & Hm) & Hs) & Hk). destruct vs; [|discriminate]. destruct k; [|discriminate]. auto.
Qed.

Lemma vec_cells o vs g w : is_vec o vs g w -> exists k, cells o vs k g (heap w) /\ length vs + k = capacity_of o.
Proof. intros [H _]. now apply vec_cells_in. Qed.
Lemma cells_vec q o vs k g h (w : world) : at_ q w h -> cells o vs k g h -> is_vec o vs g w /\ capacity_of o = length vs + k.
Proof.
  intros H [Ho Hs]. destruct (at_here _ _ _ H) as [He Hu].
  assert (Hc : cells o vs k g (heap w)). { split; auto. eapply (bl_ext _ _ B); eauto. apply eqh_refl. }
  assert (Hcap : length vs + k = capacity_of o).
  { unfold bv_own in Ho. unfold capacity_of. destruct (bv_data o).
    - destruct Ho as (_ & _ & Hl & _). rewrite length_cells in Hl. exact Hl.
    - destruct Ho as (Hn & Hz & _). destruct (map_Some_nil _ _ Hn). subst. now rewrite Hz. }
  split; [|now symmetry]. split; auto. apply vec_cells_in. eauto.
Qed.

Lemma push_back_vec mk v o vs others w :
  is_vec o vs others w -> makes (heap w) mk v ->
  length vs < capacity_of o \/ minc = maxc \/ 1 <= maxc /\ 2 * length vs <= maxc ->
  ends (push_back moved C mk o w)
    (fun o' _ w' => is_vec o' (vs ++ [v]) others w' /\
       capacity_of o' = grown o (length (vs ++ [v])))
    (fun o' w' => untouched o o' w w' /\ (someone_throws w \/ minc = maxc /\ length vs = maxc)).
Proof.
  intros Hv Hmk Hroom. pose proof Hv as [_ Hu]. destruct (vec_cells _ _ _ _ Hv) as (k & Hc & Hk).
  apply makes_yields in Hmk. pose proof (at_start w Hu) as Hat.
  pose proof (bl_max _ _ B _ _ _ _ (proj1 Hc)) as Hmax. rewrite length_cells in Hmax. cbn [bounded_vector c_max] in Hmax.
  change (wp (lazy_push_back moved C mk) o w
    (fun o' _ w' => is_vec o' (vs ++ [v]) others w' /\
       capacity_of o' = grown o (length (vs ++ [v])))
    (fun o' w' => untouched o o' w w' /\ (someone_throws w \/ minc = maxc /\ length vs = maxc))).
  destruct (Nat.eq_dec minc maxc) as [He|He].
  - eapply wp_conseq. { eapply (push_back_fixed_ok moved (calm w) C own B); [|exact Hat|exact Hc|exact Hmk].
      cbn [bounded_vector c_reserve]. now rewrite (proj2 (Nat.eqb_eq _ _) He). }
    + cbv beta. intros o' _ w' (Hk1 & h' & H' & Hc'). destruct (cells_vec _ _ _ _ _ _ _ H' Hc') as [H1 H2]. split; auto.
      unfold grown. rewrite H2, app_length. cbn [length]. destruct (Nat.leb_spec (length vs + 1) (capacity_of o)); lia.
    + cbv beta. intros o' w' (-> & H' & Hq). split. { eapply untouched_intro; eauto. }
      apply calm_or. intros Hcalm. specialize (Hq Hcalm). split; auto.
      destruct Hc as [Ho _]. unfold bv_own in Ho. destruct (bv_data o).
      * rewrite length_cells in Ho. lia.
      * destruct Ho as (Hn & _ & Hz & _). destruct (map_Some_nil _ _ Hn) as [Hnil _]. subst vs. cbn. lia.
  - eapply wp_conseq. { eapply (lazy_push_back_ok moved (calm w) C own (fun _ => True) minc B); [apply bv_realloc; auto|exact Hat|exact Hc|exact Hmk|].
      cbn [bounded_vector c_max]. destruct k; [right|left; lia]. unfold reallocation_size.
      destruct Hroom as [|[|]]; try contradiction; lia. }
    + cbv beta. intros o' _ w' (h' & k' & H' & Hc' & Hk'). destruct (cells_vec _ _ _ _ _ _ _ H' Hc') as [H1 H2]. split; auto.
      unfold grown. rewrite H2, app_length. cbn [length]. rewrite Hk'. unfold reallocation_size.
      destruct (Nat.leb_spec (length vs + 1) (capacity_of o)); destruct (Nat.eqb_spec k 0); try lia.
    + cbv beta. intros o' w' (-> & H' & Hq). split. { eapply untouched_intro; eauto. } left. now apply not_calm.
Qed.

Lemma pop_back_vec o vs v others w :
  is_vec o (vs ++ [v]) others w ->
  ends (pop_back C o w)
    (fun o' _ w' => is_vec o' vs others w' /\ capacity_of o' = capacity_of o) (fun _ _ => False).
Proof.
  intros Hv. pose proof Hv as [_ Hu]. destruct (vec_cells _ _ _ _ Hv) as (k & Hc & Hk). pose proof (at_start w Hu) as Hat.
  apply (wp_conseq (pop_back C) o w _ _ _ _ (pop_back_ok (calm w) C own B _ _ _ _ _ _ _ Hat Hc)); [|auto].
  cbv beta. intros o' _ w' (h' & H' & Hc'). destruct (cells_vec _ _ _ _ _ _ _ H' Hc') as [H1 H2]. split; auto.
  rewrite app_length in Hk. cbn in Hk. lia.
Qed.

Lemma clear_vec o vs others w :
  is_vec o vs others w ->
  ends (clear C o w)
    (fun o' _ w' => is_vec o' [] others w' /\ capacity_of o' = capacity_of o) (fun _ _ => False).
Proof.
  intros Hv. pose proof Hv as [_ Hu]. destruct (vec_cells _ _ _ _ Hv) as (k & Hc & Hk). pose proof (at_start w Hu) as Hat.
  apply (wp_conseq (clear C) o w _ _ _ _ (clear_ok (calm w) C own B _ _ _ _ _ _ Hat Hc)); [|auto].
  cbv beta. intros o' _ w' (h' & H' & Hc'). destruct (cells_vec _ _ _ _ _ _ _ H' Hc') as [H1 H2]. split; auto.
  cbn in H2. lia.
Qed.

Lemma erase_vec o l1 ds ss others w :
  is_vec o (l1 ++ ds ++ ss) others w ->
  ends (erase moved C (length l1) (length l1 + length ds) o w)
    (fun o' r w' => r = length l1 /\ is_vec o' (l1 ++ ss) others w' /\ capacity_of o' = capacity_of o) (fun _ _ => False).
Proof.
  intros Hv. pose proof Hv as [_ Hu]. destruct (vec_cells _ _ _ _ Hv) as (k & Hc & Hk). pose proof (at_start w Hu) as Hat.
  apply (wp_conseq (erase moved C (length l1) (length l1 + length ds)) o w _ _ _ _
           (erase_ok moved (calm w) C own B _ _ _ _ _ _ _ _ _ _ Hat Hc eq_refl eq_refl)); [|auto].
  cbv beta. intros o' r w' (Hr & h' & H' & Hc'). destruct (cells_vec _ _ _ _ _ _ _ H' Hc') as [H1 H2]. split; auto. split; auto.
  rewrite !app_length in *. lia.
Qed.

Lemma erase_to_end_vec o l1 l2 others w :
  is_vec o (l1 ++ l2) others w ->
  ends (erase_to_end C (length l1) o w)
    (fun o' _ w' => is_vec o' l1 others w' /\ capacity_of o' = capacity_of o) (fun _ _ => False).
Proof.
  intros Hv. pose proof Hv as [_ Hu]. destruct (vec_cells _ _ _ _ Hv) as (k & Hc & Hk). pose proof (at_start w Hu) as Hat.
  apply (wp_conseq (erase_to_end C (length l1)) o w _ _ _ _ (erase_to_end_ok (calm w) C own B _ _ _ _ _ _ _ _ Hat Hc eq_refl)); [|auto].
  cbv beta. intros o' _ w' (h' & H' & Hc'). destruct (cells_vec _ _ _ _ _ _ _ H' Hc') as [H1 H2]. split; auto.
  rewrite !app_length in *. lia.
Qed.

Lemma erase_if_vec p o vs others w :
  is_vec o vs others w ->
  ends (erase_if moved C p o w)
    (fun o' r w' => is_vec o' (without p vs) others w' /\
       exists before after, vs = before ++ after /\ without p before = before /\
         match after with [] => True | v :: _ => p v = true end /\ r = length (without p after))
    (fun o' w' => someone_throws w /\ exists us, length us = length vs /\ is_vec o' us others w').
Proof.
  intros Hv. pose proof Hv as [_ Hu]. destruct (vec_cells _ _ _ _ Hv) as (k & Hc & Hk). pose proof (at_start w Hu) as Hat.
  apply (wp_conseq (erase_if moved C p) o w _ _ _ _ (erase_if_ok moved (calm w) C own B p _ _ _ _ _ _ Hat Hc)).
  - cbv beta. intros o' r w' (h' & k' & H' & Hc' & pre & suf & Hsplit & Hpre & Hsuf & Hr).
    destruct (cells_vec _ _ _ _ _ _ _ H' Hc') as [H1 H2]. split; auto.
    exists pre, suf. split; auto. split; auto. unfold without. now apply filter_none.
  - cbv beta. intros o' w' (h' & all & Hq & H' & Hl & Hc'). split. { now apply not_calm. }
    exists all. split; auto. now destruct (cells_vec _ _ _ _ _ _ _ H' Hc').
Qed.

Local Notation RL w Hne := (bv_realloc moved (calm w) minc maxc Hmm Hne).

Lemma fixed_reserve : minc = maxc -> c_reserve C = None.
Proof. intros He. cbn [bounded_vector c_reserve]. now rewrite (proj2 (Nat.eqb_eq _ _) He). Qed.

Lemma fixed_capacity o vs k g h : minc = maxc -> cells o vs k g h -> length vs + k = maxc.
Proof.
  intros He [Ho _]. unfold bv_own in Ho. destruct (bv_data o).
  - rewrite length_cells in Ho. lia.
  - destruct Ho as (Hn & _ & Hz & _). destruct (map_Some_nil _ _ Hn) as [Hnil ->]. subst vs. cbn. lia.
Qed.

Lemma append_vec mks us o vs others w :
  minc < maxc ->
  is_vec o vs others w -> Forall2 (makes (heap w)) mks us ->
  ends (append moved C (Source mks true) o w)
    (fun o' _ w' => is_vec o' (vs ++ us) others w' /\ capacity_of o' = grown o (length (vs ++ us)))
    (fun o' w' => untouched o o' w w' /\
       (someone_throws w \/ capacity_of o < length (vs ++ us) /\ maxc < grown o (length (vs ++ us)))).
Proof.
  intros Hlt Hv Hmk. pose proof Hv as [_ Hu]. destruct (vec_cells _ _ _ _ Hv) as (k & Hc & Hk). pose proof (at_start w Hu) as Hat.
  apply makes_all in Hmk. assert (Hne : minc <> maxc) by lia.
  apply (wp_conseq (append moved C (Source mks true)) o w _ _ _ _
    (append_sized_ok moved (calm w) C own (fun _ => True) minc B _ (RL w Hne) _ _ _ _ _ _ _ _ Hat Hc Hmk));
    unfold grown; rewrite app_length.
  - cbv beta. intros o' _ w' (h' & k' & H' & Hc' & Hk'). destruct (cells_vec _ _ _ _ _ _ _ H' Hc') as [H1 H2]. split; auto.
    rewrite H2, app_length, Hk'. unfold reallocation_size.
    destruct (Nat.leb_spec (length us) k); destruct (Nat.leb_spec (length vs + length us) (capacity_of o)); lia.
  - cbv beta. intros o' w' (-> & H' & Hq). split. { eapply untouched_intro; eauto. }
    apply calm_or. intros Hcalm. specialize (Hq Hcalm). cbn [bounded_vector c_max] in Hq. unfold reallocation_size in Hq.
    destruct (Nat.leb_spec (length vs + length us) (capacity_of o)); lia.
Qed.

Lemma append_unsized_vec mks us o vs others w :
  minc < maxc ->
  is_vec o vs others w -> Forall2 (makes others) mks us -> 2 * (length vs + length us) <= maxc ->
  ends (append moved C (Source mks false) o w)
    (fun o' _ w' => is_vec o' (vs ++ us) others w')
    (fun o' w' => someone_throws w /\ exists n, n < length us /\ is_vec o' (vs ++ firstn n us) others w').
Proof.
  intros Hlt Hv Hmk Hroom. pose proof Hv as [_ Hu]. destruct (vec_cells _ _ _ _ Hv) as (k & Hc & Hk). pose proof (at_start w Hu) as Hat.
  apply makes_all in Hmk. assert (Hne : minc <> maxc) by lia.
  assert (He : append moved C (Source mks false) = each_push_back moved C mks).
  { unfold append. rewrite (rl_reserve_is _ _ _ _ _ _ (RL w Hne)). reflexivity. }
  rewrite He.
  apply (wp_conseq (each_push_back moved C mks) o w _ _ _ _
    (each_push_back_ok moved (calm w) C own (fun _ => True) minc B _ (RL w Hne) _ _ _ _ _ _ _ _ Hat Hc Hmk Hroom)).
  - cbv beta. intros o' _ w' (h' & k' & H' & Hc'). now destruct (cells_vec _ _ _ _ _ _ _ H' Hc').
  - cbv beta. intros o' w' (n & h' & k' & Hn & Hq & H' & Hc'). split. { now apply not_calm. }
    exists n. split; auto. now destruct (cells_vec _ _ _ _ _ _ _ H' Hc').
Qed.

Lemma insert_vec mks us o l1 l2 others w :
  is_vec o (l1 ++ l2) others w -> Forall2 (makes others) mks us -> mks <> [] \/ l2 = [] ->
  ends (insert moved C (length l1) mks o w)
    (fun o' r w' => r = length l1 /\ is_vec o' (l1 ++ us ++ l2) others w' /\ capacity_of o' = grown o (length (l1 ++ us ++ l2)))
    (fun o' w' => untouched o o' w w' /\
       (someone_throws w \/ capacity_of o < length (l1 ++ us ++ l2) /\ maxc < grown o (length (l1 ++ us ++ l2)))).
Proof.
  intros Hv Hmk Hnil. pose proof Hv as [_ Hu]. destruct (vec_cells _ _ _ _ Hv) as (k & Hc & Hk). pose proof (at_start w Hu) as Hat.
  apply makes_all in Hmk. pose proof (Forall2_len _ _ _ Hmk) as Hlen.
  destruct (Nat.eq_dec minc maxc) as [He|Hne].
  - apply (wp_conseq (insert moved C (length l1) mks) o w _ _ _ _
      (insert_fixed_ok moved (calm w) C own B (fixed_reserve He) _ _ _ _ _ _ _ _ _ _ Hat Hc Hmk eq_refl Hnil)).
    + cbv beta. intros o' r w' (Hfit & Hr & h' & H' & Hc'). split; auto. destruct (cells_vec _ _ _ _ _ _ _ H' Hc') as [H1 H2]. split; auto.
      rewrite H2. unfold grown. rewrite !app_length in *. destruct (Nat.leb_spec (length l1 + (length us + length l2)) (capacity_of o)); lia.
    + cbv beta. intros o' w' (-> & H' & Hq). split. { eapply untouched_intro; eauto. }
      apply calm_or. intros Hcalm. specialize (Hq Hcalm). pose proof (fixed_capacity _ _ _ _ _ He Hc). unfold grown. rewrite !app_length in *.
      destruct (Nat.leb_spec (length l1 + (length us + length l2)) (capacity_of o)); lia.
  - apply (wp_conseq (insert moved C (length l1) mks) o w _ _ _ _
      (insert_realloc_ok moved (calm w) C own B (fun _ => True) minc _ (RL w Hne) _ _ _ _ _ _ _ _ _ _ Hat Hc Hmk eq_refl Hnil)).
    + cbv beta. intros o' r w' (Hr & h' & k' & H' & Hc' & Hk'). split; auto. destruct (cells_vec _ _ _ _ _ _ _ H' Hc') as [H1 H2]. split; auto.
      rewrite H2. unfold grown, reallocation_size in *. rewrite !app_length in *.
      destruct (Nat.leb_spec (length us) k); destruct (Nat.leb_spec (length l1 + (length us + length l2)) (capacity_of o)); lia.
    + cbv beta. intros o' w' (-> & H' & Hq). split. { eapply untouched_intro; eauto. }
      apply calm_or. intros Hcalm. specialize (Hq Hcalm). cbn [bounded_vector c_max] in Hq. unfold grown, reallocation_size in *.
      rewrite !app_length in *. destruct (Nat.leb_spec (length l1 + (length us + length l2)) (capacity_of o)); lia.
Qed.

Lemma resize_vec mk v new_size o vs others w :
  minc < maxc -> is_vec o vs others w -> makes others mk v ->
  ends (resize moved C new_size mk o w)
    (fun o' _ w' => is_vec o' (firstn new_size vs ++ repeat v (new_size - length vs)) others w')
    (fun o' w' => untouched o o' w w' /\ (someone_throws w \/ capacity_of o < new_size /\ maxc < grown o new_size)).
Proof.
  intros Hlt Hv Hmk. pose proof Hv as [_ Hu]. destruct (vec_cells _ _ _ _ Hv) as (k & Hc & Hk). pose proof (at_start w Hu) as Hat.
  apply makes_yields in Hmk. assert (Hne : minc <> maxc) by lia.
  apply (wp_conseq (resize moved C new_size mk) o w _ _ _ _
    (resize_realloc_ok moved (calm w) C own B (fun _ => True) minc _ (RL w Hne) _ _ _ _ _ _ _ _ _ Hat Hc Hmk)).
  - cbv beta. intros o' _ w' (h' & k' & H' & Hc'). now destruct (cells_vec _ _ _ _ _ _ _ H' Hc').
  - cbv beta. intros o' w' (-> & H' & Hq). split. { eapply untouched_intro; eauto. }
    apply calm_or. intros Hcalm. specialize (Hq Hcalm). cbn [bounded_vector c_max] in Hq. unfold reallocation_size in Hq.
    unfold grown. destruct (Nat.leb_spec new_size (capacity_of o)); lia.
Qed.

Lemma reserve_vec n o vs others w :
  is_vec o vs others w -> n <= maxc ->
  ends (bv_reserve moved minc maxc n o w)
    (fun o' _ w' => is_vec o' vs others w' /\ capacity_of o' = Nat.max n (capacity_of o))
    (fun o' w' => untouched o o' w w' /\ someone_throws w).
Proof.
  intros Hv Hn. pose proof Hv as [_ Hu]. destruct (vec_cells _ _ _ _ Hv) as (k & Hc & Hk). pose proof (at_start w Hu) as Hat.
  apply (wp_conseq (bv_reserve moved minc maxc n) o w _ _ _ _ (bv_reserve_ok moved (calm w) minc maxc Hmm _ _ _ _ _ _ _ Hat Hc Hn)).
  - cbv beta. intros o' _ w' (h' & k' & H' & Hc' & Hcap). destruct (cells_vec _ _ _ _ _ _ _ H' Hc') as [H1 H2]. split; auto.
    destruct (Nat.leb_spec n (length vs + k)); lia.
  - cbv beta. intros o' w' (-> & H' & Hq). split. { eapply untouched_intro; eauto. } now apply not_calm.
Qed.

Lemma shrink_vec o vs others w :
  minc < maxc -> is_vec o vs others w ->
  ends (shrink_to_fit moved C minc o w)
    (fun o' _ w' => is_vec o' vs others w' /\ capacity_of o' = Nat.max minc (length vs))
    (fun o' w' => untouched o o' w w' /\ someone_throws w).
Proof.
  intros Hlt Hv. pose proof Hv as [_ Hu]. destruct (vec_cells _ _ _ _ Hv) as (k & Hc & Hk). pose proof (at_start w Hu) as Hat.
  assert (Hne : minc <> maxc) by lia.
  apply (wp_conseq (shrink_to_fit moved C minc) o w _ _ _ _
    (shrink_to_fit_ok moved (calm w) C own (fun _ => True) minc B _ (RL w Hne) _ _ _ _ _ _ _ Hat Hc)).
  - cbv beta. intros o' _ w' (h' & k' & H' & Hc' & Hcap). destruct (cells_vec _ _ _ _ _ _ _ H' Hc') as [H1 H2]. split; auto.
    assert (minc <= length vs + k'). { pose proof (rl_min _ _ _ _ _ _ (RL w Hne) _ _ _ _ (proj1 Hc')) as Hm. rewrite length_cells in Hm. exact Hm. }
    lia.
  - cbv beta. intros o' w' (-> & H' & Hq). split. { eapply untouched_intro; eauto. } now apply not_calm.
Qed.

Lemma destroy_vec o vs others w :
  is_vec o vs others w ->
  ends (bv_destroy o w) (fun _ _ w' => same (heap w') others) (fun _ _ => False).
Proof.
  intros Hv. pose proof Hv as [_ Hu]. destruct (vec_cells _ _ _ _ Hv) as (k & Hc & Hk). pose proof (at_start w Hu) as Hat.
  apply (wp_conseq bv_destroy o w _ _ _ _ (bv_disposes moved (calm w) minc maxc Hmm _ _ _ _ _ Hc w Hat)); [|auto].
  cbv beta. intros _ _ w' (H1 & _). exact H1.
Qed.

Lemma default_vec w :
  unused_names w ->
  ends (bv_default minc tt w)
    (fun _ o w' => is_vec o [] (heap w) w' /\ capacity_of o = minc)
    (fun _ w' => same (heap w') (heap w) /\ someone_throws w).
Proof.
  intros Hu. pose proof (at_start w Hu) as Hat.
  apply (wp_conseq (bv_default minc) tt w _ _ _ _ (bv_default_ok moved (calm w) minc maxc Hmm _ _ Hat)).
  - cbv beta. intros _ o w' (h' & H' & Hc). now destruct (cells_vec _ _ _ _ _ _ _ H' Hc).
  - cbv beta. intros _ w' [H' Hq]. split. { apply H'. } now apply not_calm.
Qed.

Lemma assign_vec mks us o vs others w :
  minc < maxc -> is_vec o vs others w -> Forall2 (makes others) mks us ->
  ends (assign moved C false false (Source mks true) o w)
    (fun o' _ w' => is_vec o' us others w')
    (fun o' w' => (someone_throws w \/ capacity_of o < length us /\ maxc < grown o (length us)) /\
       exists n, n <= length vs /\ n <= length us /\ is_vec o' (firstn n us ++ skipn n vs) others w').
Proof.
  intros Hlt Hv Hmk. pose proof Hv as [_ Hu]. destruct (vec_cells _ _ _ _ Hv) as (k & Hc & Hk). pose proof (at_start w Hu) as Hat.
  apply makes_all in Hmk. assert (Hne : minc <> maxc) by lia.
  apply (wp_conseq (assign moved C false false (Source mks true)) o w _ _ _ _
    (assign_realloc_ok moved (calm w) C own B (fun _ => True) minc _ (RL w Hne) false _ _ _ _ _ _ _ _ Hat Hc Hmk)).
  - cbv beta. intros o' _ w' (h' & k' & H' & Hc'). now destruct (cells_vec _ _ _ _ _ _ _ H' Hc').
  - cbv beta. intros o' w' (m & h' & k' & Hq & Hm & H' & Hc'). split.
    + apply calm_or. intros Hcalm. specialize (Hq Hcalm). cbn [bounded_vector c_max] in Hq. unfold reallocation_size in Hq.
      unfold grown. destruct (Nat.leb_spec (length us) (capacity_of o)); lia.
    + exists m. split; [lia|]. split; [lia|]. now destruct (cells_vec _ _ _ _ _ _ _ H' Hc').
Qed.

End BoundedVector.
End Proofs.
