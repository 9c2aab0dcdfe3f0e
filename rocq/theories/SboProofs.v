(** * From the laws to the properties of sbo_vector *)

From Coq Require Import List Arith Bool NArith Lia.
From Verif Require Import Mem MemLemmas Vec VecLemmas VecLemmas2 VecLemmas3 VecInst SpecVec VecProofs VecProofs2 Sbo SboLemmas SpecSbo.
Import ListNotations.

Section Proofs.
Context {V : Type} (moved : V -> V) (small max : nat).
Context (Hsm : small < max) (Hmax : (N.of_nat max < 2 ^ 63)%N).
Local Notation world := (world V).
Local Notation contents := (@contents V).
Local Notation memory := (@memory V).
Local Notation C := (sbo_vector (V := V) moved small max).
Local Notation own := (sb_own (V := V) small max).
Local Notation cells := (holds_cells C own).
Local Notation is_sbo := (is_sbo (V := V) small max).
Local Notation is_sbo_in := (is_sbo_in (V := V) small max).
Local Notation B := (sb_base moved small max Hsm Hmax).
Local Notation large := (fun o => s_is_large o = true).
Local Notation RL w := (sb_realloc moved (calm w) small max Hsm Hmax).
Local Notation cap := (sbo_capacity small).

Lemma sbo_cells_in o vs (g m : memory) : is_sbo_in o vs g m <-> exists k, cells o vs k g m /\ length vs + k = cap o.
Proof.
  unfold SpecSbo.is_sbo_in, is_small_in, is_large_in, holds_cells, sb_own, sbo_capacity. cbn [sbo_vector c_size].
  split.
  - intros (Hs & [(Hl & (f & Hst) & Hg & (k & Hm & Hk) & Hr)|(c & Hl & b & f & Hst & Hc & Hne & Hg & Hgb & Hm & (k & Hb & Hk) & Hr)]);
      exists k; rewrite Hl, Hst; split; auto; split; auto; split; auto.
    + split. 2:{ now rewrite length_cells. } intros x. unfold upd. destruct (Nat.eqb_spec x (s_place o)) as [->|]; auto.
    + split; auto. split; auto. split. 2:{ rewrite length_cells. auto. }
      intros x. unfold upd. destruct (Nat.eqb_spec x b) as [->|]; auto. destruct (Nat.eqb_spec x (s_place o)) as [->|]; auto.
  - intros (k & ((Hg & Ho) & Hs) & Hk). split; auto.
    destruct (s_is_large o), (s_state o) as [f|[b|] c f] eqn:Hst; try contradiction.
    + right. destruct Ho as (Hne & Hgb & Hm & Hl & Hc). exists c. split; auto. exists b, f. split; auto. split; auto. split; auto. split; auto. split; auto.
      split. { rewrite Hm, upd_other by congruence. apply upd_same. }
      split. { exists k. split; auto. rewrite Hm. apply upd_same. }
      intros b' H1 H2. rewrite Hm, !upd_other; auto.
    + left. destruct Ho as (Hm & Hl). split; auto. split; [eauto|]. split; auto. split. { exists k. split; auto. rewrite Hm. apply upd_same. }
      intros b' H1. now rewrite Hm, upd_other.
Qed.

Lemma cells_cap o vs k g h : cells o vs k g h -> length vs + k = cap o.
Proof.
  intros [[_ Ho] _]. unfold sbo_capacity. destruct (s_is_large o), (s_state o) as [f|[b|] c f]; try contradiction; rewrite length_cells in Ho; lia.
Qed.
Lemma sbo_cells o vs g w : is_sbo o vs g w -> exists k, cells o vs k g (heap w) /\ length vs + k = cap o.
Proof. intros [H _]. now apply sbo_cells_in. Qed.
Lemma cells_sbo q o vs k g h (w : world) : at_ q w h -> cells o vs k g h -> is_sbo o vs g w /\ cap o = length vs + k.
Proof.
  intros H Hc. pose proof (cells_cap _ _ _ _ _ Hc) as Hcap. destruct Hc as [Ho Hs]. destruct (at_here _ _ _ H) as [He Hu].
  split; [|now symmetry]. split; auto. apply sbo_cells_in. exists k. split; auto. split; auto.
  eapply (bl_ext _ _ B); eauto. apply eqh_refl.
Qed.
Lemma small_le_cap o vs g w : is_sbo o vs g w -> small <= cap o <= max.
Proof.
  intros Hv. destruct (sbo_cells _ _ _ _ Hv) as (k & [[_ Ho] _] & Hk). unfold sbo_capacity.
  destruct (s_is_large o), (s_state o) as [f|[b|] c f]; try contradiction; lia.
Qed.
(** Small is having the capacity of the buffer. *)
Lemma small_iff o vs g w : is_sbo o vs g w -> (s_is_large o = false <-> cap o = small).
Proof.
  intros Hv. destruct (sbo_cells _ _ _ _ Hv) as (k & [[_ Ho] _] & Hk). unfold sbo_capacity.
  destruct (s_is_large o), (s_state o) as [f|[b|] c f]; try contradiction; split; intros; try lia; try reflexivity; discriminate.
Qed.

Lemma push_back_sbo mk v o vs others w :
  is_sbo o vs others w -> makes (heap w) mk v ->
  length vs < cap o \/ 1 <= max /\ 2 * length vs <= max ->
  ends (push_back moved C mk o w)
    (fun o' _ w' => is_sbo o' (vs ++ [v]) others w' /\ cap o' = sbo_grown small o (length (vs ++ [v])))
    (fun o' w' => untouched o o' w w' /\ someone_throws w).
Proof.
  intros Hv Hmk Hroom. pose proof Hv as [_ Hu]. destruct (sbo_cells _ _ _ _ Hv) as (k & Hc & Hk).
  apply makes_yields in Hmk. pose proof (at_start w Hu) as Hat.
  apply (wp_conseq (lazy_push_back moved C mk) o w
    (fun o' _ w' => exists h' k', at_ (calm w) w' h' /\ cells o' (vs ++ [v]) k' others h' /\
       length vs + 1 + k' = if k =? 0 then reallocation_size (length vs) 1 else length vs + k) _
    (fun o' w' => o' = o /\ at_ (calm w) w' (heap w) /\ ~ calm w)).
  - eapply (lazy_push_back_ok moved (calm w) C own large small B); [apply (RL w)|exact Hat|exact Hc|exact Hmk|].
    cbn [sbo_vector c_max]. destruct k; [right|left; lia]. unfold reallocation_size. lia.
  - intros o' _ w' (h' & k' & H' & Hc' & Hk'). destruct (cells_sbo _ _ _ _ _ _ _ H' Hc') as [H1 H2]. split; auto.
    unfold sbo_grown. rewrite H2, app_length. cbn [length]. rewrite Hk'. unfold reallocation_size.
    destruct (Nat.leb_spec (length vs + 1) (cap o)); destruct (Nat.eqb_spec k 0); try lia.
  - intros o' w' (-> & H' & Hq). split. { eapply untouched_intro; eauto. } now apply not_calm.
Qed.

Lemma pop_back_sbo o vs v others w :
  is_sbo o (vs ++ [v]) others w ->
  ends (pop_back C o w)
    (fun o' _ w' => is_sbo o' vs others w' /\ cap o' = cap o) (fun _ _ => False).
Proof.
  intros Hv. pose proof Hv as [_ Hu]. destruct (sbo_cells _ _ _ _ Hv) as (k & Hc & Hk). pose proof (at_start w Hu) as Hat.
  apply (wp_conseq (pop_back C) o w _ _ _ _ (pop_back_ok (calm w) C own B _ _ _ _ _ _ _ Hat Hc)); [|auto].
  cbv beta. intros o' _ w' (h' & H' & Hc'). destruct (cells_sbo _ _ _ _ _ _ _ H' Hc') as [H1 H2]. split; auto.
  rewrite app_length in Hk. cbn in Hk. lia.
Qed.

Lemma clear_sbo o vs others w :
  is_sbo o vs others w ->
  ends (clear C o w)
    (fun o' _ w' => is_sbo o' [] others w' /\ cap o' = cap o) (fun _ _ => False).
Proof.
  intros Hv. pose proof Hv as [_ Hu]. destruct (sbo_cells _ _ _ _ Hv) as (k & Hc & Hk). pose proof (at_start w Hu) as Hat.
  apply (wp_conseq (clear C) o w _ _ _ _ (clear_ok (calm w) C own B _ _ _ _ _ _ Hat Hc)); [|auto].
  cbv beta. intros o' _ w' (h' & H' & Hc'). destruct (cells_sbo _ _ _ _ _ _ _ H' Hc') as [H1 H2]. split; auto.
  cbn in H2. lia.
Qed.

Lemma erase_sbo o l1 ds ss others w :
  is_sbo o (l1 ++ ds ++ ss) others w ->
  ends (erase moved C (length l1) (length l1 + length ds) o w)
    (fun o' r w' => r = length l1 /\ is_sbo o' (l1 ++ ss) others w' /\ cap o' = cap o) (fun _ _ => False).
Proof.
  intros Hv. pose proof Hv as [_ Hu]. destruct (sbo_cells _ _ _ _ Hv) as (k & Hc & Hk). pose proof (at_start w Hu) as Hat.
  apply (wp_conseq (erase moved C (length l1) (length l1 + length ds)) o w _ _ _ _
           (erase_ok moved (calm w) C own B _ _ _ _ _ _ _ _ _ _ Hat Hc eq_refl eq_refl)); [|auto].
  cbv beta. intros o' r w' (Hr & h' & H' & Hc'). destruct (cells_sbo _ _ _ _ _ _ _ H' Hc') as [H1 H2]. split; auto. split; auto.
  rewrite !app_length in *. lia.
Qed.

Lemma erase_to_end_sbo o l1 l2 others w :
  is_sbo o (l1 ++ l2) others w ->
  ends (erase_to_end C (length l1) o w)
    (fun o' _ w' => is_sbo o' l1 others w' /\ cap o' = cap o) (fun _ _ => False).
Proof.
  intros Hv. pose proof Hv as [_ Hu]. destruct (sbo_cells _ _ _ _ Hv) as (k & Hc & Hk). pose proof (at_start w Hu) as Hat.
  apply (wp_conseq (erase_to_end C (length l1)) o w _ _ _ _ (erase_to_end_ok (calm w) C own B _ _ _ _ _ _ _ _ Hat Hc eq_refl)); [|auto].
  cbv beta. intros o' _ w' (h' & H' & Hc'). destruct (cells_sbo _ _ _ _ _ _ _ H' Hc') as [H1 H2]. split; auto.
  rewrite !app_length in *. lia.
Qed.

Lemma erase_if_sbo p o vs others w :
  is_sbo o vs others w ->
  ends (erase_if moved C p o w)
    (fun o' _ w' => is_sbo o' (without p vs) others w')
    (fun o' w' => someone_throws w /\ exists us, length us = length vs /\ is_sbo o' us others w').
Proof.
  intros Hv. pose proof Hv as [_ Hu]. destruct (sbo_cells _ _ _ _ Hv) as (k & Hc & Hk). pose proof (at_start w Hu) as Hat.
  apply (wp_conseq (erase_if moved C p) o w _ _ _ _ (erase_if_ok moved (calm w) C own B p _ _ _ _ _ _ Hat Hc)).
  - cbv beta. intros o' r w' (h' & k' & H' & Hc' & _).
    now destruct (cells_sbo _ _ _ _ _ _ _ H' Hc') as [H1 H2].
  - cbv beta. intros o' w' (h' & all & Hq & H' & Hl & Hc'). split. { now apply not_calm. }
    exists all. split; auto. now destruct (cells_sbo _ _ _ _ _ _ _ H' Hc').
Qed.

Lemma append_sbo mks us o vs others w :
  is_sbo o vs others w -> Forall2 (makes (heap w)) mks us ->
  ends (append moved C (Source mks true) o w)
    (fun o' _ w' => is_sbo o' (vs ++ us) others w' /\ cap o' = sbo_grown small o (length (vs ++ us)))
    (fun o' w' => untouched o o' w w' /\
       (someone_throws w \/ cap o < length (vs ++ us) /\ max < sbo_grown small o (length (vs ++ us)))).
Proof.
  intros Hv Hmk. pose proof Hv as [_ Hu]. destruct (sbo_cells _ _ _ _ Hv) as (k & Hc & Hk). pose proof (at_start w Hu) as Hat.
  apply makes_all in Hmk.
  apply (wp_conseq (append moved C (Source mks true)) o w _ _ _ _
    (append_sized_ok moved (calm w) C own large small B _ (RL w) _ _ _ _ _ _ _ _ Hat Hc Hmk));
    unfold sbo_grown; rewrite app_length.
  - cbv beta. intros o' _ w' (h' & k' & H' & Hc' & Hk'). destruct (cells_sbo _ _ _ _ _ _ _ H' Hc') as [H1 H2]. split; auto.
    rewrite H2, app_length, Hk'. unfold reallocation_size.
    destruct (Nat.leb_spec (length us) k); destruct (Nat.leb_spec (length vs + length us) (cap o)); lia.
  - cbv beta. intros o' w' (-> & H' & Hq). split. { eapply untouched_intro; eauto. }
    apply calm_or. intros Hcalm. specialize (Hq Hcalm). cbn [sbo_vector c_max] in Hq. unfold reallocation_size in Hq.
    destruct (Nat.leb_spec (length vs + length us) (cap o)); lia.
Qed.

Lemma append_unsized_sbo mks us o vs others w :
  is_sbo o vs others w -> Forall2 (makes others) mks us -> 2 * (length vs + length us) <= max ->
  ends (append moved C (Source mks false) o w)
    (fun o' _ w' => is_sbo o' (vs ++ us) others w')
    (fun o' w' => someone_throws w /\ exists n, n < length us /\ is_sbo o' (vs ++ firstn n us) others w').
Proof.
  intros Hv Hmk Hroom. pose proof Hv as [_ Hu]. destruct (sbo_cells _ _ _ _ Hv) as (k & Hc & Hk). pose proof (at_start w Hu) as Hat.
  apply makes_all in Hmk.
  assert (He : append moved C (Source mks false) = each_push_back moved C mks) by reflexivity.
  rewrite He.
  apply (wp_conseq (each_push_back moved C mks) o w _ _ _ _
    (each_push_back_ok moved (calm w) C own large small B _ (RL w) _ _ _ _ _ _ _ _ Hat Hc Hmk Hroom)).
  - cbv beta. intros o' _ w' (h' & k' & H' & Hc'). now destruct (cells_sbo _ _ _ _ _ _ _ H' Hc').
  - cbv beta. intros o' w' (n & h' & k' & Hn & Hq & H' & Hc'). split. { now apply not_calm. }
    exists n. split; auto. now destruct (cells_sbo _ _ _ _ _ _ _ H' Hc').
Qed.

Lemma insert_sbo mks us o l1 l2 others w :
  is_sbo o (l1 ++ l2) others w -> Forall2 (makes others) mks us -> mks <> [] \/ l2 = [] ->
  ends (insert moved C (length l1) mks o w)
    (fun o' r w' => r = length l1 /\ is_sbo o' (l1 ++ us ++ l2) others w' /\ cap o' = sbo_grown small o (length (l1 ++ us ++ l2)))
    (fun o' w' => untouched o o' w w' /\
       (someone_throws w \/ cap o < length (l1 ++ us ++ l2) /\ max < sbo_grown small o (length (l1 ++ us ++ l2)))).
Proof.
  intros Hv Hmk Hnil. pose proof Hv as [_ Hu]. destruct (sbo_cells _ _ _ _ Hv) as (k & Hc & Hk). pose proof (at_start w Hu) as Hat.
  apply makes_all in Hmk. pose proof (Forall2_len _ _ _ Hmk) as Hlen.
  apply (wp_conseq (insert moved C (length l1) mks) o w _ _ _ _
      (insert_realloc_ok moved (calm w) C own B large small _ (RL w) _ _ _ _ _ _ _ _ _ _ Hat Hc Hmk eq_refl Hnil)).
  - cbv beta. intros o' r w' (Hr & h' & k' & H' & Hc' & Hk'). split; auto. destruct (cells_sbo _ _ _ _ _ _ _ H' Hc') as [H1 H2]. split; auto.
    rewrite H2. unfold sbo_grown, reallocation_size in *. rewrite !app_length in *.
    destruct (Nat.leb_spec (length us) k); destruct (Nat.leb_spec (length l1 + (length us + length l2)) (cap o)); lia.
  - cbv beta. intros o' w' (-> & H' & Hq). split. { eapply untouched_intro; eauto. }
    apply calm_or. intros Hcalm. specialize (Hq Hcalm). cbn [sbo_vector c_max] in Hq. unfold sbo_grown, reallocation_size in *.
    rewrite !app_length in *. destruct (Nat.leb_spec (length l1 + (length us + length l2)) (cap o)); lia.
Qed.

Lemma resize_sbo mk v new_size o vs others w :
  is_sbo o vs others w -> makes others mk v ->
  ends (resize moved C new_size mk o w)
    (fun o' _ w' => is_sbo o' (firstn new_size vs ++ repeat v (new_size - length vs)) others w')
    (fun o' w' => untouched o o' w w' /\ (someone_throws w \/ cap o < new_size /\ max < sbo_grown small o new_size)).
Proof.
  intros Hv Hmk. pose proof Hv as [_ Hu]. destruct (sbo_cells _ _ _ _ Hv) as (k & Hc & Hk). pose proof (at_start w Hu) as Hat.
  apply makes_yields in Hmk.
  apply (wp_conseq (resize moved C new_size mk) o w _ _ _ _
    (resize_realloc_ok moved (calm w) C own B large small _ (RL w) _ _ _ _ _ _ _ _ _ Hat Hc Hmk)).
  - cbv beta. intros o' _ w' (h' & k' & H' & Hc'). now destruct (cells_sbo _ _ _ _ _ _ _ H' Hc').
  - cbv beta. intros o' w' (-> & H' & Hq). split. { eapply untouched_intro; eauto. }
    apply calm_or. intros Hcalm. specialize (Hq Hcalm). cbn [sbo_vector c_max] in Hq. unfold reallocation_size in Hq.
    unfold sbo_grown. destruct (Nat.leb_spec new_size (cap o)); lia.
Qed.

Lemma reserve_sbo n o vs others w :
  is_sbo o vs others w -> n <= max ->
  ends (sb_reserve moved small max n o w)
    (fun o' _ w' => is_sbo o' vs others w' /\ cap o' = Nat.max n (cap o))
    (fun o' w' => untouched o o' w w' /\ someone_throws w).
Proof.
  intros Hv Hn. pose proof Hv as [_ Hu]. destruct (sbo_cells _ _ _ _ Hv) as (k & Hc & Hk). pose proof (at_start w Hu) as Hat.
  apply (wp_conseq (sb_reserve moved small max n) o w _ _ _ _ (sb_reserve_ok moved (calm w) small max Hsm Hmax _ _ _ _ _ _ _ Hat Hc Hn)).
  - cbv beta. intros o' _ w' (h' & k' & H' & Hc' & _ & Hcap). destruct (cells_sbo _ _ _ _ _ _ _ H' Hc') as [H1 H2]. split; auto.
    destruct (Nat.leb_spec n (length vs + k)); lia.
  - cbv beta. intros o' w' (-> & H' & Hq). split. { eapply untouched_intro; eauto. } now apply not_calm.
Qed.

Lemma shrink_sbo o vs others w :
  is_sbo o vs others w ->
  ends (shrink_to_fit moved C small o w)
    (fun o' _ w' => is_sbo o' vs others w' /\ cap o' = Nat.max small (length vs))
    (fun o' w' => untouched o o' w w' /\ someone_throws w).
Proof.
  intros Hv. pose proof Hv as [_ Hu]. destruct (sbo_cells _ _ _ _ Hv) as (k & Hc & Hk). pose proof (at_start w Hu) as Hat.
  apply (wp_conseq (shrink_to_fit moved C small) o w _ _ _ _
    (shrink_to_fit_ok moved (calm w) C own large small B _ (RL w) _ _ _ _ _ _ _ Hat Hc)).
  - cbv beta. intros o' _ w' (h' & k' & H' & Hc' & Hcap). destruct (cells_sbo _ _ _ _ _ _ _ H' Hc') as [H1 H2]. split; auto.
    pose proof (small_le_cap _ _ _ _ H1). lia.
  - cbv beta. intros o' w' (-> & H' & Hq). split. { eapply untouched_intro; eauto. } now apply not_calm.
Qed.

Lemma destroy_sbo o vs others w :
  is_sbo o vs others w ->
  ends (sb_destroy small o w) (fun _ _ w' => same (heap w') others) (fun _ _ => False).
Proof.
  intros Hv. pose proof Hv as [_ Hu]. destruct (sbo_cells _ _ _ _ Hv) as (k & Hc & Hk). pose proof (at_start w Hu) as Hat.
  apply (wp_conseq (sb_destroy small) o w _ _ _ _ (sb_disposes moved (calm w) small max Hsm Hmax _ _ _ _ _ Hc w Hat)); [|auto].
  cbv beta. intros _ _ w' (H1 & _). exact H1.
Qed.

Lemma default_sbo w :
  unused_names w ->
  ends (sb_default small tt w)
    (fun _ o w' => is_sbo o [] (heap w) w' /\ s_is_large o = false) (fun _ _ => False).
Proof.
  intros Hu. pose proof (at_start w Hu) as Hat.
  apply (wp_conseq (sb_default small) tt w _ _ _ _ (sb_default_ok moved (calm w) small max _ _ Hat)); [|auto].
  cbv beta. intros _ o w' (h' & H' & Hc & Hl). destruct (cells_sbo _ _ _ _ _ _ _ H' Hc). auto.
Qed.

Lemma assign_sbo mks us o vs others w :
  is_sbo o vs others w -> Forall2 (makes others) mks us ->
  ends (assign moved C false false (Source mks true) o w)
    (fun o' _ w' => is_sbo o' us others w')
    (fun o' w' => (someone_throws w \/ cap o < length us /\ max < sbo_grown small o (length us)) /\
       exists n, n <= length vs /\ n <= length us /\ is_sbo o' (firstn n us ++ skipn n vs) others w').
Proof.
  intros Hv Hmk. pose proof Hv as [_ Hu]. destruct (sbo_cells _ _ _ _ Hv) as (k & Hc & Hk). pose proof (at_start w Hu) as Hat.
  apply makes_all in Hmk.
  apply (wp_conseq (assign moved C false false (Source mks true)) o w _ _ _ _
    (assign_realloc_ok moved (calm w) C own B large small _ (RL w) false _ _ _ _ _ _ _ _ Hat Hc Hmk)).
  - cbv beta. intros o' _ w' (h' & k' & H' & Hc'). now destruct (cells_sbo _ _ _ _ _ _ _ H' Hc').
  - cbv beta. intros o' w' (m & h' & k' & Hq & Hm & H' & Hc'). split.
    + apply calm_or. intros Hcalm. specialize (Hq Hcalm). cbn [sbo_vector c_max] in Hq. unfold reallocation_size in Hq.
      unfold sbo_grown. destruct (Nat.leb_spec (length us) (cap o)); lia.
    + exists m. split; [lia|]. split; [lia|]. now destruct (cells_sbo _ _ _ _ _ _ _ H' Hc').
Qed.

(** ** Filling an empty object *)
Lemma replace_ok q o k g h n w : at_ q w h -> cells o [] k g h -> n <= max ->
  wp (sb_replace_empty_allocation small max n) o w
    (fun o' _ w' => exists h' k', at_ q w' h' /\ cells o' [] k' g h' /\ k' = Nat.max small n)
    (fun o' w' => ~ q /\ (s_is_large o = false -> o' = o /\ at_ q w' h)).
Proof.
  intros H [Ho Hs] Hn. cbn [sbo_vector c_size length] in Hs. unfold sb_replace_empty_allocation.
  apply wp_bind, wp_get. apply wp_bind. apply wp_require. { now rewrite Hs. }
  apply wp_bind. cbn [map app] in Ho. pose proof Ho as [Hp Ho'].
  assert (Hd : wp sb_deallocate_large o w (fun o' _ w' => o' = o /\ at_ q w' (upd g (s_place o) (Some (raw small))) /\
      (s_is_large o = false -> w' = w)) (fun _ _ => False)).
  { unfold sb_deallocate_large. apply wp_bind, wp_get.
    destruct (s_is_large o), (s_state o) as [f|[b|] c f]; try contradiction.
    - destruct Ho' as (Hne & Hg & Hh & Hl & Hc). rewrite repeat_length in Hl. rewrite <- Hl.
      eapply wp_release; [exact H|exact Hh| |reflexivity|]. { now rewrite upd_other. } intros w2 H3. split; auto. split; auto. discriminate.
    - destruct Ho' as [Hh Hl]. rewrite repeat_length in Hl. subst k. apply wp_ret. split; auto. split; auto. eapply at_ext; eauto. }
  eapply wp_conseq; [exact Hd| |contradiction]. cbv beta. intros o' _ w1 (-> & H1 & Hw1).
  assert (Hlast : s_last_size o = 0%N \/ True) by auto.
  assert (Hzero : forall kk, recombine_size (repeat 0%N kk) (s_last_size o) = 0).
  { intros kk. unfold sb_size in Hs. destruct (s_is_large o), (s_state o) as [f|[b|] c f]; try contradiction;
    eapply recombine_zeros; eauto. }
  apply wp_bind. destruct (Nat.leb_spec n small) as [Hns|Hns].
  - apply wp_bind. eapply (wp_construct_state q) with (n := small); [exact H1|apply upd_same|].
    unfold set_is_large. apply wp_bind, wp_get, wp_put. cbn [s_place s_state s_last_size].
    apply wp_bind, wp_get. apply wp_require. { unfold sb_size. cbn [s_is_large s_state empty_small s_last_size]. now rewrite Hzero. }
    eexists _, small. split; [exact H1|]. split; [|lia]. split.
    + split; cbn; auto. split; [apply eqh_refl|]. apply repeat_length.
    + cbn [sbo_vector c_size]. unfold sb_size. cbn [s_is_large s_state empty_small s_last_size]. now rewrite Hzero.
  - apply wp_bind. apply wp_require. { apply andb_true_intro. split; apply Nat.leb_le; lia. }
    apply wp_bind. eapply wp_allocate; [exact H1| |].
    2:{ intros w2 Hq H2. split; auto. intros Hsm'. split; auto. destruct (s_is_large o); [discriminate|].
        destruct (s_state o); try contradiction. destruct Ho' as [Hh Hl]. rewrite repeat_length in Hl. subst k.
        eapply at_ext; [exact H2|]. apply eqh_sym. exact Hh. }
    intros w2 b Hb H2. assert (Hbp : b <> s_place o). { intros ->. rewrite upd_same in Hb. discriminate. }
    rewrite upd_other in Hb by auto.
    apply wp_bind. eapply (wp_construct_state q) with (n := small); [exact H2|rewrite upd_other by congruence; apply upd_same|].
    unfold set_is_large. apply wp_bind, wp_get, wp_put. cbn [s_place s_state s_last_size].
    apply wp_bind, wp_get. apply wp_require. { unfold sb_size. cbn [s_is_large s_state s_last_size]. now rewrite Hzero. }
    eexists _, n. split; [exact H2|]. split; [|lia]. split.
    + split; cbn; auto. split; auto. split; auto. split; [apply eqh_refl|]. rewrite repeat_length. lia.
    + cbn [sbo_vector c_size]. unfold sb_size. cbn [s_is_large s_state s_last_size]. now rewrite Hzero.
Qed.

Lemma fill_ok q mks us o k g h w : at_ q w h -> cells o [] k g h -> Forall2 (yields g) mks us -> length us <= max ->
  wp (assign_to_empty moved C false (Source mks true)) o w
    (fun o' _ w' => exists h' k', at_ q w' h' /\ cells o' us k' g h' /\
       length us + k' = if length us <=? k then k else Nat.max small (length us))
    (fun o' w' => ~ q /\ (s_is_large o = false \/ length us <= k -> exists h' k', at_ q w' h' /\ cells o' [] k' g h')).
Proof.
  intros H [Ho Hs] Hy Hl. pose proof (Forall2_len _ _ _ Hy) as Hlen. unfold assign_to_empty.
  apply wp_bind, wp_get. apply wp_bind. apply wp_require. { cbn [length] in Hs. now rewrite Hs. }
  cbn [sbo_vector c_reserve s_sized s_elements]. apply wp_bind. unfold assume_capacity. apply wp_require.
  { cbn [sbo_vector c_max]. apply Nat.leb_le. lia. }
  apply wp_bind. change (sb_capacity small max) with (c_capacity C). eapply wp_capacity; [exact B|exact Ho|].
  rewrite length_cells. cbn [length Nat.add].
  assert (Hcopy : forall o1 h1 w1 k1, at_ q w1 h1 -> cells o1 [] k1 g h1 -> length us <= k1 ->
    k1 = (if length us <=? k then k else Nat.max small (length us)) ->
    wp (o2 <- get ;; uninitialized_copy moved (c_data C o2) 0 mks ;;; c_set_size C (length mks)) o1 w1
      (fun o' _ w' => exists h' k', at_ q w' h' /\ cells o' us k' g h' /\
       length us + k' = if length us <=? k then k else Nat.max small (length us))
      (fun o' w' => ~ q /\ (s_is_large o = false \/ length us <= k -> exists h' k', at_ q w' h' /\ cells o' [] k' g h'))).
  { intros o1 h1 w1 k1 H1 [Ho1 Hs1] Hk1 Hk. apply wp_bind, wp_get. apply wp_bind. cbn [map app] in Ho1.
    assert (Hsplit : repeat (@None V) k1 = [] ++ repeat None (length mks) ++ repeat None (k1 - length mks)).
    { cbn [app]. rewrite <- repeat_plus. f_equal. lia. }
    rewrite Hsplit in Ho1.
    eapply (wp_own_copy moved q C own B o1 us mks [] (repeat None (k1 - length mks))); [exact H1|exact Ho1| | |].
    - eapply Forall2_yields_keep; [exact B|exact Ho1|exact Hy].
    - intros w2 h2 H2 Ho2 _. cbn [app] in Ho2. eapply wp_set_size; [exact B|exact Ho2|rewrite length_cells; lia|].
      intros o3 Ho3 _ Hs3. exists h2, (k1 - length mks). split; auto. split; [|rewrite Hlen; lia]. split; auto. lia.
    - intros w2 Hq H2. split; auto. intros _. exists h1, k1. split; auto. split; auto. cbn [map app]. now rewrite Hsplit. }
  apply wp_bind. destruct (Nat.ltb_spec k (length mks)) as [Hlt|Hge].
  - unfold do_reserve. cbn [sbo_vector c_replace].
    eapply wp_conseq; [eapply replace_ok; [exact H|split; [exact Ho|exact Hs]|lia]| |].
    + cbv beta. intros o1 _ w1 (h1 & k1 & H1 & Hc1 & Hk1). eapply Hcopy; eauto; [lia|].
      destruct (Nat.leb_spec (length us) k); lia.
    + cbv beta. intros o1 w1 [Hq He]. split; auto. intros [Hsmall|]; [|lia]. destruct (He Hsmall) as [-> H1].
      exists h, k. split; auto. split; auto.
  - apply wp_ret. eapply Hcopy; [exact H|split; [exact Ho|exact Hs]|lia|]. destruct (Nat.leb_spec (length us) k); lia.
Qed.

Lemma assign_trivial_sbo mks us o vs others w :
  is_sbo o vs others w -> Forall2 (makes others) mks us -> length us <= max ->
  ends (assign moved C true false (Source mks true) o w)
    (fun o' _ w' => is_sbo o' us others w')
    (fun o' w' => someone_throws w /\ (s_is_large o = false \/ length us <= cap o -> is_sbo o' [] others w')).
Proof.
  intros Hv Hmk Hl. pose proof Hv as [_ Hu]. destruct (sbo_cells _ _ _ _ Hv) as (k & Hc & Hk). pose proof (at_start w Hu) as Hat.
  apply makes_all in Hmk.
  match goal with |- ends ?r ?Q ?E => change (wp (clear C ;;; assign_to_empty moved C false (Source mks true)) o w Q E) end.
  apply wp_bind.
  assert (Hlarge : wp (clear C) o w (fun o' _ w' => (exists h', at_ (calm w) w' h' /\ cells o' [] (length vs + k) others h') /\ s_is_large o' = s_is_large o) (fun _ _ => False)).
  { pose proof (clear_ok (calm w) C own B _ _ _ _ _ _ Hat Hc) as Hclear. unfold wp in *.
    destruct (clear C o w) as [o1 a w1|o1 w1|] eqn:He; try contradiction. split; auto.
    destruct Hclear as (h1 & H1 & Hc1). pose proof (cells_cap _ _ _ _ _ Hc1) as Hcap. cbn in Hcap.
    destruct (cells_sbo _ _ _ _ _ _ _ H1 Hc1) as [Hi1 _].
    pose proof (small_iff _ _ _ _ Hv) as E0. pose proof (small_iff _ _ _ _ Hi1) as E1.
    replace (cap o1) with (cap o) in E1 by lia.
    destruct (s_is_large o1), (s_is_large o); auto; exfalso; [|]; destruct E0 as [E0 E0'], E1 as [E1 E1']; try (discriminate (E1' (E0 eq_refl))); discriminate (E0' (E1 eq_refl)). }
  eapply wp_conseq; [exact Hlarge| |contradiction]. cbv beta. intros o1 _ w1 ((h1 & H1 & Hc1) & Hlg).
  eapply wp_conseq; [eapply fill_ok; [exact H1|exact Hc1|exact Hmk|exact Hl]| |].
  - cbv beta. intros o2 _ w2 (h2 & k2 & H2 & Hc2 & _). now destruct (cells_sbo _ _ _ _ _ _ _ H2 Hc2).
  - cbv beta. intros o2 w2 [Hq He]. split. { now apply not_calm. } rewrite <- Hlg, <- Hk.
    intros Hcase. destruct (He Hcase) as (h2 & k2 & H2 & Hc2). now destruct (cells_sbo _ _ _ _ _ _ _ H2 Hc2).
Qed.

Lemma from_sbo mks us w :
  unused_names w -> Forall2 (makes (heap w)) mks us -> length us <= max ->
  ends (sb_from moved small max (Source mks true) tt w)
    (fun _ o w' => is_sbo o us (heap w) w' /\ cap o = Nat.max small (length us))
    (fun _ w' => same (heap w') (heap w) /\ someone_throws w).
Proof.
  intros Hu Hmk Hl. pose proof (at_start w Hu) as Hat. apply makes_all in Hmk.
  unfold sb_from, sb_constructor.
  pose proof (sb_default_ok moved (calm w) small max _ _ Hat) as Hd. cbn [sbo_vector c_default] in Hd. unfold wp in Hd.
  destruct (sb_default small tt w) as [x o w1|x w1|]; try contradiction. destruct Hd as (h1 & H1 & Hc1 & Hsmall).
  pose proof (fill_ok (calm w) mks us o small (heap w) h1 w1 H1 Hc1 Hmk Hl) as Hf. unfold wp in Hf.
  destruct (assign_to_empty moved C false (Source mks true) o w1) as [o2 a w2|o2 w2|]; try contradiction.
  - destruct Hf as (h2 & k2 & H2 & Hc2 & Hk2). cbn [ends]. destruct (cells_sbo _ _ _ _ _ _ _ H2 Hc2) as [A1 A2]. split; auto.
    destruct (Nat.leb_spec (length us) small); lia.
  - destruct Hf as [Hq He]. destruct (He (or_introl Hsmall)) as (h2 & k2 & H2 & Hc2).
    pose proof (sb_disposes moved (calm w) small max Hsm Hmax _ _ _ _ _ Hc2 w2 H2) as Hdis. cbn [sbo_vector c_destroy] in Hdis. unfold wp in Hdis.
    destruct (sb_destroy small o2 w2) as [x3 a3 w3|x3 w3|]; try contradiction. cbn [ends]. split; [apply Hdis|now apply not_calm].
Qed.

Lemma from_unsized_sbo mks us w :
  unused_names w -> Forall2 (makes (heap w)) mks us -> 2 * length us <= max ->
  ends (sb_from moved small max (Source mks false) tt w)
    (fun _ o w' => is_sbo o us (heap w) w')
    (fun _ w' => same (heap w') (heap w) /\ someone_throws w).
Proof.
  intros Hu Hmk Hl. pose proof (at_start w Hu) as Hat. apply makes_all in Hmk.
  unfold sb_from, sb_constructor.
  pose proof (sb_default_ok moved (calm w) small max _ _ Hat) as Hd. cbn [sbo_vector c_default] in Hd. unfold wp in Hd.
  destruct (sb_default small tt w) as [x o w1|x w1|]; try contradiction. destruct Hd as (h1 & H1 & Hc1 & Hsmall).
  pose proof (each_push_back_ok moved (calm w) C own large small B _ (RL w) mks us o [] small (heap w) h1 w1 H1 Hc1 Hmk Hl) as Hf.
  assert (He : assign_to_empty moved C false (Source mks false) o w1 = each_push_back moved C mks o w1).
  { unfold assign_to_empty, bind, get, require. destruct Hc1 as [_ Hs]. cbn [length] in Hs. rewrite Hs. reflexivity. }
  rewrite He. unfold wp in Hf.
  destruct (each_push_back moved C mks o w1) as [o2 a w2|o2 w2|]; try contradiction.
  - destruct Hf as (h2 & k2 & H2 & Hc2). cbn [ends]. now destruct (cells_sbo _ _ _ _ _ _ _ H2 Hc2).
  - destruct Hf as (n & h2 & k2 & Hn & Hq & H2 & Hc2).
    pose proof (sb_disposes moved (calm w) small max Hsm Hmax _ _ _ _ _ Hc2 w2 H2) as Hdis. cbn [sbo_vector c_destroy] in Hdis. unfold wp in Hdis.
    destruct (sb_destroy small o2 w2) as [x3 a3 w3|x3 w3|]; try contradiction. cbn [ends]. split; [apply Hdis|now apply not_calm].
Qed.

Lemma copies_of_sbo o vs others (m : memory) :
  is_sbo_in o vs others m -> Forall2 (makes m) (map (CopyOf (sb_data o)) (seq 0 (sb_size o))) vs.
Proof.
  intros (Hs & H). rewrite Hs.
  assert (Hb : exists b k, sb_data o = Some b /\ m b = Some (map Some vs ++ repeat None k)).
  { unfold sb_data. destruct H as [(Hl & (f & Hst) & _ & (k & Hm & _) & _)|(c & Hl & b & f & Hst & _ & _ & _ & _ & _ & (k & Hm & _) & _)];
    rewrite Hl, Hst; eauto. }
  destruct Hb as (b & k & -> & Hm). eapply Forall2_weaken. { intros a c. apply makes_yields. }
  apply (copies_yield m b vs (repeat None k) []). exact Hm.
Qed.

Lemma sbo_length o vs others m : is_sbo_in o vs others m -> length vs <= max.
Proof.
  intros (Hs & [(_ & _ & _ & (k & _ & Hk) & _)|(c & _ & b & f & _ & Hc & _ & _ & _ & _ & (k & _ & Hk) & _)]); lia.
Qed.

Lemma copy_sbo o vs others w :
  is_sbo o vs others w ->
  ends (sb_copy moved small max o tt w)
    (fun _ c w' => is_sbo c vs (heap w) w' /\ cap c = Nat.max small (length vs))
    (fun _ w' => same (heap w') (heap w) /\ someone_throws w).
Proof.
  intros [Hv Hu]. apply from_sbo; auto.
  - eapply copies_of_sbo; eauto.
  - eapply sbo_length; eauto.
Qed.

(** ** Two objects *)
Lemma sbo_in_same o vs (g g' m m' : memory) : is_sbo_in o vs g m -> same g g' -> same m m' -> is_sbo_in o vs g' m'.
Proof.
  intros H Hg Hm. apply sbo_cells_in in H. destruct H as (k & [Ho Hs] & Hk). apply sbo_cells_in. exists k. split; auto. split; auto.
  eapply (bl_ext _ _ B); eauto.
Qed.

Lemma two_intro q o vs t us k j g g2 h (w : world) :
  at_ q w h -> cells o vs k g g2 -> cells t us j g2 h -> two_sbos small max o vs t us g w.
Proof.
  intros H Ho Ht. destruct (at_here _ _ _ H) as [He Hu]. exists g2. split; [|split].
  - apply sbo_cells_in. exists k. split; auto. eapply cells_cap; eauto.
  - apply sbo_cells_in. exists j. split; [|eapply cells_cap; eauto]. destruct Ht as [Ht Hts]. split; auto.
    eapply (bl_ext _ _ B); eauto. apply eqh_refl.
  - exact Hu.
Qed.

(** Ownership of two objects does not depend on the order. *)
Definition adds (g : memory) (l : list (nat * list (option V))) : memory :=
  fun x => match find (fun p => fst p =? x) l with Some p => Some (snd p) | None => g x end.
Definition footprint (o : sbo) (cs : list (option V)) : list (nat * list (option V)) :=
  if s_is_large o
  then match s_state o with Large (Some b) _ _ => [(b, cs); (s_place o, raw small)] | _ => [] end
  else [(s_place o, cs)].
Definition shape (o : sbo) (cs : list (option V)) : Prop :=
  match s_is_large o, s_state o with
  | false, Small _ => length cs = small
  | true, Large (Some b) c _ => b <> s_place o /\ length cs = c /\ small < c <= max
  | _, _ => False
  end.
Lemma own_footprint o cs g h : own o cs g h <-> shape o cs /\ (forall p, In p (footprint o cs) -> g (fst p) = None) /\ same h (adds g (footprint o cs)).
Proof.
  unfold sb_own, shape, footprint, adds. destruct (s_is_large o), (s_state o) as [f|[b|] c f]; try tauto.
  - split.
    + intros (Hp & Hne & Hg & Hm & Hl & Hc). split; auto. split.
      { intros p [<-|[<-|[]]]; auto. }
      intros x. rewrite Hm. unfold upd. cbn [find fst snd]. rewrite (Nat.eqb_sym b x), (Nat.eqb_sym (s_place o) x).
      destruct (x =? b), (x =? s_place o); auto.
    + intros ((Hne & Hl & Hc) & Hn & Hm). split. { apply (Hn (s_place o, raw small)). cbn; auto. } split; auto.
      split. { apply (Hn (b, cs)). cbn; auto. } split; auto.
      intros x. rewrite Hm. unfold upd. cbn [find fst snd]. rewrite (Nat.eqb_sym b x), (Nat.eqb_sym (s_place o) x).
      destruct (x =? b), (x =? s_place o); auto.
  - split.
    + intros (Hp & Hm & Hl). split; auto. split. { intros p [<-|[]]; auto. }
      intros x. rewrite Hm. unfold upd. cbn [find fst snd]. rewrite (Nat.eqb_sym (s_place o) x). destruct (x =? s_place o); auto.
    + intros (Hl & Hn & Hm). split. { apply (Hn (s_place o, cs)). cbn; auto. } split; auto.
      intros x. rewrite Hm. unfold upd. cbn [find fst snd]. rewrite (Nat.eqb_sym (s_place o) x). destruct (x =? s_place o); auto.
Qed.

Lemma adds_find g l x : adds g l x = None -> find (fun p => fst p =? x) l = None /\ g x = None.
Proof. unfold adds. destruct (find _ l); [discriminate|auto]. Qed.
Lemma find_key (l : list (nat * list (option V))) p : In p l -> find (fun q => fst q =? fst p) l <> None.
Proof. intros Hi Hf. pose proof (find_none _ _ Hf _ Hi) as H. cbn in H. now rewrite Nat.eqb_refl in H. Qed.
Lemma find_some_key (l : list (nat * list (option V))) x p : find (fun q => fst q =? x) l = Some p -> In p l /\ fst p = x.
Proof. intros Hf. apply find_some in Hf. destruct Hf as [H1 H2]. apply Nat.eqb_eq in H2. auto. Qed.

Lemma own_swap o co t ct g m1 m2 : own o co g m1 -> own t ct m1 m2 -> exists m', own t ct g m' /\ own o co m' m2.
Proof.
  intros Ho Ht. apply own_footprint in Ho, Ht. destruct Ho as (So & No & Mo), Ht as (St & Nt & Mt).
  exists (adds g (footprint t ct)).
  assert (Hdis : forall p, In p (footprint t ct) -> find (fun q => fst q =? fst p) (footprint o co) = None /\ g (fst p) = None).
  { intros p Hp. specialize (Nt p Hp). rewrite Mo in Nt. now apply adds_find. }
  split; apply own_footprint; split; auto; split.
  - intros p Hp. now apply Hdis.
  - intros x. reflexivity.
  - intros p Hp. unfold adds. destruct (find _ (footprint t ct)) as [q|] eqn:Hf; [|now apply No].
    apply find_some_key in Hf. destruct Hf as [Hq He]. destruct (Hdis q Hq) as [Hn _]. rewrite He in Hn.
    elim (find_key _ _ Hp Hn).
  - intros x. rewrite Mt. unfold adds at 1 2. rewrite Mo. unfold adds.
    destruct (find _ (footprint t ct)) as [q|] eqn:Hf; auto.
    destruct (find_some_key _ _ _ Hf) as [Hq He]. destruct (Hdis q Hq) as [Hn _]. rewrite He in Hn. now rewrite Hn.
Qed.

Lemma cells_swap o vs k t us j g m1 m2 : cells o vs k g m1 -> cells t us j m1 m2 -> exists m', cells t us j g m' /\ cells o vs k m' m2.
Proof.
  intros [Ho Hs] [Ht Hz]. destruct (own_swap _ _ _ _ _ _ _ Ho Ht) as (m' & H1 & H2). exists m'. split; split; auto.
Qed.

Lemma two_sbos_sym o (vs : list V) t us others (w : world) :
  two_sbos small max o vs t us others w -> two_sbos small max t us o vs others w.
Proof.
  intros (mid & Ho & Ht & Hu). apply sbo_cells_in in Ho, Ht. destruct Ho as (k & Ho & Hk), Ht as (j & Ht & Hj).
  destruct (cells_swap _ _ _ _ _ _ _ _ _ Ho Ht) as (m' & H1 & H2). exists m'. split; [|split; auto]; apply sbo_cells_in; eauto.
Qed.

Lemma move_assign_cells q o vs k t us j g g2 h w : at_ q w h -> cells o vs k g g2 -> cells t us j g2 h ->
  wp (sb_move_assign moved small) (o, t) w
    (fun p _ w' => exists g' h', at_ q w' h' /\ cells (fst p) us j g g' /\ cells (snd p) [] small g' h' /\
       s_is_large (fst p) = s_is_large t /\ s_is_large (snd p) = false)
    (fun _ _ => False).
Proof.
  intros H Ho [Ht Hs].
  eapply wp_conseq; [eapply (sb_move_ok moved q small max Hsm Hmax); [exact H|exact Ht|exact Ho|]| |auto].
  { right. exists us, j. auto. }
  cbv beta. intros [o' t'] _ w' (g' & h' & H' & Ho' & Hs' & Hl & _ & _ & Ht' & Hlt). cbn [fst snd] in *. exists g', h'. split; auto.
  split. { split; auto. cbn [sbo_vector c_size] in *. congruence. } auto.
Qed.

Lemma move_cells q o vs k g h w : at_ q w h -> cells o vs k g h ->
  wp (sb_move moved small) o w
    (fun o' n w' => exists g' h', at_ q w' h' /\ cells n vs k g g' /\ cells o' [] small g' h' /\
       s_is_large n = s_is_large o /\ s_is_large o' = false)
    (fun _ _ => False).
Proof.
  intros H Hc. unfold sb_move. apply wp_bind.
  assert (Hd : wp (on_unit (sb_default small)) o w (fun o' n w' => o' = o /\ (exists h', at_ q w' h' /\ cells n [] small h h')) (fun _ _ => False)).
  { pose proof (sb_default_ok moved q small max _ _ H) as Hd. cbn [sbo_vector c_default] in Hd. unfold wp, on_unit in *.
    destruct (sb_default small tt w); try contradiction. destruct Hd as (h' & H' & Hc' & _). eauto. }
  eapply wp_conseq; [exact Hd| |contradiction]. cbv beta. intros o' n w1 (-> & h1 & H1 & Hn).
  apply wp_bind, wp_get.
  destruct (cells_swap _ _ _ _ _ _ _ _ _ Hc Hn) as (m' & Hn' & Hc').
  assert (Hraw : eqh m' (upd g (s_place n) (Some (raw small))) /\ g (s_place n) = None).
  { pose proof (sb_default_ok moved q small max _ _ H) as Hd'. destruct Hn' as [[Hp Hn'] _]. split; auto.
    pose proof Hn as [[_ Hn0] Hs0].
    destruct (s_is_large n) eqn:Hln, (s_state n) as [f|[b|] c f]; try contradiction.
    - exfalso. destruct Hn0 as (_ & _ & _ & Hl & Hlt). rewrite length_cells in Hl. cbn in Hl. lia.
    - destruct Hn' as [Hn' _]. exact Hn'. }
  destruct Hraw as [Hraw Hgn]. destruct Hc' as [Hc' Hs'].
  pose proof (sb_take_ok moved q small max Hsm Hmax n o _ g m' h1 w1 Hgn Hraw H1 Hc' (or_intror (ex_intro _ vs (ex_intro _ k (conj eq_refl Hs'))))) as Ht.
  unfold wp in Ht |- *. destruct (sb_move_assign_to_empty moved small (n, o) w1) as [[n2 o2] a w2|[n2 o2] w2|]; try contradiction.
  cbn [fst snd] in *. destruct Ht as (g' & h' & H' & Hn2 & Hs2 & Hl2 & _ & _ & Ho2 & Hlo). exists g', h'. split; auto. split.
  { split; auto. cbn [sbo_vector c_size] in *. congruence. } auto.
Qed.

Lemma cap_of_cells o vs k g h : cells o vs k g h -> cap o = length vs + k.
Proof. intros H. symmetry. eapply cells_cap; eauto. Qed.

Lemma move_sbo o vs others w :
  is_sbo o vs others w ->
  ends (sb_move moved small o w)
    (fun o' n w' => two_sbos small max n vs o' [] others w' /\ s_is_large o' = false /\ cap n = cap o)
    (fun _ _ => False).
Proof.
  intros Hv. pose proof Hv as [_ Hu]. destruct (sbo_cells _ _ _ _ Hv) as (k & Hc & Hk). pose proof (at_start w Hu) as Hat.
  apply (wp_conseq (sb_move moved small) o w _ _ _ _ (move_cells _ _ _ _ _ _ _ Hat Hc)); [|auto].
  cbv beta. intros o' n w' (g' & h' & H' & Hn & Ho & Hl & Hlo). split; [|split; auto].
  - eapply two_intro; eauto.
  - rewrite (cap_of_cells _ _ _ _ _ Hn), (cap_of_cells _ _ _ _ _ Hc). reflexivity.
Qed.

Lemma move_assign_sbo o (vs : list V) t us others (w : world) :
  two_sbos small max o vs t us others w ->
  ends (sb_move_assign moved small (o, t) w)
    (fun p _ w' => two_sbos small max (fst p) us (snd p) [] others w' /\ s_is_large (snd p) = false /\ cap (fst p) = cap t)
    (fun _ _ => False).
Proof.
  intros (mid & Ho & Ht & Hu). apply sbo_cells_in in Ho, Ht. destruct Ho as (k & Ho & Hk), Ht as (j & Ht & Hj).
  apply (wp_conseq (sb_move_assign moved small) (o, t) w _ _ _ _ (move_assign_cells _ _ _ _ _ _ _ _ _ _ _ (at_start w Hu) Ho Ht)); [|auto].
  cbv beta. intros p _ w' (g' & h' & H' & Hn & Ho' & Hl & Hlo). split; [|split; auto].
  - eapply two_intro; eauto.
  - rewrite (cap_of_cells _ _ _ _ _ Hn), (cap_of_cells _ _ _ _ _ Ht). reflexivity.
Qed.

Lemma swap_sbo o (vs : list V) t us others (w : world) :
  two_sbos small max o vs t us others w ->
  ends (sb_swap moved small (o, t) w)
    (fun p _ w' => two_sbos small max (fst p) us (snd p) vs others w' /\ cap (fst p) = cap t /\ cap (snd p) = cap o)
    (fun _ _ => False).
Proof.
  intros H. apply two_sbos_sym in H. destruct H as (mid & Ht & Ho & Hu). apply sbo_cells_in in Ho, Ht.
  destruct Ho as (k & Ho & Hk), Ht as (j & Ht & Hj). pose proof (at_start w Hu) as Hat.
  unfold sb_swap. cbn [fst snd].
  pose proof (move_cells _ _ _ _ _ _ _ Hat Ho) as H1. unfold wp in H1.
  destruct (sb_move moved small o w) as [a temp w1|a w1|]; try contradiction. destruct H1 as (g1 & h1 & H1 & Htemp & Ha & _ & _).
  destruct (cells_swap _ _ _ _ _ _ _ _ _ Ht Htemp) as (m2 & Htemp2 & Ht2).
  destruct (cells_swap _ _ _ _ _ _ _ _ _ Ht2 Ha) as (m3 & Ha3 & Ht3).
  pose proof (move_assign_cells _ _ _ _ _ _ _ _ _ _ _ H1 Ha3 Ht3) as H2. unfold wp in H2.
  destruct (sb_move_assign moved small (a, t) w1) as [[a' b'] x w2|p2 w2|]; try contradiction. cbn [fst snd] in H2.
  destruct H2 as (g4 & h4 & H2 & Ha4 & Hb4 & _ & _).
  destruct (cells_swap _ _ _ _ _ _ _ _ _ Htemp2 Ha4) as (m5 & Ha5 & Htemp5).
  destruct (cells_swap _ _ _ _ _ _ _ _ _ Htemp5 Hb4) as (m6 & Hb6 & Htemp6).
  pose proof (move_assign_cells _ _ _ _ _ _ _ _ _ _ _ H2 Hb6 Htemp6) as H3. unfold wp in H3.
  destruct (sb_move_assign moved small (b', temp) w2) as [[b2 temp2] x3 w3|p3 w3|]; try contradiction. cbn [fst snd] in H3.
  destruct H3 as (g7 & h7 & H3 & Hb7 & Htemp7 & _ & _).
  pose proof (sb_disposes moved (calm w) small max Hsm Hmax _ _ _ _ _ Htemp7 w3 H3) as H4. cbn [sbo_vector c_destroy] in H4. unfold wp in H4.
  destruct (sb_destroy small temp2 w3) as [y4 a4 w4|y4 w4|]; try contradiction. cbn [ends fst snd].
  split; [|split].
  - eapply two_intro; [exact H4|exact Ha5|exact Hb7].
  - rewrite (cap_of_cells _ _ _ _ _ Ha5), (cap_of_cells _ _ _ _ _ Ht). reflexivity.
  - rewrite (cap_of_cells _ _ _ _ _ Hb7), (cap_of_cells _ _ _ _ _ Ho). reflexivity.
Qed.

Lemma copy_assign_sbo o (vs : list V) t us others (w : world) :
  two_sbos small max o vs t us others w ->
  ends (sb_copy_assign moved small max false t o w)
    (fun o' _ w' => two_sbos small max o' us t us others w')
    (fun o' w' => (someone_throws w \/ cap o < length us /\ max < sbo_grown small o (length us)) /\
       exists n, n <= length vs /\ n <= length us /\ two_sbos small max o' (firstn n us ++ skipn n vs) t us others w').
Proof.
  intros H. apply two_sbos_sym in H. destruct H as (mid & Ht & Ho & Hu).
  pose proof (copies_of_sbo _ _ _ _ Ht) as Hmk.
  pose proof (assign_sbo _ us o vs mid w (conj Ho Hu) Hmk) as Ha. unfold sb_copy_assign.
  unfold ends in *. destruct (assign _ _ _ _ _ o w) as [o' a w'|o' w'|]; auto.
  - apply two_sbos_sym. exists mid. destruct Ha. auto.
  - destruct Ha as [Hw (n & Hn1 & Hn2 & Hn)]. split; auto. exists n. split; auto. split; auto.
    apply two_sbos_sym. exists mid. destruct Hn. auto.
Qed.

End Proofs.
