(** * Proofs about programs with several stable_vectors *)

From Coq Require Import List Arith Bool Lia.
From Verif Require Import Mem MemLemmas Vec VecLemmas VecLemmas2 VecLemmas3 VecInst VecCost SpecVec SpecHistory VecProofs VecProofs2 VecProofs3 VecProofs5 VecHistory SpecSeveral Several
  SpecVecPrograms VecPrograms.
From Verif Require SpecStaticPrograms.
From Verif Require Import SpecStablePrograms.
Import ListNotations.

Section Proofs.
Context {V : Type} (moved : V -> V) (capacity : nat).
Local Notation world := (world V).
Local Notation memory := (@memory V).
Local Notation C := (bounded_vector (V := V) moved capacity capacity).
Local Notation is_vec := (is_vector (V := V) capacity capacity).
Local Notation is_vec_in := (is_vector_in (V := V) capacity capacity).
Local Notation vector_in := (vector_in (V := V) capacity capacity).
Local Notation vectors := (vectors (V := V) capacity).
Local Notation own := (bv_own (V := V) capacity capacity).
Local Notation B := (bv_base moved capacity capacity (le_n _)).
Let Hmm : capacity <= capacity := le_n _.

(** ** Calls that append *)
Lemma fixed_room o vs (others : memory) w : is_vec o vs others w -> capacity_of o = capacity /\ length vs <= capacity.
Proof.
  intros [[Hs H] _]. unfold capacity_of. destruct (u_pointer (b_storage o)).
  - destruct H as (_ & (k & _ & Hk & Hr) & _). rewrite Hk. lia.
  - destruct H as (-> & -> & <- & _). cbn. lia.
Qed.
Lemma append_fixed_vec mks us o vs others w :
  is_vec o vs others w -> Forall2 (makes (heap w)) mks us -> length vs + length us <= capacity ->
  ends (append moved C (Source mks true) o w)
    (fun o' _ w' => is_vec o' (vs ++ us) others w')
    (fun o' w' => untouched o o' w w' /\ someone_throws w).
Proof.
  intros Hv Hmk Hl. pose proof Hv as [_ Hu]. destruct (vec_cells moved _ _ _ _ _ _ Hv) as (k & Hc & Hk). pose proof (fixed_room _ _ _ _ Hv) as [Hroom _].
  pose proof (at_start w Hu) as Hat. apply makes_all in Hmk. pose proof (Forall2_len _ _ _ Hmk) as Hlen.
  apply (wp_conseq (append moved C (Source mks true)) o w _ _ _ _
    (append_fixed_ok moved (calm w) C own B (fixed_reserve moved _ _ eq_refl) _ _ _ _ _ _ _ _ Hat Hc Hmk ltac:(lia))).
  - cbv beta. intros o' _ w' (h' & H' & Hc'). eapply cells_vec; eauto.
  - cbv beta. intros o' w' (-> & H' & _ & Hq). split. { eapply untouched_intro; eauto. } now apply not_calm.
Qed.
Lemma append_too_long_vec mks o w :
  capacity < length mks -> append moved C (Source mks true) o w = Exc o w.
Proof.
  intros Hl. apply Nat.ltb_lt in Hl. unfold append. rewrite (fixed_reserve moved _ _ eq_refl). unfold checked_uninitialized_copy, bind, get, ret, throw.
  cbn [bounded_vector c_capacity s_sized s_elements]. unfold bv_capacity, bind, get. rewrite Nat.eqb_refl. unfold ret. now rewrite Hl.
Qed.
Lemma resize_fixed_vec mk v new_size o vs others w :
  is_vec o vs others w -> makes others mk v -> new_size <= capacity ->
  ends (resize moved C new_size mk o w)
    (fun o' _ w' => is_vec o' (firstn new_size vs ++ repeat v (new_size - length vs)) others w')
    (fun o' w' => untouched o o' w w' /\ someone_throws w).
Proof.
  intros Hv Hmk Hn. pose proof Hv as [_ Hu]. destruct (vec_cells moved _ _ _ _ _ _ Hv) as (k & Hc & Hk). pose proof (fixed_room _ _ _ _ Hv) as [Hroom _].
  pose proof (at_start w Hu) as Hat. apply makes_yields in Hmk.
  apply (wp_conseq (resize moved C new_size mk) o w _ _ _ _
    (resize_fixed_ok moved (calm w) C own B (fixed_reserve moved _ _ eq_refl) mk v new_size o vs k others (heap w) w Hat Hc Hmk ltac:(lia))).
  - cbv beta. intros o' _ w' (h' & H' & Hc'). eapply cells_vec; eauto.
  - cbv beta. intros o' w' (-> & H' & Hq). split. { eapply untouched_intro; eauto. } now apply not_calm.
Qed.
Lemma assign_fixed_vec mks us o vs others w :
  is_vec o vs others w -> Forall2 (makes others) mks us -> length us <= capacity ->
  ends (assign moved C false false (Source mks true) o w)
    (fun o' _ w' => is_vec o' us others w')
    (fun o' w' => someone_throws w /\
       exists n, n <= length vs /\ n <= length us /\ is_vec o' (firstn n us ++ skipn n vs) others w').
Proof.
  intros Hv Hmk Hn. pose proof Hv as [_ Hu]. destruct (vec_cells moved _ _ _ _ _ _ Hv) as (k & Hc & Hk). pose proof (fixed_room _ _ _ _ Hv) as [Hroom _].
  pose proof (at_start w Hu) as Hat. apply makes_all in Hmk. pose proof (Forall2_len _ _ _ Hmk) as Hlen.
  apply (wp_conseq (assign moved C false false (Source mks true)) o w _ _ _ _
    (assign_fixed_ok moved (calm w) C own B (fixed_reserve moved _ _ eq_refl) false mks us o vs k others (heap w) w Hat Hc Hmk ltac:(lia))).
  - cbv beta. intros o' _ w' (h' & k' & H' & Hc'). eapply cells_vec; eauto.
  - cbv beta. intros o' w' (m & h' & k' & Hq & Hm & H' & Hc'). split. { now apply not_calm. }
    exists m. split; [lia|]. split; [lia|]. eapply cells_vec; eauto.
Qed.

(** ** Every call *)
Lemma perform_fixed c o vs others w :
  is_vec o vs others w -> SpecStaticPrograms.may_call capacity c (length vs) = true ->
  ends (perform moved capacity capacity c o w)
    (fun o' _ w' => is_vec o' (after c vs) others w')
    (fun o' w' => exists vs', interrupted c vs vs' /\ (someone_throws w \/ capacity < length (after c vs) /\ vs' = vs) /\ is_vec o' vs' others w').
Proof.
  intros Hv Hc. pose proof (fixed_room _ _ _ _ Hv) as [Hroom Hmax].
  destruct c as [v| | |first last|p|us|i us|n v|n| |us]; cbn [SpecStaticPrograms.may_call perform after interrupted] in *; try discriminate.
  - eapply ends_weaken. { apply (push_back_vec moved capacity capacity Hmm (Supply v) v o vs others w Hv); [reflexivity|]. auto. }
    + cbv beta. tauto.
    + cbv beta. intros o' w' (Hun & Ht). exists vs. split; auto. split; [|exact (untouched_vec _ _ _ _ _ _ _ _ Hv Hun)].
      destruct Ht as [|[_ Ht]]; auto. right. rewrite app_length. cbn. split; [lia|auto].
  - apply Nat.leb_le in Hc. destruct (@exists_last _ vs) as (l & v & ->). { destruct vs; cbn in *; [lia|discriminate]. }
    eapply ends_weaken. { eapply (pop_back_vec moved capacity capacity Hmm). exact Hv. }
    + cbv beta. intros o' _ w' [H _]. rewrite app_length. cbn. replace (length l + 1 - 1) with (length l) by lia.
      now rewrite firstn_app, Nat.sub_diag, firstn_all, app_nil_r.
    + contradiction.
  - eapply ends_weaken. { eapply (clear_vec moved capacity capacity Hmm). exact Hv. } { cbv beta. tauto. } contradiction.
  - apply andb_prop in Hc. destruct Hc as [H1 H2]. apply Nat.leb_le in H1, H2. apply ends_bind_ret.
    assert (Hsplit : vs = firstn first vs ++ firstn (last - first) (skipn first vs) ++ skipn last vs).
    { replace last with (last - first + first) at 2 by lia. rewrite <- skipn_add, firstn_skipn. now rewrite firstn_skipn. }
    assert (Hf : length (firstn first vs) = first) by (rewrite firstn_length; lia).
    assert (Hl : length (firstn (last - first) (skipn first vs)) = last - first) by (rewrite firstn_length, skipn_length; lia).
    pose proof (erase_vec moved capacity capacity Hmm o (firstn first vs) (firstn (last - first) (skipn first vs)) (skipn last vs) others w) as He.
    rewrite <- Hsplit, Hf, Hl in He. replace (first + (last - first)) with last in He by lia.
    eapply ends_weaken. { apply He. exact Hv. } { cbv beta. tauto. } { contradiction. }
  - apply ends_bind_ret. eapply ends_weaken. { apply (erase_if_vec moved capacity capacity Hmm). exact Hv. }
    + cbv beta. intros o' r w' [H _]. exact H.
    + cbv beta. intros o' w' [Ht (us & Hl & Hus)]. eauto.
  - apply orb_prop in Hc. destruct Hc as [Hc|Hc].
    + apply Nat.leb_le in Hc. eapply ends_weaken. { apply (append_fixed_vec (map Supply us) us o vs others w Hv (makes_supply _ _) Hc). }
      * cbv beta. tauto.
      * cbv beta. intros o' w' [Hun Ht]. exists vs. split; auto. split; auto. exact (untouched_vec _ _ _ _ _ _ _ _ Hv Hun).
    + apply Nat.ltb_lt in Hc. rewrite append_too_long_vec by now rewrite map_length.
      cbn. exists vs. split; auto. split; auto. right. rewrite app_length. split; [lia|auto].
  - apply andb_prop in Hc. destruct Hc as [H1 H2]. apply Nat.leb_le in H1. apply ends_bind_ret.
    assert (Hf : length (firstn i vs) = i) by (rewrite firstn_length; lia).
    assert (Hne : map Supply us <> [] \/ skipn i vs = []).
    { apply orb_prop in H2. destruct H2 as [H2|H2]; [left|right].
      - apply negb_true_iff, Nat.eqb_neq in H2. destruct us; [now elim H2|discriminate].
      - apply Nat.eqb_eq in H2. apply skipn_all2. lia. }
    pose proof (insert_vec moved capacity capacity Hmm (map Supply us) us o (firstn i vs) (skipn i vs) others w) as Hi.
    rewrite firstn_skipn, Hf in Hi. specialize (Hi Hv (makes_supply _ _) Hne).
    eapply ends_weaken. { exact Hi. }
    + cbv beta. tauto.
    + cbv beta. intros o' w' [Hun Ht]. exists vs. split; auto. split; [|exact (untouched_vec _ _ _ _ _ _ _ _ Hv Hun)]. destruct Ht as [|[Ht _]]; auto.
      right. split; auto. lia.
  - apply Nat.leb_le in Hc. eapply ends_weaken. { apply (resize_fixed_vec (Supply v) v n o vs others w Hv); auto. reflexivity. }
    + cbv beta. tauto.
    + cbv beta. intros o' w' [Hun Ht]. exists vs. split; auto. split; auto. exact (untouched_vec _ _ _ _ _ _ _ _ Hv Hun).
  - apply Nat.leb_le in Hc. eapply ends_weaken. { apply (assign_fixed_vec (map Supply us) us o vs others w Hv (makes_supply _ _) Hc). }
    + cbv beta. tauto.
    + cbv beta. intros o' w' [Ht (n & Hn1 & Hn2 & H)]. exists (firstn n us ++ skipn n vs). split; eauto.
Qed.

Local Notation in_same := (in_same capacity capacity).
Local Notation vec_in_same_rest := (vec_in_same_rest capacity capacity).
Local Notation in_swap := (in_swap capacity capacity).
Local Notation in_elements := (in_elements capacity capacity Hmm).
Local Notation in_size := (in_size capacity capacity).
Local Notation untouched_in := (untouched_in capacity capacity).
Local Notation destroy_any := (destroy_any moved capacity capacity Hmm).
Local Notation move_any := (move_any capacity capacity).
Local Notation later_rest := (later_rest capacity capacity Hmm).
Local Notation later_unused := (later_unused capacity capacity Hmm).
Local Notation calm_default := (calm_default capacity capacity Hmm).
Local Notation calm_from := (calm_from moved capacity capacity Hmm).
Local Notation calm_copy := (calm_copy moved capacity capacity Hmm).
Local Notation calm_self_move := (calm_self_move capacity capacity Hmm).
Local Notation calm_step := (calm_step moved capacity capacity Hmm).

(** ** Copy assignment *)
Lemma copy_assign_fixed o l t us (rest : memory) (w : world) :
  vector_in o l rest (heap w) -> unused_names w -> Forall2 (makes rest) (elements_of t) us -> length us <= capacity ->
  ends (bv_copy_assign moved capacity capacity false t o w)
    (fun o' _ w' => vector_in o' (Some us) rest (heap w') /\ unused_names w')
    (fun o' w' => someone_throws w /\
       match l with
       | None => vector_in o' None rest (heap w')
       | Some l => exists n, n <= length l /\ n <= length us /\ vector_in o' (Some (firstn n us ++ skipn n l)) rest (heap w')
       end /\ unused_names w').
Proof.
  intros Hin Hu Hmk Hmax. destruct (u_pointer (b_storage o)) as [b|] eqn:Hp.
  - assert (Hv : is_vec_in o (match l with Some l => l | None => [] end) rest (heap w)).
    { destruct l as [l|]; auto. destruct Hin as [[[H _] _]|H]; [congruence|exact H]. }
    unfold bv_copy_assign, bind, get. change (bv_data o) with (u_pointer (b_storage o)). rewrite Hp. fold (elements_of (V := V) t).
    eapply ends_weaken. { apply (assign_fixed_vec _ us o _ rest w (conj Hv Hu) Hmk Hmax). }
    + cbv beta. intros o' _ w' H. exact H.
    + cbv beta. intros o' w' [HT (n & Hn1 & Hn2 & [H1 H2])]. split; auto.
      destruct l as [l|]. { split; auto. exists n. auto. } split; auto. right. cbn in Hn1. replace n with 0 in H1 by lia. exact H1.
  - assert (Hv : moved_from o /\ same (heap w) rest /\ (match l with Some l => l | None => [] end) = [] /\ (l = Some [] -> is_vec_in o [] rest (heap w))).
    { assert (Hx : forall vs, is_vec_in o vs rest (heap w) -> moved_from o /\ same (heap w) rest /\ vs = []).
      { intros vs [H1 H2]. rewrite Hp in H2. destruct H2 as (-> & _ & _ & H2). repeat split; auto. }
      destruct l as [l|]; cbn [SpecVecPrograms.vector_in] in Hin.
      - destruct (Hx _ Hin) as (H1 & H2 & ->). auto.
      - destruct Hin as [[H1 H2]|H]. { split; [exact H1|]. split; [exact H2|]. split; [reflexivity|discriminate]. } destruct (Hx _ H) as (H1 & H2 & _). split; [exact H1|]. split; [exact H2|]. split; [reflexivity|discriminate]. }
    destruct Hv as (Hmf & Hs & Hl & Hvl). eapply ends_weaken.
    { apply (copy_assign_null moved capacity capacity Hmm false o t us w Hmf Hu); auto. eapply same_makes; [|exact Hmk]. intros x. symmetry. apply Hs. }
    + cbv beta. intros o' _ w' [H1 H2]. split; auto. eapply vec_in_same_rest; eauto.
    + cbv beta. intros o' w' [HT H]. split; auto. destruct H as [H|[H1 H2]].
      * destruct l as [l|].
        { subst l. destruct (untouched_in _ _ _ _ _ _ Hin H) as [Z1 Z2]. split; auto. exists 0. cbn. split; [lia|]. split; [lia|]. exact Z1. }
        exact (untouched_in _ _ _ _ _ _ Hin H).
      * assert (H3 : is_vec_in o' [] rest (heap w')) by (eapply vec_in_same_rest; eauto). split; auto.
        destruct l as [l|]; [|now right]. subst l. exists 0. cbn. split; [lia|]. split; [lia|]. exact H3.
Qed.


Lemma In_fits l ls : In (Some l) ls -> capacity < length l -> fits (V := V) capacity ls = false.
Proof.
  intros Hi Hl. unfold fits. apply Bool.not_true_iff_false. rewrite forallb_forall. intros H. specialize (H _ Hi). apply Nat.leb_le in H. lia.
Qed.
Lemma all_fit os : forall ls (others m : memory), several_in vector_in os ls others m -> fits capacity ls = true.
Proof.
  intros ls others m H. unfold fits. apply forallb_forall. intros [l|] Hl; auto. apply Nat.leb_le.
  apply In_nth_error in Hl. destruct Hl as [i Hi]. assert (Hlt : i < length os).
  { rewrite (several_lengths vector_in _ _ _ _ H). apply nth_error_Some. intros Hn. pose proof (eq_trans (eq_sym Hi) Hn) as He. discriminate He. }
  destruct (focus_one vector_in in_swap i _ _ _ _ Hlt H) as (o & l0 & rest & _ & Hnl & Ho & _).
  pose proof (eq_trans (eq_sym Hi) Hnl) as He. injection He as <-. apply in_elements in Ho. apply Ho.
Qed.

Lemma back i l os (ls : list (state (V := V))) others w : elements i ls = l -> at_index i ls = Some l -> vectors os (replace_at i (Some (elements i ls)) ls) others w -> vectors os ls others w.
Proof. intros -> H. now rewrite (at_replace _ _ _ H). Qed.
Lemma step_ok s os ls others w :
  vectors os ls others w -> possible capacity s (sizes_of ls) (gone_of ls) = true ->
  ends (do_step moved capacity s os w)
    (fun os' _ w' => vectors os' (then_ s ls) others w')
    (fun os' w' => exists ls', or_else s ls ls' /\ (someone_throws w \/ fits capacity (then_ s ls) = false /\ ls' = ls) /\ vectors os' ls' others w').
Proof.
  intros Ha Hp. pose proof Ha as [Hin Hu]. pose proof (several_lengths vector_in _ _ _ _ Hin) as Hlen.
  destruct s as [|vs|j|j|i|i c|i j k|i j|i p j|i j|i j|i j]; unfold SpecStablePrograms.do_step; cbn [possible SpecVecPrograms.do_step then_ or_else] in *;
    rewrite ?sizes_nth, ?sizes_length, <- ?Hlen in Hp;
    repeat match goal with H : _ && _ = true |- _ => apply andb_prop in H; destruct H end;
    repeat match goal with
           | H : (_ <? _) = true |- _ => apply Nat.ltb_lt in H
           | H : (_ <=? _) = true |- _ => apply Nat.leb_le in H
           | H : negb (_ =? _) = true |- _ => apply negb_true_iff, Nat.eqb_neq in H
           | H : negb (nth _ _ _) = true |- _ => apply usable_some in H; destruct H as (l & Hli & Hle)
           end.
  - (* New *) pose proof (default_vec moved capacity capacity Hmm w Hu) as H. pose proof (calm_default tt w) as Hc.
    eapply ends_weaken. { eapply (another_ok vector_in in_same in_swap _ os ls others w (Some []) (someone_throws w) Ha). unfold ends in *.
      destruct (bv_default capacity tt w) as [x o w1|x w1|]; try contradiction.
      - destruct H as [[H1 H2] _]. split; auto.
      - destruct H as [H1 H2]. split; auto. split; auto. eapply later_unused; eauto. }
    + cbv beta. auto.
    + cbv beta. intros os' w' [H1 H2]. exists ls. auto.
  - (* NewFrom *) pose proof (from_vec moved capacity capacity Hmm false (map Supply vs) vs w Hu (makes_supply _ _) Hp) as H.
    pose proof (calm_from (map Supply vs) tt w) as Hc.
    eapply ends_weaken. { eapply (another_ok vector_in in_same in_swap _ os ls others w (Some vs) (someone_throws w) Ha). unfold ends in *.
      destruct (bv_from moved capacity capacity false (Source (map Supply vs) true) tt w) as [x o w1|x w1|]; try contradiction.
      - destruct H as [[H1 H2] _]. split; auto.
      - destruct H as [H1 H2]. split; auto. split; auto. eapply later_unused; eauto. }
    + cbv beta. auto.
    + cbv beta. intros os' w' [H1 H2]. exists ls. auto.
  - (* NewCopy *) destruct (focus_one vector_in in_swap j _ _ _ _ Hp Hin) as (o & l & rest & Hno & Hnl & Ho & _).
    rewrite (look_ok _ _ _ _ _ Hno). rewrite (elements_nth _ _ _ Hnl). destruct (in_elements _ _ _ _ Ho) as [Hmk Hmax].
    set (us := match l with Some l => l | None => [] end) in *. pose proof (calm_copy o tt w) as Hc.
    assert (H : ends (bv_copy moved capacity capacity o tt w) (fun _ c w' => is_vec c us (heap w) w') (fun _ w' => same (heap w') (heap w) /\ someone_throws w)).
    { assert (Hsz : length (elements_of (V := V) o) = b_size o) by (unfold elements_of; now rewrite map_length, seq_length).
      pose proof (from_vec moved capacity capacity Hmm false (elements_of o) us w Hu Hmk Hmax) as H.
      unfold bv_from in H. cbn [s_sized s_elements] in H. rewrite Hsz in H. eapply ends_weaken; [exact H| |]; cbv beta; tauto. }
    eapply ends_weaken. { eapply (another_ok vector_in in_same in_swap _ os ls others w (Some us) (someone_throws w) Ha). unfold ends in *.
      destruct (bv_copy moved capacity capacity o tt w) as [x o1 w1|x w1|]; try contradiction.
      - exact H.
      - destruct H as [H1 H2]. split; auto. split; auto. eapply later_unused; eauto. }
    + cbv beta. auto.
    + cbv beta. intros os1 w' [H1 H2]. exists ls. auto.
  - (* NewMove *) destruct (focus_one vector_in in_swap j _ _ _ _ Hp Hin) as (o & l & rest & Hno & Hnl & Ho & Hr & Hback).
    rewrite (look_ok _ _ _ _ _ Hno). unfold bind, get, put, ends. rewrite (at_nth _ _ _ Hnl). split; auto.
    eapply (several_end vector_in in_swap); [apply move_any; exact Ho|]. apply Hback. left. split; [split; reflexivity|]. now intros b.
  - (* End *) destruct (focus_one vector_in in_swap i _ _ _ _ Hp Hin) as (o & l & rest & Hno & Hnl & Ho & Hr & _).
    pose proof (destroy_any o l rest w Ho Hu) as H. unfold one_of, bind, get, put. rewrite Hno. unfold ends in *.
    destruct (bv_destroy o w) as [o1 [] w1|o1 w1|]; try contradiction. destruct H as [H1 H2].
    assert (Hrm : remove_at i (replace_at i o1 os) = remove_at i os).
    { clear - Hp. revert os Hp. induction i as [|i IH]; intros [|x os] Hp; cbn [length] in *; try lia; [reflexivity|].
      rewrite replace_S, !remove_S. f_equal. apply IH. lia. }
    rewrite Hrm. split; auto. eapply (several_same vector_in in_same); [|exact Hr]. intros b. symmetry. apply H1.
  - (* Use *) eapply ends_weaken.
    { apply (one_of_ok vector_in in_swap i (perform moved capacity capacity c) os ls others w (fun _ l' => l' = Some (after c (elements i ls)))
               (fun l' => exists l0, interrupted c (elements i ls) l0 /\ l' = Some l0 /\ (someone_throws w \/ capacity < length (after c (elements i ls)) /\ l0 = elements i ls)) True); auto.
      intros o l0 rest _ Hnl Hi _. assert (l0 = Some (elements i ls)) by (rewrite <- (at_nth _ _ _ Hnl), Hle; exact Hli). subst l0.
      eapply ends_weaken. { apply (perform_fixed c o (elements i ls) rest w (conj Hi Hu)). assumption. }
      - cbv beta. intros o' _ w' [H1 H2]. eauto.
      - cbv beta. intros o' w' (vs' & H2 & H3 & H4 & H5). split; auto. exists (Some vs'). eauto 6. }
    + cbv beta. intros os' _ w' (l' & -> & H'). exact H'.
    + cbv beta. intros os' w' (_ & l' & (l0 & HE & -> & HT) & H'). exists (replace_at i (Some l0) ls). split; eauto. split; auto.
      destruct HT as [|[HT ->]]; auto. right. split; [|apply at_replace; rewrite Hle; exact Hli]. eapply In_fits; [|exact HT]. apply (In_state _ _ _ os); assumption.
  - (* PushElement *) assert (Hj : j < length os) by assumption.
    destruct (focus_one vector_in in_swap j _ _ _ _ Hj Hin) as (t & u & rt & Hnt & Hnu & Ht & _).
    rewrite (look_ok _ _ _ _ _ Hnt). destruct (in_elements _ _ _ _ Ht) as [Hmk _]. rewrite <- (elements_nth _ _ _ Hnu) in Hmk.
    destruct (element_make capacity capacity Hmm t (elements j ls) k (heap w) Hmk ltac:(assumption)) as (v & Hcut & Hmv). rewrite Hcut.
    eapply ends_weaken.
    { apply (one_of_ok vector_in in_swap i (push_back moved C (CopyOf (bv_data t) k)) os ls others w (fun _ l' => l' = Some (elements i ls ++ [v]))
               (fun l' => l' = Some (elements i ls)) (someone_throws w \/ length (elements i ls) = capacity)); auto.
      intros o l0 rest _ Hnl Hi _. assert (l0 = Some (elements i ls)) by (rewrite <- (at_nth _ _ _ Hnl), Hle; exact Hli). subst l0.
      eapply ends_weaken. { apply (push_back_vec moved capacity capacity Hmm _ v o (elements i ls) rest w (conj Hi Hu) Hmv). auto. }
      - cbv beta. intros o' _ w' [[Y1 Y2] _]. eauto.
      - cbv beta. intros o' w' [Hun HT]. split. { destruct HT as [|[_ HT]]; auto. } exists (Some (elements i ls)). split; auto. eapply untouched_in; eauto. }
    + cbv beta. intros os' _ w' (l' & -> & H'). exact H'.
    + cbv beta. intros os' w' (HT & l' & -> & H'). exists ls. split; auto. apply (back _ _ _ _ _ _ Hle Hli) in H'. split; auto.
      destruct HT as [|HT]; auto. right. split; auto. eapply In_fits; [apply (In_state _ _ _ os); assumption|]. rewrite app_length. cbn. lia.
  - (* AppendAll *) assert (Hj : j < length os) by assumption.
    destruct (focus_one vector_in in_swap j _ _ _ _ Hj Hin) as (t & u & rt & Hnt & Hnu & Ht & _).
    rewrite (look_ok _ _ _ _ _ Hnt). destruct (in_elements _ _ _ _ Ht) as [Hmk _]. rewrite <- (elements_nth _ _ _ Hnu) in Hmk.
    eapply ends_weaken.
    { apply (one_of_ok vector_in in_swap i (append moved C (Source (elements_of t) true)) os ls others w (fun _ l' => l' = Some (elements i ls ++ elements j ls))
               (fun l' => l' = Some (elements i ls)) (someone_throws w)); auto.
      intros o l0 rest _ Hnl Hi _. assert (l0 = Some (elements i ls)) by (rewrite <- (at_nth _ _ _ Hnl), Hle; exact Hli). subst l0.
      eapply ends_weaken. { apply (append_fixed_vec _ _ o (elements i ls) rest w (conj Hi Hu) Hmk). assumption. }
      - cbv beta. intros o' _ w' [Y1 Y2]. eauto.
      - cbv beta. intros o' w' [Hun HT]. split; auto. exists (Some (elements i ls)). split; auto. eapply untouched_in; eauto. }
    + cbv beta. intros os' _ w' (l' & -> & H'). exact H'.
    + cbv beta. intros os' w' (HT & l' & -> & H'). exists ls. split; auto. apply (back _ _ _ _ _ _ Hle Hli) in H'. auto.
  - (* InsertAll *) assert (Hj : j < length os) by assumption. assert (Hi0 : i < length os) by assumption.
    destruct (focus_two vector_in in_swap i j _ _ _ _ Hi0 Hj ltac:(auto) Hin) as (o & l0 & t & u & mid & rest & Hno & Hnl & Hnt & Hnu & Ho & Ht & Hback & _).
    rewrite (look_ok _ _ _ _ _ Hnt). destruct (in_elements _ _ _ _ Ht) as [Hmk _]. rewrite <- (elements_nth _ _ _ Hnu) in Hmk.
    assert (l0 = Some (elements i ls)) by (rewrite <- (at_nth _ _ _ Hnl), Hle; exact Hli). subst l0.
    apply ends_bind_ret. unfold one_of. rewrite Hno.
    pose proof (insert_vec moved capacity capacity Hmm (elements_of t) (elements j ls) o (firstn p (elements i ls)) (skipn p (elements i ls)) mid w) as H'.
    rewrite firstn_skipn in H'. assert (Hfp : length (firstn p (elements i ls)) = p) by (rewrite firstn_length; lia). rewrite Hfp in H'.
    assert (Hne : elements_of (V := V) t <> [] \/ skipn p (elements i ls) = []).
    { match goal with H : _ || _ = true |- _ => apply orb_prop in H; destruct H as [Hz|Hz] end.
      - left. apply negb_true_iff, Nat.eqb_neq in Hz. intros Hnil. pose proof (Forall2_len _ _ _ Hmk) as HL. rewrite Hnil in HL. cbn in HL. lia.
      - right. apply Nat.eqb_eq in Hz. apply skipn_all2. lia. }
    specialize (H' (conj Ho Hu) Hmk Hne). unfold ends in *. destruct (insert moved C p (elements_of t) o w) as [o1 r w1|o1 w1|]; try contradiction.
    + destruct H' as (_ & [Z1 Z2] & _). split; auto. eapply Hback; [exact Z1|]. exact Ht.
    + destruct H' as [Hun HT]. exists ls. split; auto. destruct (untouched_in _ _ _ _ _ _ Ho Hun) as [Z1 Z2].
      pose proof (Hback _ _ _ _ Z1 Ht) as Z3. pose proof (back _ _ _ _ _ _ Hle Hli (conj Z3 Z2)) as Z4. split; [|exact Z4].
      pose proof (fixed_room _ _ _ _ (conj Ho Hu)) as [Hr1 Hr2].
      destruct HT as [|[HT _]]; auto. right. split; auto. eapply In_fits; [apply (In_state _ _ _ os); assumption|].
      rewrite <- Hr1. eapply Nat.lt_le_trans; [exact HT|]. rewrite !app_length. lia.
  - (* CopyAssign *) assert (Hj : j < length os) by assumption. assert (Hi0 : i < length os) by assumption.
    destruct (focus_two vector_in in_swap i j _ _ _ _ Hi0 Hj ltac:(auto) Hin) as (o & l & t & u & mid & rest & Hno & Hnl & Hnt & Hnu & Ho & Ht & Hback & _).
    rewrite (look_ok _ _ _ _ _ Hnt). destruct (in_elements _ _ _ _ Ht) as [Hmk Hmax]. rewrite <- (elements_nth _ _ _ Hnu) in Hmk, Hmax.
    rewrite (at_nth _ _ _ Hnl). unfold one_of. rewrite Hno.
    pose proof (copy_assign_fixed o l t (elements j ls) mid w Ho Hu Hmk Hmax) as H'. unfold ends in *.
    destruct (bv_copy_assign moved capacity capacity false t o w) as [o1 [] w1|o1 w1|]; try contradiction.
    + destruct H' as [Z1 Z2]. split; auto. eapply Hback; eauto.
    + destruct H' as [HT [Z1 Z2]]. destruct l as [l|].
      * destruct Z1 as (n & Hn1 & Hn2 & Z1). eexists. split. { exists n. split; [exact Hn1|]. split; [exact Hn2|]. reflexivity. } split; auto. split; auto. eapply Hback; eauto.
      * exists ls. split; auto. split; auto. split; auto. pose proof (Hback _ _ _ _ Z1 Ht) as Z3. pose proof (replace_same i _ ls Hnl) as Hsame. change (replace_at i (None : state (V := V)) ls = ls) in Hsame. now rewrite Hsame in Z3.
  - (* MoveAssign *) assert (Hi0 : i < length os) by assumption. eapply (ends_weaken _ _ _ (fun _ _ => False)); [|intros ? ? ? X; exact X|contradiction].
    destruct (Nat.eqb_spec i j) as [->|Hij].
    + destruct (focus_one vector_in in_swap j _ _ _ _ Hi0 Hin) as (o & l & rest & Hno & Hnl & Ho & Hr & Hback).
      unfold one_of. rewrite Hno. rewrite replace_twice by exact (eq_ind _ (fun n => j < n) Hi0 _ Hlen).
      assert (Y : ends (bv_self_move_assign o w) (fun o' _ w' => moved_from o' /\ same (heap w') rest) (fun _ _ => False)).
      { assert (Hv : forall vs, is_vec_in o vs rest (heap w) -> ends (bv_self_move_assign o w) (fun o' _ w' => moved_from o' /\ same (heap w') rest) (fun _ _ => False)).
        { intros vs Y. apply (self_move_vec moved capacity capacity Hmm o vs rest w). now split. }
        destruct l as [l|]; cbn [SpecVecPrograms.vector_in] in Ho; eauto. destruct Ho as [[[Y1 Y2] Y3]|Y]; eauto.
        unfold bv_self_move_assign, bind, get, put, bv_data, deallocate_storage. rewrite Y1, Y2. cbn. split; [split; reflexivity|exact Y3]. }
      pose proof (calm_self_move o w) as Hc. unfold ends in *. destruct (bv_self_move_assign o w) as [o1 [] w1|o1 w1|]; try contradiction.
      destruct Y as [Y1 Y2]. split. { apply Hback. left. auto. } eapply later_rest; eauto.
    + destruct (focus_two vector_in in_swap i j _ _ _ _ Hi0 ltac:(assumption) ltac:(auto) Hin) as (o & l & t & u & mid & rest & Hno & Hnl & Hnt & Hnu & Ho & Ht & _ & Hback).
      unfold two_of. rewrite Hno, Hnt, (at_nth _ _ _ Hnu). pose proof (destroy_any o l mid w Ho Hu) as Y. pose proof (move_assign_is o t w) as Hm. unfold ends in Y.
      destruct (bv_destroy o w) as [o1 [] w1|o1 w1|]; try contradiction. destruct Y as [Y1 Y2]. rewrite Hm. unfold ends. split; auto.
      cbn [fst snd]. apply (Hback _ _ _ _ rest).
      * apply move_any. eapply in_same; [|exact Ht]. intros b. symmetry. apply Y1.
      * left. split; [split; reflexivity|now intros b].
  - (* Swap *) assert (Hi0 : i < length os) by assumption. eapply (ends_weaken _ _ _ (fun _ _ => False)); [|intros ? ? ? X; exact X|contradiction].
    destruct (focus_two vector_in in_swap i j _ _ _ _ Hi0 ltac:(assumption) ltac:(auto) Hin) as (o & l & t & u & mid & rest & Hno & Hnl & Hnt & Hnu & Ho & Ht & _ & Hback).
    unfold two_of. rewrite Hno, Hnt, (at_nth _ _ _ Hnu), (at_nth _ _ _ Hnl). unfold bv_swap, bind, get, put, ends. cbn [fst snd]. split; auto.
    destruct (in_swap _ _ _ _ _ _ _ Ho Ht) as (mid' & Z1 & Z2). apply (Hback _ _ _ _ mid').
    + destruct t as [st kt]. exact Z1.
    + destruct o as [so ko]. exact Z2.
Qed.

(** ** Programs *)
Lemma then_gone s (ls : list (state (V := V))) : possible capacity s (sizes_of ls) (gone_of ls) = true -> gone_of (then_ s ls) = gone_after s (gone_of ls).
Proof.
  intros Hp. destruct s as [|vs|j|j|i|i c|i j k|i j|i p j|i j|i j|i j]; cbn [then_ gone_after possible] in *;
    try (repeat match goal with H : _ && _ = true |- _ => apply andb_prop in H; destruct H end;
         match goal with H : negb (nth _ _ _) = true |- _ => apply usable_some in H; destruct H as (l & Hli & Hle) end;
         now apply (gone_same _ _ l));
    change (option (list V)) with (@state V); rewrite ?gone_app, ?gone_replace, ?gone_nth; auto.
  apply map_remove.
Qed.
Lemma else_gone s (ls ls' : list (state (V := V))) : possible capacity s (sizes_of ls) (gone_of ls) = true -> or_else s ls ls' -> gone_of ls' = gone_of ls.
Proof.
  intros Hp Ho. destruct s as [|vs|j|j|i|i c|i j k|i j|i p j|i j|i j|i j]; cbn [or_else possible] in *; try contradiction; try (now subst).
  - destruct Ho as (l' & _ & ->). apply andb_prop in Hp. destruct Hp as [Hp _]. apply andb_prop in Hp. destruct Hp as [_ Hp].
    destruct (usable_some _ _ Hp) as (l & H1 & _). now apply (gone_same _ _ l).
  - destruct (at_index i ls) as [l|] eqn:E; [|now subst]. destruct Ho as (n & _ & _ & ->). now apply (gone_same _ _ l).
Qed.
Lemma vectors_sizes os ls others w : vectors os ls others w -> map b_size os = sizes_of ls.
Proof. intros [H _]. eapply (several_map vector_in); [|exact H]. apply in_size. Qed.

Lemma program_ok ss : forall os ls others w,
  vectors os ls others w ->
  ends (program moved capacity ss (gone_of ls) os w)
    (fun os' _ w' => exists ls', accounts capacity ss ls ls' /\ vectors os' ls' others w') (fun _ _ => False).
Proof.
  induction ss as [|s ss IH]; intros os ls others w Ha; cbn [program].
  - cbn. exists ls. split; auto. constructor.
  - unfold bind at 1. unfold get. rewrite (vectors_sizes _ _ _ _ Ha). destruct (possible capacity s (sizes_of ls) (gone_of ls)) eqn:Hp.
    + unfold bind, attempt. pose proof (step_ok s os ls others w Ha Hp) as Hs. unfold ends in Hs.
      destruct (do_step moved capacity s os w) as [os1 [] w1|os1 w1|]; [| |contradiction].
      * rewrite <- (then_gone s ls Hp). eapply ends_weaken. { apply (IH _ _ _ _ Hs). } 2: auto.
        cbv beta. intros o' _ w' (ls' & He & H'). exists ls'. split; auto. now apply accounts_returns.
      * destruct Hs as (ls1 & Hi & _ & Hv1). rewrite <- (else_gone s ls ls1 Hp Hi). eapply ends_weaken. { apply (IH _ _ _ _ Hv1). } 2: auto.
        cbv beta. intros o' _ w' (ls' & He & H'). exists ls'. split; auto. eapply accounts_throws; eauto.
    + eapply ends_weaken. { apply (IH _ _ _ _ Ha). } 2: auto. cbv beta. intros o' _ w' (ls' & He & H'). exists ls'. split; auto. now apply accounts_skips.
Qed.

Lemma program_plain ss : forall os ls others w,
  vectors os ls others w -> ~ someone_throws w ->
  ends (program moved capacity ss (gone_of ls) os w)
    (fun os' _ w' => vectors os' (plainly capacity ss ls) others w') (fun _ _ => False).
Proof.
  induction ss as [|s ss IH]; intros os ls others w Ha Hq; cbn [program plainly] in *.
  - exact Ha.
  - unfold bind at 1. unfold get. rewrite (vectors_sizes _ _ _ _ Ha).
    destruct (possible capacity s (sizes_of ls) (gone_of ls)) eqn:Hp; cbn [andb].
    + unfold bind, attempt. pose proof (step_ok s os ls others w Ha Hp) as Hs. unfold ends in Hs.
      pose proof (calm_step s os w) as Hc. change (SpecVecPrograms.do_step moved capacity capacity s) with (do_step moved capacity s) in Hc.
      destruct (do_step moved capacity s os w) as [os1 [] w1|os1 w1|]; [| |contradiction].
      * rewrite <- (then_gone s ls Hp). rewrite (all_fit _ _ _ _ (proj1 Hs)). apply IH; auto. intros Ht. apply Hq. destruct Hc as [Hc _]. apply Hc. exact Ht.
      * destruct Hs as (ls' & _ & [Ht|[Hf ->]] & Hv1); [contradiction|]. rewrite Hf. apply IH; auto.
        intros Ht. apply Hq. destruct Hc as [Hc _]. apply Hc. exact Ht.
    + apply IH; auto.
Qed.

Lemma ends_program n : forall os ls others w gone, length os = n ->
  vectors os ls others w ->
  ends (program moved capacity (repeat (End 0) n) gone os w) (fun os' _ w' => os' = [] /\ same (heap w') others) (fun _ _ => False).
Proof.
  induction n as [|n IH]; intros os ls others w gone Hn Ha.
  - destruct os; [|discriminate]. destruct ls; [|destruct Ha as [[] _]]. cbn. split; auto. apply Ha.
  - cbn [repeat program]. unfold bind at 1. unfold get. destruct os as [|o os]; [discriminate|].
    destruct ls as [|l ls]; [destruct Ha as [[] _]|].
    assert (Hp : forall g sz, possible capacity (End (V := V) 0) (map b_size (o :: os)) g = true /\ possible capacity (End (V := V) 0) (sizes_of (l :: ls)) sz = true) by (split; reflexivity).
    rewrite (proj1 (Hp _ gone)). pose proof (step_ok (End 0) (o :: os) (l :: ls) others w Ha (proj2 (Hp gone _))) as Hs. unfold bind, attempt.
    assert (Hd : match do_step moved capacity (End 0) (o :: os) w with Ret os' _ _ => os' = os | _ => True end).
    { unfold do_step. cbn [SpecVecPrograms.do_step]. unfold one_of, bind, get, put. cbn [nth_error]. destruct (bv_destroy o w) as [o1 [] w1|o1 w1|]; auto. }
    unfold ends in Hs. destruct (do_step moved capacity (End 0) (o :: os) w) as [os1 [] w1|os1 w1|]; [| |contradiction].
    + subst os1. change (then_ (End 0) (l :: ls)) with ls in Hs. eapply IH; eauto.
    + destruct Hs as (ls' & [] & _).
Qed.

Lemma whole_ok ss w :
  unused_names w ->
  ends (whole moved capacity ss tt w) (fun _ _ w' => same (heap w') (heap w)) (fun _ _ => False).
Proof.
  intros Hu. unfold whole. assert (Ha : vectors [] [] (heap w) w). { split; auto. intros b. reflexivity. }
  pose proof (program_ok ss [] [] (heap w) w Ha) as H. change (gone_of []) with (@nil bool) in H. unfold ends in *.
  destruct (program moved capacity ss [] [] w) as [os [] w1|os w1|]; try contradiction.
  destruct H as (ls & _ & Ha1). pose proof (ends_program (length os) os ls (heap w) w1 (map (fun _ => true) os) eq_refl Ha1) as H. unfold ends in H.
  destruct (program moved capacity (repeat (End 0) (length os)) (map (fun _ => true) os) os w1); try contradiction. tauto.
Qed.

(** ** Where the elements are *)
Notation st := b_storage.
Ltac keep := repeat first
  [ apply keeps_set_size | apply keeps_capacity | apply keeps_construct_at | apply keeps_assign_at
  | apply keeps_destroy_range | apply keeps_copy | apply keeps_relocate | apply keeps_relocate_reversed
  | apply keeps_bind; [|intros ?] | apply keeps_rethrow | apply keeps_ret | apply keeps_get | apply keeps_throw | apply keeps_require
  | apply keeps_bad | apply keeps_may_throw | apply keeps_load | apply keeps_destroy ].
Lemma keeps_push mk : keeps st (push_back moved C mk).
Proof.
  unfold push_back, lazy_push_back. destruct (_ =? _); keep. destruct (_ <? _).
  - unfold lazy_push_back_into_capacity. cbn [bounded_vector c_set_size c_capacity]. keep.
  - rewrite (fixed_reserve moved _ _ eq_refl). keep.
Qed.
Lemma keeps_append mks : keeps st (append moved C (Source mks true)).
Proof.
  unfold append. rewrite (fixed_reserve moved _ _ eq_refl). cbn [bounded_vector c_set_size c_capacity]. keep.
  unfold checked_uninitialized_copy. cbn [s_sized]. keep. destruct (_ <? _); keep.
Qed.
Lemma keeps_insert i mks : keeps st (insert moved C i mks).
Proof.
  unfold insert. keep. destruct (_ <=? _).
  - unfold insert_without_reallocation. cbn [bounded_vector c_set_size]. keep.
  - rewrite (fixed_reserve moved _ _ eq_refl). keep.
Qed.
Lemma keeps_truncate {Y} (f : bvector -> Y) p i n mks d : keeps f (copy_truncate moved p i n mks d).
Proof. revert i mks d. induction n as [|n IH]; intros i [|mk mks] d; cbn; keep. apply IH. Qed.
Lemma keeps_assign mks : keeps st (assign moved C false false (Source mks true)).
Proof.
  unfold assign. cbn [s_elements s_sized]. apply keeps_bind; [apply keeps_get|intros o]. apply keeps_bind; [apply keeps_truncate|intros n].
  apply keeps_bind; [apply keeps_erase_to_end|intros _; apply keeps_append].
Qed.
Lemma keeps_perform c n : SpecStaticPrograms.may_call capacity c n = true -> keeps st (perform moved capacity capacity c).
Proof.
  destruct c; cbn [SpecStaticPrograms.may_call perform]; intros Hc; try discriminate.
  - apply keeps_push.
  - apply keeps_pop_back.
  - apply keeps_clear.
  - apply keeps_bind; [apply keeps_erase|intros _; apply keeps_ret].
  - apply keeps_bind; [apply keeps_erase_if|intros _; apply keeps_ret].
  - apply keeps_append.
  - apply keeps_bind; [apply keeps_insert|intros _; apply keeps_ret].
  - clear Hc. unfold resize. apply keeps_bind; [apply keeps_get|intros o]. destruct (_ <=? _); [apply keeps_erase_to_end|apply keeps_append].
  - apply keeps_assign.
Qed.
Lemma data_replace i o o' (os : list bvector) : nth_error os i = Some o -> st o' = st o -> map bv_data (replace_at i o' os) = map bv_data os.
Proof.
  intros Ho Hs. rewrite map_replace. replace (bv_data o') with (bv_data o) by (unfold bv_data; now rewrite Hs).
  apply replace_same. now apply map_nth_error.
Qed.
Lemma keeps_one {A} i (m : M V bvector A) : keeps st m -> keeps (map bv_data) (one_of i m).
Proof.
  intros H os w. unfold one_of. destruct (nth_error os i) as [o|] eqn:Ho; auto. specialize (H o w).
  destruct (m o w); auto; now apply (data_replace i o).
Qed.
Lemma keeps_looking {A} j (k : bvector -> M V (list bvector) A) : (forall o, keeps (map bv_data) (k o)) -> keeps (map bv_data) (looking_at j k).
Proof. intros H. apply keeps_bind; [apply keeps_get|intros os]. destruct (nth_error os j); auto. apply keeps_bad. Qed.
Lemma another_places (m : M V unit bvector) os w :
  match another m os w with Ret os' _ _ => exists p, map bv_data os' = map bv_data os ++ [p] | Exc os' _ => map bv_data os' = map bv_data os | Bad _ => True end.
Proof.
  unfold another, on_unit, bind, get, put. destruct (m tt w) as [x o w1|x w1|]; auto. exists (bv_data o). now rewrite map_app.
Qed.

Lemma data_nth j (os : list bvector) o : nth_error os j = Some o -> @nth ptr j (@map bvector ptr bv_data os) None = bv_data o.
Proof. intros H. apply nth_error_nth. now apply (map_nth_error bv_data). Qed.
Lemma step_places s os ls others w :
  vectors os ls others w -> possible capacity s (sizes_of ls) (gone_of ls) = true ->
  ends (do_step moved capacity s os w)
    (fun os' _ _ => places s (map bv_data os) (map bv_data os')) (fun os' _ => places_else s (map bv_data os) (map bv_data os')).
Proof.
  intros Ha Hp. pose proof (step_ok s os ls others w Ha Hp) as Hs. pose proof Ha as [Hin _]. pose proof (several_lengths vector_in _ _ _ _ Hin) as Hlen.
  assert (Hkeep : keeps (map bv_data) (do_step moved capacity s) ->
    match s with Use _ _ | PushElement _ _ _ | AppendAll _ _ | InsertAll _ _ _ => True | _ => False end ->
    ends (do_step moved capacity s os w) (fun os' _ _ => places s (map bv_data os) (map bv_data os')) (fun os' _ => places_else s (map bv_data os) (map bv_data os'))).
  { intros H Hm. specialize (H os w). unfold ends in *. destruct (do_step moved capacity s os w); auto; destruct s; cbn; auto; contradiction. }
  destruct s as [|vs|j|j|i|i c|i j k|i j|i p j|i j|i j|i j]; unfold SpecStablePrograms.do_step in *; cbn [possible SpecVecPrograms.do_step places places_else] in *.
  - pose proof (another_places (bv_default capacity) os w) as H. unfold ends in *. destruct (another (bv_default capacity) os w); auto.
  - pose proof (another_places (bv_from moved capacity capacity false (Source (map Supply vs) true)) os w) as H. unfold ends in *.
    destruct (another (bv_from moved capacity capacity false (Source (map Supply vs) true)) os w); auto.
  - assert (Hl : forall A (k : bvector -> M V (list bvector) A), looking_at j k os w = match nth_error os j with Some o => k o os w | None => Bad Broken end)
      by (intros; unfold looking_at, bind, get; now destruct (nth_error os j)).
    rewrite Hl in *. destruct (nth_error os j) as [o|]; [|contradiction].
    pose proof (another_places (bv_copy moved capacity capacity o) os w) as H. unfold ends in *. destruct (another (bv_copy moved capacity capacity o) os w); auto.
  - unfold looking_at, bind, get, put in *. destruct (nth_error os j) as [o|] eqn:Ho; [|contradiction]. cbn.
    rewrite map_app, map_replace. rewrite (data_nth _ _ _ Ho). destruct o as [[q n] z]. reflexivity.
  - unfold one_of, bind, get, put in *. destruct (nth_error os i) as [o|] eqn:Ho; [|contradiction].
    destruct (bv_destroy o w) as [o1 [] w1|o1 w1|]; try contradiction. 2:{ destruct Hs as (ls' & [] & _). }
    cbn. rewrite map_remove, map_replace. unfold remove_at, replace_at. clear - Ho.
    assert (Hi : i <= length (map bv_data os)). { rewrite map_length. apply Nat.lt_le_incl, nth_error_Some. congruence. }
    pose proof (firstn_length_le _ Hi) as Hl. rewrite firstn_app, Hl, Nat.sub_diag, firstn_O, app_nil_r, firstn_all2 by lia.
    f_equal. rewrite skipn_app, Hl. rewrite skipn_all2 by lia. replace (S i - i) with 1 by lia. reflexivity.
  - apply Hkeep; auto. apply keeps_one. apply andb_prop in Hp. destruct Hp as [_ Hp]. exact (keeps_perform _ _ Hp).
  - apply Hkeep; auto. apply keeps_looking. intros o. apply keeps_one, keeps_push.
  - apply Hkeep; auto. apply keeps_looking. intros o. apply keeps_one, keeps_append.
  - apply Hkeep; auto. apply keeps_looking. intros o. apply keeps_bind; [apply keeps_one, keeps_insert|intros _; apply keeps_ret].
  - assert (Hl : forall A (k : bvector -> M V (list bvector) A), looking_at j k os w = match nth_error os j with Some o => k o os w | None => Bad Broken end)
      by (intros; unfold looking_at, bind, get; now destruct (nth_error os j)).
    rewrite Hl in *. destruct (nth_error os j) as [t|]; [|contradiction]. unfold one_of in *.
    destruct (nth_error os i) as [o|] eqn:Ho; [|contradiction]. rewrite (data_nth _ _ _ Ho).
    destruct (bv_data o) as [b|] eqn:Hb.
    + assert (He : bv_copy_assign moved capacity capacity false t o w = assign moved C false false (Source (elements_of t) true) o w).
      { unfold bv_copy_assign, bind, get. now rewrite Hb. }
      pose proof (keeps_assign (elements_of t) o w) as Hk. rewrite <- He in Hk. unfold ends in *.
      destruct (bv_copy_assign moved capacity capacity false t o w); auto; now apply (data_replace i o).
    + unfold ends in *. destruct (bv_copy_assign moved capacity capacity false t o w); auto; eexists; apply map_replace.
  - destruct (Nat.eqb_spec i j) as [->|Hij].
    + unfold one_of in *. destruct (nth_error os j) as [o|] eqn:Ho; [|contradiction].
      assert (H : match bv_self_move_assign o w with Ret o' _ _ => bv_data o' = None | _ => True end).
      { unfold bv_self_move_assign, bind, get, put. destruct (destroy_range (bv_data o) 0 (b_size o) o w) as [o1 [] w1|o1 w1|]; auto.
        unfold deallocate_storage, ret. cbn. destruct (u_pointer (b_storage o)) as [b|]; [|reflexivity]. unfold deallocate.
        destruct (heap w1 b) as [cs|]; auto. destruct (negb _); auto. match goal with |- context [forallb ?f cs] => destruct (forallb f cs) end; auto. }
      unfold ends in *. destruct (bv_self_move_assign o w) as [o1 [] w1|o1 w1|]; auto. 2:{ destruct Hs as (ls' & [] & _). }
      rewrite map_replace, H, replace_twice; auto. rewrite map_length. apply nth_error_Some. congruence.
    + unfold two_of in *. destruct (nth_error os i) as [o|] eqn:Ho; [|contradiction]. destruct (nth_error os j) as [t|] eqn:Ht; [|contradiction].
      assert (H : match bv_move_assign (o, t) w with Ret x _ _ => bv_data (fst x) = bv_data t /\ bv_data (snd x) = None | _ => True end).
      { unfold bv_move_assign, bind, get, put. cbn [fst snd]. destruct (destroy_range (bv_data o) 0 (b_size o) (o, t) w) as [o1 [] w1|o1 w1|]; auto.
        unfold deallocate_storage, ret. cbn. destruct (u_pointer (b_storage o)) as [b|]; [|auto]. unfold deallocate.
        destruct (heap w1 b) as [cs|]; auto. destruct (negb _); auto. match goal with |- context [forallb ?f cs] => destruct (forallb f cs) end; auto. }
      unfold ends in *. destruct (bv_move_assign (o, t) w) as [x [] w1|x w1|]; auto. 2:{ destruct Hs as (ls' & [] & _). }
      destruct H as [H1 H2]. rewrite !map_replace, H1, H2, (data_nth _ _ _ Ht). reflexivity.
  - unfold two_of in *. destruct (nth_error os i) as [o|] eqn:Ho; [|contradiction]. destruct (nth_error os j) as [t|] eqn:Ht; [|contradiction].
    unfold bv_swap, bind, get, put, ends. cbn [fst snd]. rewrite !map_replace.
    rewrite (data_nth _ _ _ Ht), (data_nth _ _ _ Ho).
    destruct o as [so zo], t as [s' z']. reflexivity.
Qed.

(** What a pointer to an element points to afterwards. *)
Lemma vectors_points os ls others w i o l k v :
  vectors os ls others w -> nth_error os i = Some o -> at_index i ls = Some l -> nth_error l k = Some v -> points_to w (bv_data o) k v.
Proof.
  intros [Hin _] Ho Hl Hv. assert (Hi : i < length os) by (apply nth_error_Some; congruence).
  destruct (focus_one vector_in in_swap i _ _ _ _ Hi Hin) as (o0 & l0 & rest & Hno & Hnl & Hoo & _).
  rewrite Ho in Hno. injection Hno as <-. rewrite (at_nth _ _ _ Hnl) in Hl. subst l0. destruct Hoo as [_ H]. unfold points_to, bv_data.
  destruct (u_pointer (b_storage o)) as [b|].
  - destruct H as (_ & (spare & H1 & _) & _). eexists b, _. split; auto. split; [exact H1|]. rewrite nth_error_app1.
    + now apply map_nth_error.
    + rewrite map_length. apply nth_error_Some. congruence.
  - destruct H as (-> & _). destruct k; discriminate.
Qed.
Lemma step_points s os ls others w i o :
  vectors os ls others w -> possible capacity s (sizes_of ls) (gone_of ls) = true -> in_place s -> nth_error os i = Some o ->
  ends (do_step moved capacity s os w)
    (fun _ _ w' => forall k v, nth_error (elements i (then_ s ls)) k = Some v -> points_to w' (bv_data o) k v)
    (fun _ w' => exists ls', or_else s ls ls' /\ forall k v, nth_error (elements i ls') k = Some v -> points_to w' (bv_data o) k v).
Proof.
  intros Ha Hp Hi Ho. pose proof (step_ok s os ls others w Ha Hp) as Hs. pose proof (step_places s os ls others w Ha Hp) as Hd.
  assert (Hx : forall os' ls' w', vectors os' ls' others w' -> map bv_data os' = map bv_data os ->
            forall k v, nth_error (elements i ls') k = Some v -> points_to w' (bv_data o) k v).
  { intros os' ls' w' Hv He k v Hk. destruct (nth_error os' i) as [o'|] eqn:Ho'.
    - pose proof (map_nth_error bv_data _ _ Ho) as H1. pose proof (map_nth_error bv_data _ _ Ho') as H2. rewrite He, H1 in H2. injection H2 as ->.
      unfold elements in Hk. destruct (at_index i ls') as [l|] eqn:El; [|destruct k; discriminate]. eapply vectors_points; eauto.
    - pose proof (map_length bv_data os) as H1. pose proof (map_length bv_data os') as H2. rewrite He in H2.
      assert (i < length os) by (apply nth_error_Some; congruence). apply nth_error_None in Ho'. lia. }
  unfold ends in *. destruct (do_step moved capacity s os w) as [os' [] w'|os' w'|]; [| |contradiction].
  - eapply Hx; [exact Hs|]. destruct s; cbn in Hi, Hd; auto; contradiction.
  - destruct Hs as (ls' & H1 & _ & H2). exists ls'. split; auto. eapply Hx; [exact H2|]. destruct s; cbn in Hi, Hd; auto; contradiction.
Qed.
Lemma program_stays ss : forall os ls others w,
  vectors os ls others w -> Forall in_place ss ->
  ends (program moved capacity ss (gone_of ls) os w) (fun os' _ _ => map bv_data os' = map bv_data os) (fun _ _ => False).
Proof.
  induction ss as [|s ss IH]; intros os ls others w Ha Hf; cbn [program]. { reflexivity. }
  inversion Hf as [|? ? Hi Hf']; subst. unfold bind at 1. unfold get. rewrite (vectors_sizes _ _ _ _ Ha).
  destruct (possible capacity s (sizes_of ls) (gone_of ls)) eqn:Hp; [|now apply (IH _ _ _ _ Ha)].
  unfold bind, attempt. pose proof (step_ok s os ls others w Ha Hp) as Hs. pose proof (step_places s os ls others w Ha Hp) as Hd. unfold ends in Hs, Hd.
  destruct (do_step moved capacity s os w) as [os1 [] w1|os1 w1|]; [| |contradiction].
  - rewrite <- (then_gone s ls Hp). eapply ends_weaken. { apply (IH _ _ _ _ Hs Hf'). } 2: auto.
    cbv beta. intros o' _ w' ->. destruct s; cbn in Hi, Hd; auto; contradiction.
  - destruct Hs as (ls1 & H1 & _ & Hv1). rewrite <- (else_gone s ls ls1 Hp H1). eapply ends_weaken. { apply (IH _ _ _ _ Hv1 Hf'). } 2: auto.
    cbv beta. intros o' _ w' ->. destruct s; cbn in Hi, Hd; auto; contradiction.
Qed.
Lemma moved_from_push o v (w : world) :
  0 < capacity -> moved_from o ->
  b_size o = 0 /\ bv_capacity capacity capacity o w = Ret o capacity w /\
  exists f, do_step moved capacity (Use 0 (PushBack v)) [o] w = Bad f.
Proof.
  intros Hc [H1 H2]. split; auto. assert (He : bv_capacity capacity capacity o w = Ret o capacity w).
  { unfold bv_capacity, bind, get. rewrite Nat.eqb_refl. reflexivity. }
  split; auto. unfold do_step. cbn [SpecVecPrograms.do_step perform]. unfold one_of. cbn [nth_error].
  unfold push_back, lazy_push_back. cbn [bounded_vector c_max c_capacity c_size]. rewrite (proj2 (Nat.eqb_neq capacity 0)) by lia.
  unfold bind at 1 2, get. rewrite He, H2, (proj2 (Nat.ltb_lt 0 capacity) Hc).
  unfold lazy_push_back_into_capacity, bind, get, require. cbn [bounded_vector c_max c_capacity c_size c_data]. rewrite ?He, ?H2, ?(proj2 (Nat.ltb_lt 0 capacity) Hc). unfold bv_data, construct_at, bind, require_raw, find_cell, ret. rewrite H1. eexists. reflexivity.
Qed.
End Proofs.
