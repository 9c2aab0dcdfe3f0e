(** * Exactly what an exception in the assignment of trivially copyable elements to an sbo_vector leaves (C93) *)

From Coq Require Import List Arith Bool NArith Lia.
From Verif Require Import Mem MemLemmas Vec VecLemmas VecLemmas2 VecLemmas3 VecInst SpecVec VecProofs VecProofs2 Sbo SboLemmas SpecSbo SboProofs PropsSbo.
Import ListNotations.


Section Proofs.
Context {V : Type} (moved : V -> V) (small max : nat).
Context (Hsm : small < max) (Hmax : (N.of_nat max < 2 ^ 63)%N).
Local Notation world := (world V).
Local Notation contents := (@contents V).
Local Notation memory := (@memory V).
Local Notation C := (sbo_vector (V := V) moved small max).
Local Notation own := (sb_own (V := V) small max).
Local Notation cells := (holds_cells C own).
Local Notation is_sbo := (is_sbo (V := V) small max).
Local Notation is_sbo_in := (is_sbo_in (V := V) small max).
Local Notation B := (sb_base moved small max Hsm Hmax).
Local Notation large := (fun o => s_is_large o = true).
Local Notation RL w := (sb_realloc moved (calm w) small max Hsm Hmax).
Local Notation cap := (sbo_capacity small).

Lemma replace_exactly q o k g h n w : at_ q w h -> cells o [] k g h -> n <= max ->
  wp (sb_replace_empty_allocation small max n) o w
    (fun o' _ w' => exists h' k', at_ q w' h' /\ cells o' [] k' g h' /\ k' = Nat.max small n)
    (fun o' w' => ~ q /\ ((o' = o /\ at_ q w' h) \/ (s_is_large o = true /\ sb_destroy small o' w' = Bad BadFree))).
Proof.
  intros H [Ho Hs] Hn. cbn [sbo_vector c_size length] in Hs. unfold sb_replace_empty_allocation.
  apply wp_bind, wp_get. apply wp_bind. apply wp_require. { now rewrite Hs. }
  apply wp_bind. cbn [map app] in Ho. pose proof Ho as [Hp Ho'].
  assert (Hd : wp sb_deallocate_large o w (fun o' _ w' => o' = o /\ at_ q w' (upd g (s_place o) (Some (raw small))) /\
      (s_is_large o = false -> w' = w)) (fun _ _ => False)).
  { unfold sb_deallocate_large. apply wp_bind, wp_get.
    destruct (s_is_large o), (s_state o) as [f|[b|] c f]; try contradiction.
    - destruct Ho' as (Hne & Hg & Hh & Hl & Hc). rewrite repeat_length in Hl. rewrite <- Hl.
      eapply wp_release; [exact H|exact Hh| |reflexivity|]. { now rewrite upd_other. } intros w2 H3. split; auto. split; auto. discriminate.
    - destruct Ho' as [Hh Hl]. rewrite repeat_length in Hl. subst k. apply wp_ret. split; auto. split; auto. eapply at_ext; eauto. }
  eapply wp_conseq; [exact Hd| |contradiction]. cbv beta. intros o' _ w1 (-> & H1 & Hw1).
  assert (Hlast : s_last_size o = 0%N \/ True) by auto.
  assert (Hzero : forall kk, recombine_size (repeat 0%N kk) (s_last_size o) = 0).
  { intros kk. unfold sb_size in Hs. destruct (s_is_large o), (s_state o) as [f|[b|] c f]; try contradiction;
    eapply recombine_zeros; eauto. }
  apply wp_bind. destruct (Nat.leb_spec n small) as [Hns|Hns].
  - apply wp_bind. eapply (wp_construct_state q) with (n := small); [exact H1|apply upd_same|].
    unfold set_is_large. apply wp_bind, wp_get, wp_put. cbn [s_place s_state s_last_size].
    apply wp_bind, wp_get. apply wp_require. { unfold sb_size. cbn [s_is_large s_state empty_small s_last_size]. now rewrite Hzero. }
    eexists _, small. split; [exact H1|]. split; [|lia]. split.
    + split; cbn; auto. split; [apply eqh_refl|]. apply repeat_length.
    + cbn [sbo_vector c_size]. unfold sb_size. cbn [s_is_large s_state empty_small s_last_size]. now rewrite Hzero.
  - apply wp_bind. apply wp_require. { apply andb_true_intro. split; apply Nat.leb_le; lia. }
    apply wp_bind. eapply wp_allocate; [exact H1| |].
    2:{ intros w2 Hq H2. split; auto. destruct (s_is_large o) eqn:El, (s_state o) as [f|[b|] c f] eqn:Es; try contradiction.
        - right. split; [reflexivity|]. destruct Ho' as (Hne & Hg & _). unfold sb_destroy, sb_destroy_contents, sb_deallocate_large, bind, get. rewrite Hs. unfold destroy_range. cbn [for_each]. unfold ret.
          rewrite El, Es. unfold deallocate. rewrite (proj1 H2), upd_other, Hg by assumption. reflexivity.
        - left. split; [reflexivity|]. destruct Ho' as [Hh Hl]. rewrite repeat_length in Hl. subst k. eapply at_ext; [exact H2|]. apply eqh_sym. exact Hh. }
    intros w2 b Hb H2. assert (Hbp : b <> s_place o). { intros ->. rewrite upd_same in Hb. discriminate. }
    rewrite upd_other in Hb by auto.
    apply wp_bind. eapply (wp_construct_state q) with (n := small); [exact H2|rewrite upd_other by congruence; apply upd_same|].
    unfold set_is_large. apply wp_bind, wp_get, wp_put. cbn [s_place s_state s_last_size].
    apply wp_bind, wp_get. apply wp_require. { unfold sb_size. cbn [s_is_large s_state s_last_size]. now rewrite Hzero. }
    eexists _, n. split; [exact H2|]. split; [|lia]. split.
    + split; cbn; auto. split; auto. split; auto. split; [apply eqh_refl|]. rewrite repeat_length. lia.
    + cbn [sbo_vector c_size]. unfold sb_size. cbn [s_is_large s_state s_last_size]. now rewrite Hzero.
Qed.
Lemma fill_exactly q mks us o k g h w : at_ q w h -> cells o [] k g h -> Forall2 (yields g) mks us -> length us <= max ->
  wp (assign_to_empty moved C false (Source mks true)) o w
    (fun o' _ w' => exists h' k', at_ q w' h' /\ cells o' us k' g h' /\
       length us + k' = if length us <=? k then k else Nat.max small (length us))
    (fun o' w' => ~ q /\ ((exists h' k', at_ q w' h' /\ cells o' [] k' g h') \/ (s_is_large o = true /\ k < length us /\ sb_destroy small o' w' = Bad BadFree))).
Proof.
  intros H [Ho Hs] Hy Hl. pose proof (Forall2_len _ _ _ Hy) as Hlen. unfold assign_to_empty.
  apply wp_bind, wp_get. apply wp_bind. apply wp_require. { cbn [length] in Hs. now rewrite Hs. }
  cbn [sbo_vector c_reserve s_sized s_elements]. apply wp_bind. unfold assume_capacity. apply wp_require.
  { cbn [sbo_vector c_max]. apply Nat.leb_le. lia. }
  apply wp_bind. change (sb_capacity small max) with (c_capacity C). eapply wp_capacity; [exact B|exact Ho|].
  rewrite length_cells. cbn [length Nat.add].
  assert (Hcopy : forall o1 h1 w1 k1, at_ q w1 h1 -> cells o1 [] k1 g h1 -> length us <= k1 ->
    k1 = (if length us <=? k then k else Nat.max small (length us)) ->
    wp (o2 <- get ;; uninitialized_copy moved (c_data C o2) 0 mks ;;; c_set_size C (length mks)) o1 w1
      (fun o' _ w' => exists h' k', at_ q w' h' /\ cells o' us k' g h' /\
       length us + k' = if length us <=? k then k else Nat.max small (length us))
      (fun o' w' => ~ q /\ ((exists h' k', at_ q w' h' /\ cells o' [] k' g h') \/ (s_is_large o = true /\ k < length us /\ sb_destroy small o' w' = Bad BadFree)))).
  { intros o1 h1 w1 k1 H1 [Ho1 Hs1] Hk1 Hk. apply wp_bind, wp_get. apply wp_bind. cbn [map app] in Ho1.
    assert (Hsplit : repeat (@None V) k1 = [] ++ repeat None (length mks) ++ repeat None (k1 - length mks)).
    { cbn [app]. rewrite <- repeat_plus. f_equal. lia. }
    rewrite Hsplit in Ho1.
    eapply (wp_own_copy moved q C own B o1 us mks [] (repeat None (k1 - length mks))); [exact H1|exact Ho1| | |].
    - eapply Forall2_yields_keep; [exact B|exact Ho1|exact Hy].
    - intros w2 h2 H2 Ho2 _. cbn [app] in Ho2. eapply wp_set_size; [exact B|exact Ho2|rewrite length_cells; lia|].
      intros o3 Ho3 _ Hs3. exists h2, (k1 - length mks). split; auto. split; [|rewrite Hlen; lia]. split; auto. lia.
    - intros w2 Hq H2. split; auto. left. exists h1, k1. split; auto. split; auto. cbn [map app]. now rewrite Hsplit. }
  apply wp_bind. destruct (Nat.ltb_spec k (length mks)) as [Hlt|Hge].
  - unfold do_reserve. cbn [sbo_vector c_replace].
    eapply wp_conseq; [eapply replace_exactly; [exact H|split; [exact Ho|exact Hs]|lia]| |].
    + cbv beta. intros o1 _ w1 (h1 & k1 & H1 & Hc1 & Hk1). eapply Hcopy; eauto; [lia|].
      destruct (Nat.leb_spec (length us) k); lia.
    + cbv beta. intros o1 w1 [Hq [(-> & H1)|(Hl1 & Hbad)]]; split; auto; [left|right; repeat split; auto; lia]. exists h, k. split; auto. split; auto.
  - apply wp_ret. eapply Hcopy; [exact H|split; [exact Ho|exact Hs]|lia|]. destruct (Nat.leb_spec (length us) k); lia.
Qed.
Lemma assign_trivial_exactly mks us o vs others w :
  is_sbo o vs others w -> Forall2 (makes others) mks us -> length us <= max ->
  ends (assign moved C true false (Source mks true) o w)
    (fun o' _ w' => is_sbo o' us others w')
    (fun o' w' => someone_throws w /\ (is_sbo o' [] others w' \/ (s_is_large o = true /\ cap o < length us /\ sb_destroy small o' w' = Bad BadFree))).
Proof.
  intros Hv Hmk Hl. pose proof Hv as [_ Hu]. destruct (sbo_cells moved small max _ _ _ _ Hv) as (k & Hc & Hk). pose proof (at_start w Hu) as Hat.
  apply makes_all in Hmk.
  match goal with |- ends ?r ?Q ?E => change (wp (clear C ;;; assign_to_empty moved C false (Source mks true)) o w Q E) end.
  apply wp_bind.
  assert (Hlarge : wp (clear C) o w (fun o' _ w' => (exists h', at_ (calm w) w' h' /\ cells o' [] (length vs + k) others h') /\ s_is_large o' = s_is_large o) (fun _ _ => False)).
  { pose proof (clear_ok (calm w) C own B _ _ _ _ _ _ Hat Hc) as Hclear. unfold wp in *.
    destruct (clear C o w) as [o1 a w1|o1 w1|] eqn:He; try contradiction. split; auto.
    destruct Hclear as (h1 & H1 & Hc1). pose proof (cells_cap moved small max Hsm Hmax _ _ _ _ _ Hc1) as Hcap. cbn in Hcap.
    destruct (cells_sbo moved small max Hsm Hmax _ _ _ _ _ _ _ H1 Hc1) as [Hi1 _].
    pose proof (small_iff moved small max Hsm Hmax _ _ _ _ Hv) as E0. pose proof (small_iff moved small max Hsm Hmax _ _ _ _ Hi1) as E1.
    replace (cap o1) with (cap o) in E1 by lia.
    destruct (s_is_large o1), (s_is_large o); auto; exfalso; [|]; destruct E0 as [E0 E0'], E1 as [E1 E1']; try (discriminate (E1' (E0 eq_refl))); discriminate (E0' (E1 eq_refl)). }
  eapply wp_conseq; [exact Hlarge| |contradiction]. cbv beta. intros o1 _ w1 ((h1 & H1 & Hc1) & Hlg).
  eapply wp_conseq; [eapply fill_exactly; [exact H1|exact Hc1|exact Hmk|exact Hl]| |].
  - cbv beta. intros o2 _ w2 (h2 & k2 & H2 & Hc2 & _). now destruct (cells_sbo moved small max Hsm Hmax _ _ _ _ _ _ _ H2 Hc2).
  - cbv beta. intros o2 w2 [Hq He]. split. { now apply not_calm. } rewrite <- Hlg, <- Hk.
    destruct He as [(h2 & k2 & H2 & Hc2)|Hbad]; [left; now destruct (cells_sbo moved small max Hsm Hmax _ _ _ _ _ _ _ H2 Hc2)|right; exact Hbad].
Qed.
End Proofs.

(** ** C93. After the exception the vector is empty, unless a large vector was to grow and the allocation threw: then its destructor gives back the old block again. *)
Theorem C93_assign_trivial_exactly : forall V (moved : V -> V) small max mks us o vs others w,
  small < max -> (N.of_nat max < 2 ^ 63)%N -> is_sbo small max o vs others w -> Forall2 (makes others) mks us ->
  length us <= max ->
  ends (assign moved (sbo_vector moved small max) true false (Source mks true) o w)
    (fun o' _ w' => is_sbo small max o' us others w')
    (fun o' w' => someone_throws w /\
       (is_sbo small max o' [] others w' \/
        (s_is_large o = true /\ sbo_capacity small o < length us /\ sb_destroy small o' w' = Bad BadFree))).
Proof. intros V moved small max mks us o vs others w Hs Hm. now apply assign_trivial_exactly. Qed.
Print Assumptions C93_assign_trivial_exactly.
Example C93_exactly_case : is_sbo 2 1000 big [1; 2; 3] nowhere (big_world [true]) /\ sbo_capacity 2 big < length [4; 5; 6; 7; 8] /\
  match assign zero (sbo_vector zero 2 1000) true false (Source (map Supply [4; 5; 6; 7; 8]) true) big (big_world [true]) with
  | Exc o' w' => sb_destroy 2 o' w' = Bad BadFree
  | _ => False
  end.
Proof. split; [apply big_is_sbo|]. split; [vm_compute; repeat constructor|vm_compute; reflexivity]. Qed.
