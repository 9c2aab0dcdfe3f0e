(** * Exactly what the assignment of trivially copyable elements to a vector does (C39) *)

From Coq Require Import List Arith Bool Lia.
From Verif Require Import Mem MemLemmas Vec VecLemmas VecLemmas2 VecLemmas3 VecInst SpecVec VecProofs VecProofs2 PropsVec.
Import ListNotations.
Local Open Scope nat_scope.

Section Proofs.
Context {V : Type} (moved : V -> V) (minc maxc : nat) (Hlt : minc < maxc).
Local Notation world := (world V).
Local Notation C := (bounded_vector (V := V) moved minc maxc).
Local Notation own := (bv_own (V := V) minc maxc).
Local Notation cells := (holds_cells C own).
Local Notation is_vec := (is_vector (V := V) minc maxc).
Local Notation Hmm := (Nat.lt_le_incl _ _ Hlt).
Local Notation B := (bv_base moved minc maxc Hmm).

Lemma replace_exactly q o k g h n w : at_ q w h -> cells o [] k g h -> k < n -> n <= maxc ->
  wp (bv_replace_empty_allocation minc maxc n) o w
    (fun o' _ w' => exists h', at_ q w' h' /\ cells o' [] n g h')
    (fun o' w' => ~ q /\ ((o' = o /\ at_ q w' h) \/ (bv_data o <> None /\ bv_destroy o' w' = Bad BadFree))).
Proof.
  intros H [Ho Hs] Hk Hn. cbn [bounded_vector c_size length] in Hs. unfold bv_replace_empty_allocation.
  apply wp_bind, wp_get. apply wp_bind. apply wp_require. { now rewrite Hs. }
  cbn [map app] in Ho.
  assert (minc <= k) as Hmin. { unfold bv_own in Ho. destruct (bv_data o); [destruct Ho as (_ & _ & _ & Ho); rewrite repeat_length in Ho; lia|destruct Ho as (_ & _ & -> & _); lia]. }
  unfold reservation_size. apply wp_bind. apply wp_bind. apply wp_require. { apply andb_true_intro. split; apply Nat.leb_le; lia. }
  apply wp_ret. apply wp_bind. replace (Nat.max n minc) with n by lia.
  assert (Hd : wp (deallocate_storage (b_storage o)) o w (fun o' _ w' => o' = o /\ at_ q w' g) (fun _ _ => False)).
  { unfold deallocate_storage. unfold bv_own, bv_data in Ho. destruct (u_pointer (b_storage o)) as [b|].
    - destruct Ho as (Hg & Hh & Hl & _). rewrite repeat_length in Hl. rewrite <- Hl. eapply wp_release; [exact H|exact Hh|exact Hg|reflexivity|]. auto.
    - destruct Ho as (_ & _ & _ & Hh). apply wp_ret. split; auto. eapply at_ext; eauto. }
  eapply wp_conseq; [exact Hd| |contradiction]. cbv beta. intros o1 _ w1 (-> & H1).
  apply wp_bind. eapply wp_allocate_storage; [exact H1| |].
  - intros w2 b Hb H2. apply wp_put. eexists. split; [exact H2|]. split; [|exact Hs].
    unfold bv_own, bv_data. cbn [b_storage u_pointer u_size map app]. rewrite repeat_length. split; [exact Hb|]. split; [apply eqh_refl|]. lia.
  - intros w2 Hq H2. split; [exact Hq|]. unfold bv_own, bv_data in Ho |- *. destruct (u_pointer (b_storage o)) as [b|] eqn:Hb.
    + right. split; [discriminate|]. destruct Ho as (Hg & _). unfold bv_destroy, bind, get. rewrite Hs. cbn [destroy_range for_each]. unfold destroy_range. cbn [for_each]. unfold ret.
      unfold deallocate_storage. rewrite Hb. unfold deallocate. rewrite (proj1 H2), Hg. reflexivity.
    + left. split; [reflexivity|]. destruct Ho as (_ & _ & _ & Hh). eapply at_ext; [exact H2|]. now apply eqh_sym.
Qed.
Lemma fill_exactly q mks us o k g h w : at_ q w h -> cells o [] k g h -> Forall2 (yields g) mks us -> length us <= maxc ->
  wp (assign_to_empty moved C false (Source mks true)) o w
    (fun o' _ w' => exists h' k', at_ q w' h' /\ cells o' us k' g h' /\ length us + k' = Nat.max k (length us))
    (fun o' w' => ~ q /\ ((exists h' k', at_ q w' h' /\ cells o' [] k' g h') \/ (bv_data o <> None /\ k < length us /\ bv_destroy o' w' = Bad BadFree))).
Proof.
  intros H [Ho Hs] Hy Hl. pose proof (Forall2_len _ _ _ Hy) as Hlen. unfold assign_to_empty.
  apply wp_bind, wp_get. apply wp_bind. apply wp_require. { cbn [length] in Hs. now rewrite Hs. }
  assert (c_reserve C = Some (bv_reserve moved minc maxc)) as -> by (cbn; rewrite (proj2 (Nat.eqb_neq minc maxc)) by lia; reflexivity).
  cbn [s_sized s_elements]. apply wp_bind. unfold assume_capacity. apply wp_require.
  { change (c_max C) with maxc. apply Nat.leb_le. lia. }
  apply wp_bind. eapply wp_capacity; [exact B|exact Ho|].
  rewrite length_cells. cbn [length Nat.add].
  assert (Hcopy : forall o1 h1 w1 k1, at_ q w1 h1 -> cells o1 [] k1 g h1 -> k1 = Nat.max k (length us) ->
    wp (o2 <- get ;; uninitialized_copy moved (c_data C o2) 0 mks ;;; c_set_size C (length mks)) o1 w1
      (fun o' _ w' => exists h' k', at_ q w' h' /\ cells o' us k' g h' /\ length us + k' = Nat.max k (length us))
      (fun o' w' => ~ q /\ ((exists h' k', at_ q w' h' /\ cells o' [] k' g h') \/ (bv_data o <> None /\ k < length us /\ bv_destroy o' w' = Bad BadFree)))).
  { intros o1 h1 w1 k1 H1 [Ho1 Hs1] Hk. apply wp_bind, wp_get. apply wp_bind. cbn [map app] in Ho1.
    assert (Hsplit : repeat (@None V) k1 = [] ++ repeat None (length mks) ++ repeat None (k1 - length mks)).
    { cbn [app]. rewrite <- repeat_plus. f_equal. lia. }
    rewrite Hsplit in Ho1.
    eapply (wp_own_copy moved q C own B o1 us mks [] (repeat None (k1 - length mks))); [exact H1|exact Ho1| | |].
    - eapply Forall2_yields_keep; [exact B|exact Ho1|exact Hy].
    - intros w2 h2 H2 Ho2 _. cbn [app] in Ho2. eapply wp_set_size; [exact B|exact Ho2|rewrite length_cells; lia|].
      intros o3 Ho3 _ Hs3. exists h2, (k1 - length mks). split; auto. split; [|lia]. split; auto. lia.
    - intros w2 Hq H2. split; auto. left. exists h1, k1. split; auto. split; auto. cbn [map app]. now rewrite Hsplit. }
  apply wp_bind. destruct (Nat.ltb_spec k (length mks)) as [L|L].
  - unfold do_reserve. change (c_replace C) with (Some (bv_replace_empty_allocation (V := V) minc maxc)). cbv iota.
    eapply wp_conseq; [eapply replace_exactly; [exact H|split; [exact Ho|exact Hs]|exact L|lia]| |].
    + cbv beta. intros o1 _ w1 (h1 & H1 & Hc1). eapply Hcopy; eauto. lia.
    + cbv beta. intros o1 w1 [Hq [(-> & H1)|(Hl1 & Hbad)]]; split; auto; [left|right; repeat split; auto; lia]. exists h, k. split; auto. split; auto.
  - apply wp_ret. eapply Hcopy; [exact H|split; [exact Ho|exact Hs]|lia].
Qed.
Lemma clear_data q o vs k g h w : at_ q w h -> cells o vs k g h ->
  wp (clear C) o w (fun o' _ w' => exists h', at_ q w' h' /\ cells o' [] (length vs + k) g h' /\ bv_data o' = bv_data o) (fun _ _ => False).
Proof.
  intros H [Ho Hs]. unfold clear. apply wp_bind, wp_get. apply wp_bind.
  eapply (wp_own_destroy q C own B o vs [] (repeat None k)); eauto.
  intros w' h' H' Ho'. cbn [app] in Ho'. rewrite Hs, <- repeat_plus in Ho'.
  eapply wp_set_size; [exact B|exact Ho'|lia|].
  intros o' Ho'' Hd Hs'. eexists. split; [exact H'|]. split; [split; [exact Ho''|exact Hs']|exact Hd].
Qed.
Lemma assign_trivial_exactly mks us o vs others w :
  is_vec o vs others w -> Forall2 (makes others) mks us -> length us <= maxc ->
  ends (assign moved C true false (Source mks true) o w)
    (fun o' _ w' => is_vec o' us others w' /\ capacity_of o' = Nat.max (capacity_of o) (length us))
    (fun o' w' => someone_throws w /\ (is_vec o' [] others w' \/ (bv_data o <> None /\ capacity_of o < length us /\ bv_destroy o' w' = Bad BadFree))).
Proof.
  intros Hv Hmk Hl. pose proof Hv as [_ Hu]. destruct (vec_cells moved minc maxc _ _ _ _ Hv) as (k & Hc & Hk). pose proof (at_start w Hu) as Hat.
  apply makes_all in Hmk.
  match goal with |- ends ?r ?Q ?E => change (wp (clear C ;;; assign_to_empty moved C false (Source mks true)) o w Q E) end.
  apply wp_bind. eapply wp_conseq; [eapply clear_data; [exact Hat|exact Hc]| |contradiction]. cbv beta. intros o1 _ w1 (h1 & H1 & Hc1 & Hd1).
  eapply wp_conseq; [eapply fill_exactly; [exact H1|exact Hc1|exact Hmk|exact Hl]| |]; rewrite Hk, ?Hd1.
  - cbv beta. intros o2 _ w2 (h2 & k2 & H2 & Hc2 & Hk2). destruct (cells_vec moved minc maxc Hmm _ _ _ _ _ _ _ H2 Hc2) as [I1 I2]. split; [exact I1|lia].
  - cbv beta. intros o2 w2 [Hq He]. split. { now apply not_calm. }
    destruct He as [(h2 & k2 & H2 & Hc2)|Hbad]; [left; now destruct (cells_vec moved minc maxc Hmm _ _ _ _ _ _ _ H2 Hc2)|right; exact Hbad].
Qed.
Lemma assign_trivial_long mks (us : list V) o vs others w :
  is_vec o vs others w -> length mks = length us -> maxc < length us -> assign moved C true false (Source mks true) o w = Bad Broken.
Proof.
  intros Hv Hlen Hl. pose proof Hv as [_ Hu]. destruct (vec_cells moved minc maxc _ _ _ _ Hv) as (k & Hc & Hk). pose proof (at_start w Hu) as Hat.
  pose proof (clear_data _ _ _ _ _ _ _ Hat Hc) as Hclear. unfold wp in Hclear. unfold assign. unfold bind at 1.
  destruct (clear C o w) as [o1 [] w1|o1 w1|f]; [|contradiction|contradiction]. destruct Hclear as (h1 & _ & [_ Hs1] & _). cbn [length] in Hs1.
  unfold assign_to_empty. unfold bind at 1, get. unfold bind at 1, require at 1. rewrite Hs1. cbn [Nat.eqb]. unfold ret at 1.
  assert (c_reserve C = Some (bv_reserve moved minc maxc)) as -> by (cbn; rewrite (proj2 (Nat.eqb_neq minc maxc)) by lia; reflexivity).
  cbn [s_sized s_elements]. unfold bind at 1, assume_capacity, require at 1. change (c_max C) with maxc.
  rewrite (proj2 (Nat.leb_gt (length mks) maxc)) by lia. reflexivity.
Qed.
End Proofs.

(** ** C39. A source that is longer than the largest size is undefined behaviour. Otherwise the vector has the new elements, or an exception
    leaves it empty, unless it has storage, was to grow and the allocation threw: then its destructor gives back the old block again. *)
Theorem C39_assign_trivial_exactly : forall V (moved : V -> V) minc maxc mks us o vs others w,
  minc < maxc -> is_vector minc maxc o vs others w -> Forall2 (makes others) mks us ->
  match assign moved (bounded_vector moved minc maxc) true false (Source mks true) o w with
  | Bad f => f = Broken /\ maxc < length us
  | Ret o' _ w' => length us <= maxc /\ is_vector minc maxc o' us others w' /\ capacity_of o' = Nat.max (capacity_of o) (length us)
  | Exc o' w' => length us <= maxc /\ someone_throws w /\
      (is_vector minc maxc o' [] others w' \/
       (u_pointer (b_storage o) <> None /\ capacity_of o < length us /\ bv_destroy o' w' = Bad BadFree))
  end.
Proof.
  intros V moved minc maxc mks us o vs others w Hlt Hv Hmk. pose proof (Forall2_len _ _ _ Hmk) as Hlen. destruct (Nat.le_gt_cases (length us) maxc) as [L|L].
  - pose proof (assign_trivial_exactly moved minc maxc Hlt mks us o vs others w Hv Hmk L) as C. unfold ends in C.
    destruct (assign moved _ true false _ o w) as [o' [] w'|o' w'|f]; [split; [exact L|exact C]|split; [exact L|exact C]|contradiction].
  - rewrite (assign_trivial_long moved minc maxc Hlt mks us o vs others w Hv Hlen L). split; [reflexivity|exact L].
Qed.
Print Assumptions C39_assign_trivial_exactly.
Example C39_trivial_case : is_vector 0 20 full [1; 2; 3] nothing (alone some123 [true]) /\ capacity_of full < length [4; 5; 6; 7] /\
  match assign forget (bounded_vector forget 0 20) true false (Source (map Supply [4; 5; 6; 7]) true) full (alone some123 [true]) with
  | Exc o' w' => bv_destroy o' w' = Bad BadFree
  | _ => False
  end /\
  match assign forget (bounded_vector forget 0 20) true false (Source (map Supply [4; 5]) true) full (alone some123 []) with
  | Ret o' _ w' => b_size o' = 2 /\ heap w' 0 = Some [Some 4; Some 5; None]
  | _ => False
  end.
Proof. split; [exact (full_is_vector [true])|]. split; [cbn; lia|]. vm_compute. repeat split. Qed.
