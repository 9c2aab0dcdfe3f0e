(** * Construction, copying, moving; static_vector *)

From Coq Require Import List Arith Bool Lia.
From Verif Require Import Mem MemLemmas Vec VecLemmas VecLemmas2 VecLemmas3 VecInst SpecVec VecProofs.
Import ListNotations.

Section Proofs.
Context {V : Type} (moved : V -> V).
Local Notation world := (world V).
Local Notation contents := (@contents V).
Local Notation memory := (@memory V).
Local Notation M := (M V).

(** The elements of a block, copied one by one. *)
Lemma copies_yield (m : contents) b (vs : list V) rest pre :
  m b = Some (map Some pre ++ map Some vs ++ rest) ->
  Forall2 (yields m) (map (CopyOf (Some b)) (seq (length pre) (length vs))) vs.
Proof.
  revert pre. induction vs as [|v vs IH]; intros pre Hb; cbn; constructor.
  - cbn. eexists. split; [exact Hb|]. apply nth_error_mid. now rewrite map_length.
  - replace (S (length pre)) with (length (pre ++ [v])) by (rewrite app_length; cbn; lia).
    apply IH. rewrite map_app, <- app_assoc. exact Hb.
Qed.

Section BoundedVector.
Context (minc maxc : nat) (Hmm : minc <= maxc).
Local Notation C := (bounded_vector (V := V) moved minc maxc).
Local Notation own := (bv_own (V := V) minc maxc).
Local Notation cells := (holds_cells C own).
Local Notation is_vec := (is_vector (V := V) minc maxc).
Local Notation is_vec_in := (is_vector_in (V := V) minc maxc).
Local Notation B := (bv_base moved minc maxc Hmm).
Local Notation RL w Hne := (bv_realloc moved (calm w) minc maxc Hmm Hne).

Lemma wp_constructor {X} (members : M X bvector) body (x : X) w Q E :
  wp members x w (fun x o w => wp body o w (fun o _ w => Q x o w)
     (fun o w => wp (deallocate_storage (b_storage o)) x w (fun x _ w => E x w) (fun _ _ => False))) E ->
  wp (constructor members body) x w Q E.
Proof.
  unfold wp, constructor. destruct (members x w) as [x' o w'|x' w'|]; auto. destruct (body o w') as [o' [] w''|o' w''|]; auto.
  destruct (deallocate_storage (b_storage o') x' w''); auto.
Qed.

(** Storage for [n] elements, filled. *)
Lemma fill_ok q n mks us (w : world) h :
  at_ q w h -> Forall2 (yields h) mks us -> n = length mks -> length mks <= maxc ->
  wp (constructor
      (k <- reservation_size minc maxc n ;; st <- allocate_storage k ;; ret (BVector st n))
      (o <- get ;; uninitialized_copy moved (bv_data o) 0 mks)) tt w
    (fun _ o w' => exists h' k', at_ q w' h' /\ cells o us k' h h' /\ length us + k' = Nat.max (length us) minc)
    (fun _ w' => at_ q w' h /\ ~ q).
Proof.
  intros H Hy -> Hn. pose proof (Forall2_len _ _ _ Hy) as Hlen. apply wp_constructor.
  apply wp_bind. unfold reservation_size. apply wp_bind. apply wp_require.
  { apply andb_true_intro. split; apply Nat.leb_le; lia. }
  apply wp_ret. apply wp_bind. eapply wp_allocate_storage; [exact H| |auto].
  intros w1 b Hb H1. apply wp_ret. apply wp_bind, wp_get. cbn [bv_data b_storage u_pointer].
  set (N := Nat.max (length mks) minc) in *.
  assert (Hrep : repeat (@None V) N = [] ++ repeat None (length mks) ++ repeat None (N - length mks)).
  { cbn [app]. rewrite <- repeat_plus. f_equal. lia. }
  eapply wp_uninitialized_copy; [exact H1|rewrite upd_same, Hrep; reflexivity|reflexivity| | |].
  - eapply Forall2_weaken; [|exact Hy]. intros mk v Hmk.
    destruct mk as [v'|[b'|] i|[b'|] i|[b'|] i]; cbn in Hmk |- *; try contradiction; auto.
    destruct Hmk as (cs & Hc & Hi). exists cs. split; auto. rewrite upd_other; auto. congruence.
  - intros w2 H2. eexists _, (N - length mks). split; [exact H2|]. split; [|lia]. split; [|cbn; lia].
    unfold bv_own. cbn. split; auto. split. { apply upd_upd. } rewrite app_length, map_length, repeat_length. lia.
  - intros w2 Hq H2. unfold deallocate_storage. cbn [b_storage u_pointer u_size].
    eapply wp_release; [exact H2|apply eqh_refl|exact Hb|reflexivity|]. intros w3 H3. auto.
Qed.

Lemma from_vec fits mks us w :
  unused_names w -> Forall2 (makes (heap w)) mks us -> length us <= maxc ->
  ends (bv_from moved minc maxc fits (Source mks true) tt w)
    (fun _ o w' => is_vec o us (heap w) w' /\ capacity_of o = Nat.max (length us) minc)
    (fun _ w' => same (heap w') (heap w) /\ someone_throws w).
Proof.
  intros Hu Hmk Hl. apply makes_all in Hmk. pose proof (Forall2_len _ _ _ Hmk) as Hlen.
  apply (wp_conseq (bv_from moved minc maxc fits (Source mks true)) tt w _ _ _ _
    (fill_ok (calm w) (length mks) mks us w (heap w) (at_start w Hu) Hmk eq_refl ltac:(lia))).
  - cbv beta. intros _ o w' (h' & k' & H' & Hc & Hk). destruct (cells_vec moved minc maxc Hmm _ _ _ _ _ _ _ H' Hc). split; auto. lia.
  - cbv beta. intros _ w' [H' Hq]. split. { apply H'. } now apply not_calm.
Qed.

Lemma copies_of o vs others (m : memory) :
  is_vec_in o vs others m -> Forall2 (makes m) (map (CopyOf (bv_data o)) (seq 0 (b_size o))) vs.
Proof.
  intros (Hs & H). unfold bv_data. rewrite Hs. destruct (u_pointer (b_storage o)) as [b|].
  - destruct H as (_ & (k & Hb & _) & _). eapply Forall2_weaken. { intros a c. apply makes_yields. }
    apply (copies_yield m b vs (repeat None k) []). exact Hb.
  - destruct H as (-> & _). constructor.
Qed.

Lemma copy_vec o vs others w :
  is_vec o vs others w ->
  ends (bv_copy moved minc maxc o tt w)
    (fun _ c w' => is_vec c vs (heap w) w' /\ capacity_of c = Nat.max (length vs) minc)
    (fun _ w' => same (heap w') (heap w) /\ someone_throws w).
Proof.
  intros [Hv Hu]. pose proof (copies_of _ _ _ _ Hv) as Hmk.
  destruct (proj1 (vec_cells_in moved minc maxc _ _ _ _) Hv) as (k & Hc & Hk).
  pose proof (bl_max _ _ B _ _ _ _ (proj1 Hc)) as Hmax. rewrite length_cells in Hmax. cbn [bounded_vector c_max] in Hmax.
  apply makes_all in Hmk. pose proof (Forall2_len _ _ _ Hmk) as Hlen.
  pose proof (proj1 Hv) as Hs.
  apply (wp_conseq (bv_copy moved minc maxc o) tt w _ _ _ _
    (fill_ok (calm w) (b_size o) _ vs w (heap w) (at_start w Hu) Hmk ltac:(lia) ltac:(lia))).
  - cbv beta. intros _ c w' (h' & k' & H' & Hc' & Hk'). destruct (cells_vec moved minc maxc Hmm _ _ _ _ _ _ _ H' Hc'). split; auto. lia.
  - cbv beta. intros _ w' [H' Hq]. split. { apply H'. } now apply not_calm.
Qed.

Lemma move_vec o vs others w :
  is_vec o vs others w ->
  is_vec (fst (bv_move o)) vs others w /\ capacity_of (fst (bv_move o)) = capacity_of o /\ moved_from (snd (bv_move o)).
Proof. intros [Hv Hu]. split; [|split]; [exact (conj Hv Hu)|reflexivity|split; reflexivity]. Qed.

Lemma moved_from_destroy o w : moved_from o -> bv_destroy (V := V) o w = Ret o tt w.
Proof.
  intros [Hp Hs]. unfold bv_destroy, bind, get, bv_data, deallocate_storage. rewrite Hp, Hs. reflexivity.
Qed.

Lemma move_assign_vec o (vs : list V) t us others (w : world) :
  two_vectors minc maxc o vs t us others w ->
  ends (bv_move_assign (V := V) (o, t) w)
    (fun p _ w' => is_vec (fst p) us others w' /\ capacity_of (fst p) = capacity_of t /\ moved_from (snd p))
    (fun _ _ => False).
Proof.
  intros (mid & Ho & Ht & Hu). apply vec_cells_in with (moved := moved) in Ho. apply vec_cells_in with (moved := moved) in Ht.
  destruct Ho as (k & Hc & Hk), Ht as (j & [Ht Hts] & Hj).
  apply (wp_conseq (bv_move_assign (V := V)) (o, t) w _ _ _ _ (bv_move_ok moved (calm w) minc maxc Hmm _ _ _ _ _ _ _ _ _ (at_start w Hu) Ht Hc)); [|auto].
  cbv beta. intros [o' t'] _ w' (h' & H' & Ho' & Hs' & Hd & Hz). cbn [fst snd] in *.
  assert (Hc' : cells o' us j others h'). { split; auto. cbn [bounded_vector c_size] in *. congruence. }
  destruct (cells_vec moved minc maxc Hmm _ _ _ _ _ _ _ H' Hc') as [H1 H2]. split; auto. split; [congruence|]. split; auto.
Qed.

Lemma self_move_vec o vs others w :
  is_vec o vs others w ->
  ends (bv_self_move_assign (V := V) o w)
    (fun o' _ w' => moved_from o' /\ same (heap w') others)
    (fun _ _ => False).
Proof.
  intros Hv. pose proof (destroy_vec moved minc maxc Hmm o vs others w Hv) as H.
  unfold ends, bv_destroy, bv_self_move_assign, bind, get in *.
  destruct (destroy_range (bv_data o) 0 (b_size o) o w) as [o1 a w1|o1 w1|] eqn:Hd; try contradiction.
  unfold put, deallocate_storage in *. destruct (u_pointer (b_storage o)) as [b|] eqn:Hp.
  - unfold deallocate in *. destruct (heap w1 b) as [cs|]; try contradiction.
    destruct (negb (length cs =? u_size (b_storage o))); try contradiction. match type of H with context [forallb ?f cs] => destruct (forallb f cs) end; try contradiction.
    split; auto. split; reflexivity.
  - cbn in *. split; auto. split; reflexivity.
Qed.

Lemma vectors_swap_in o (vs : list V) t us (others mid m : memory) :
  is_vec_in o vs others mid -> is_vec_in t us mid m -> exists mid', is_vec_in t us others mid' /\ is_vec_in o vs mid' m.
Proof.
  intros Ho Ht. unfold is_vector_in in Ho, Ht.
  destruct Ho as (Hso & Ho), Ht as (Hst & Ht).
  destruct (u_pointer (b_storage o)) as [bo|] eqn:Hpo; destruct (u_pointer (b_storage t)) as [bt|] eqn:Hpt.
  - destruct Ho as (Hgo & (ko & Hmo & Hco & Hro) & Heo), Ht as (Hgt & (kt & Hmt & Hct & Hrt) & Het).
    assert (Hne : bo <> bt) by congruence.
    exists (upd others bt (m bt)). split.
    + split; auto. rewrite Hpt. split. { rewrite <- Heo; auto. } split. { exists kt. rewrite upd_same. auto. }
      intros b' Hb'. now apply upd_other.
    + split; auto. rewrite Hpo. split. { now rewrite upd_other. } split.
      { exists ko. split; auto. rewrite Het; auto. }
      intros b' Hb'. unfold upd. destruct (Nat.eqb_spec b' bt) as [->|Hb'']; auto. rewrite Het; auto.
  - destruct Ho as (Hgo & (ko & Hmo & Hco & Hro) & Heo), Ht as (Ht1 & Ht2 & Ht3 & Ht4).
    exists others. split.
    + split; auto. rewrite Hpt. split; auto. split; auto. split; auto. now intros b.
    + split; auto. rewrite Hpo. split; auto. split. { exists ko. rewrite Ht4. auto. } intros b' Hb'. rewrite Ht4. auto.
  - destruct Ho as (Ho1 & Ho2 & Ho3 & Ho4), Ht as (Hgt & (kt & Hmt & Hct & Hrt) & Het).
    exists m. split.
    + split; auto. rewrite Hpt. split. { rewrite <- Ho4. auto. } split. { exists kt. auto. } intros b' Hb'. rewrite Het; auto.
    + split; auto. rewrite Hpo. split; auto. split; auto. split; auto. now intros b.
  - destruct Ho as (Ho1 & Ho2 & Ho3 & Ho4), Ht as (Ht1 & Ht2 & Ht3 & Ht4).
    exists m. split.
    + split; auto. rewrite Hpt. split; auto. split; auto. split; auto. intros b. rewrite Ht4. auto.
    + split; auto. rewrite Hpo. split; auto. split; auto. split; auto. now intros b.
Qed.

Lemma two_vectors_sym o (vs : list V) t us others (w : world) :
  two_vectors minc maxc o vs t us others w -> two_vectors minc maxc t us o vs others w.
Proof. intros (mid & Ho & Ht & Hu). destruct (vectors_swap_in _ _ _ _ _ _ _ Ho Ht) as (mid' & H1 & H2). exists mid'. auto. Qed.

Lemma swap_vec o (vs : list V) t us others (w : world) :
  two_vectors minc maxc o vs t us others w ->
  ends (bv_swap (V := V) (o, t) w)
    (fun p _ w' => w' = w /\ two_vectors minc maxc (fst p) us (snd p) vs others w') (fun _ _ => False).
Proof.
  intros H. unfold ends, bv_swap, bind, get, put. cbn [fst snd]. split; auto. apply two_vectors_sym in H.
  destruct o as [so ko], t as [st kt]. exact H.
Qed.

(** Copy assignment to a vector whose contents were moved away. *)
Lemma copy_assign_null trivial o t us w :
  moved_from o -> unused_names w -> Forall2 (makes (heap w)) (map (CopyOf (bv_data t)) (seq 0 (b_size t))) us -> length us <= maxc ->
  ends (bv_copy_assign moved minc maxc trivial t o w)
    (fun o' _ w' => is_vec o' us (heap w) w')
    (fun o' w' => someone_throws w /\ (untouched o o' w w' \/ is_vec o' [] (heap w) w')).
Proof.
  intros [Hp Hs] Hu Hmk Hmax. apply makes_all in Hmk.
  pose proof (Forall2_len _ _ _ Hmk) as Hlen. pose proof (at_start w Hu) as Hat.
  assert (Hst : b_size t = length us). { rewrite <- Hlen, map_length, seq_length. reflexivity. }
  change (wp (bv_copy_assign moved minc maxc trivial t) o w
    (fun o' _ w' => is_vec o' us (heap w) w')
    (fun o' w' => someone_throws w /\ (untouched o o' w w' \/ is_vec o' [] (heap w) w'))).
  unfold bv_copy_assign. apply wp_bind, wp_get. change (bv_data o) with (u_pointer (b_storage o)). rewrite Hp.
  apply wp_bind. unfold bv_replace_empty_allocation. apply wp_bind, wp_get. apply wp_bind. apply wp_require. { now rewrite Hs. }
  apply wp_bind. unfold reservation_size. apply wp_bind. apply wp_require. { apply andb_true_intro. split; apply Nat.leb_le; lia. }
  apply wp_ret. apply wp_bind. unfold deallocate_storage. rewrite Hp. apply wp_ret.
  apply wp_bind. eapply wp_allocate_storage; [exact Hat| |].
  2:{ intros w1 Hq H1. split. { now apply not_calm. } left. eapply untouched_intro; eauto. }
  intros w1 b Hb H1. apply wp_put. apply wp_bind, wp_get. cbn [bv_data b_storage u_pointer]. apply wp_bind.
  set (N := Nat.max (b_size t) minc) in *. rewrite map_length, seq_length in Hlen.
  assert (Hrep : repeat (@None V) N = [] ++ repeat None (length (map (CopyOf (V := V) (bv_data t)) (seq 0 (b_size t)))) ++ repeat None (N - b_size t)).
  { rewrite map_length, seq_length. cbn [app]. rewrite <- repeat_plus. f_equal. lia. }
  eapply wp_uninitialized_copy; [exact H1|rewrite upd_same, Hrep; reflexivity|reflexivity| | |].
  - eapply Forall2_weaken; [|exact Hmk]. intros mk v Hmk1.
    destruct mk as [v'|[b'|] i|[b'|] i|[b'|] i]; cbn in Hmk1 |- *; try contradiction; auto.
    destruct Hmk1 as (cs & Hcs & Hi). exists cs. split; auto. rewrite upd_other; auto. congruence.
  - intros w2 H2. apply wp_put. cbn [app] in H2.
    refine (proj1 (cells_vec moved minc maxc Hmm _ _ us (N - b_size t) _ _ _ H2 _)). split; [|cbn; lia].
    unfold bv_own. cbn. split; auto. split. { apply upd_upd. } rewrite app_length, map_length, repeat_length. lia.
  - intros w2 Hq H2. split. { now apply not_calm. } right.
    refine (proj1 (cells_vec moved minc maxc Hmm _ _ [] N _ _ _ H2 _)). split; [|cbn; lia].
    unfold bv_own. cbn. rewrite repeat_length. split; auto. split. { apply eqh_refl. } lia.
Qed.

Lemma copy_assign_moved_from_vec trivial o t us others w :
  moved_from o -> is_vec t us others w ->
  ends (bv_copy_assign moved minc maxc trivial t o w)
    (fun o' _ w' => is_vec o' us (heap w) w')
    (fun o' w' => someone_throws w /\ (untouched o o' w w' \/ is_vec o' [] (heap w) w')).
Proof.
  intros Ho [Ht Hu]. apply copy_assign_null; auto. { eapply copies_of; eauto. }
  destruct (proj1 (vec_cells_in moved minc maxc _ _ _ _) Ht) as (k & Hc & Hk).
  pose proof (bl_max _ _ B _ _ _ _ (proj1 Hc)) as Hmax. rewrite length_cells in Hmax. cbn [bounded_vector c_max] in Hmax. lia.
Qed.

(** Copy assignment between two living vectors, elements not trivially copyable. *)
Lemma copy_assign_vec o (vs : list V) t us others (w : world) :
  minc < maxc -> two_vectors minc maxc o vs t us others w -> u_pointer (b_storage o) <> None ->
  ends (bv_copy_assign moved minc maxc false t o w)
    (fun o' _ w' => two_vectors minc maxc o' us t us others w')
    (fun o' w' => (someone_throws w \/ capacity_of o < length us /\ maxc < grown o (length us)) /\
       exists n, n <= length vs /\ n <= length us /\ two_vectors minc maxc o' (firstn n us ++ skipn n vs) t us others w').
Proof.
  intros Hlt H Hnull. pose proof (two_vectors_sym _ _ _ _ _ _ H) as (mid & Ht & Ho & Hu).
  pose proof (copies_of _ _ _ _ Ht) as Hmk.
  unfold bv_copy_assign, bind, get. change (bv_data o) with (u_pointer (b_storage o)).
  destruct (u_pointer (b_storage o)) as [bo|]; [|contradiction].
  pose proof (assign_vec moved minc maxc Hmm _ us o vs mid w Hlt (conj Ho Hu) Hmk) as Ha.
  unfold ends in *. destruct (assign _ _ _ _ _ o w) as [o' a w'|o' w'|]; auto.
  - apply two_vectors_sym. exists mid. destruct Ha. auto.
  - destruct Ha as [Hw (n & Hn1 & Hn2 & Hn)]. split; auto. exists n. split; auto. split; auto.
    apply two_vectors_sym. exists mid. destruct Hn. auto.
Qed.

(** Construction from a range without a size, when nothing throws. *)
Lemma from_unsized_vec mks us w :
  minc < maxc -> unused_names w -> Forall2 (makes (heap w)) mks us -> 2 * length us <= maxc -> ~ someone_throws w ->
  ends (bv_from moved minc maxc false (Source mks false) tt w)
    (fun _ o w' => is_vec o us (heap w) w') (fun _ _ => False).
Proof.
  intros Hlt Hu Hmk Hl Hcalm. apply makes_all in Hmk. assert (Hne : minc <> maxc) by lia.
  pose proof (at_start w Hu) as Hat.
  change (wp (bv_from moved minc maxc false (Source mks false)) tt w (fun _ o w' => is_vec o us (heap w) w') (fun _ _ => False)).
  unfold bv_from. cbn [s_sized]. apply wp_constructor.
  change (st <- bv_initial_storage minc;; ret (BVector st 0)) with (c_default C).
  eapply wp_conseq. { apply (bv_default_ok moved (calm w) minc maxc Hmm). exact Hat. } 2:{ cbv beta. intros _ w' [_ Hq]. elim Hq. exact Hcalm. }
  cbv beta. intros x o w1 (h1 & H1 & Hc). unfold assign_to_empty. rewrite (rl_reserve_is _ _ _ _ _ _ (RL w Hne)). cbn [s_sized s_elements].
  apply wp_bind, wp_get. apply wp_bind. apply wp_require. { destruct Hc as [_ Hs]. now rewrite Hs. }
  eapply wp_conseq. { eapply (each_push_back_ok moved (calm w) C own (fun _ => True) minc B _ (RL w Hne)); [exact H1|exact Hc|exact Hmk|exact Hl]. }
  - cbv beta. intros o' _ w' (h' & k' & H' & Hc'). now destruct (cells_vec moved minc maxc Hmm _ _ _ _ _ _ _ H' Hc').
  - cbv beta. intros o' w' (n & h' & k' & _ & Hq & _). elim Hq. exact Hcalm.
Qed.

End BoundedVector.

Section StaticVector.
Context (capacity : nat).
Local Notation C := (static_vector (V := V) capacity).
Local Notation own := (sv_own (V := V) capacity).
Local Notation cells := (holds_cells C own).
Local Notation is_vec := (is_static_vector (V := V) capacity).
Local Notation B := (sv_base (V := V) capacity).

Lemma svec_cells o vs (g : memory) w : is_vec o vs g w -> exists k, cells o vs k g (heap w) /\ length vs + k = capacity.
Proof.
  intros ((Hs & Hg & (k & Hb & Hk) & Hm) & Hu). exists k. split; auto. split; auto. split; auto. split.
  - intros b. unfold upd. destruct (Nat.eqb_spec b (v_place o)) as [->|]; auto.
  - rewrite length_cells. exact Hk.
Qed.
Lemma cells_svec q o vs k g h (w : world) : at_ q w h -> cells o vs k g h -> is_vec o vs g w.
Proof.
  intros H [(Hg & Hh & Hl) Hs]. destruct (at_here _ _ _ H) as [He Hu]. rewrite length_cells in Hl.
  split; auto. split; auto. split; auto. split. { exists k. split; auto. rewrite <- He, Hh, upd_same. reflexivity. }
  intros b Hb. rewrite <- He, Hh. now apply upd_other.
Qed.
Lemma svec_unused o vs g w : is_vec o vs g w -> unused_names w.
Proof. intros [_ H]. exact H. Qed.

Lemma push_back_svec mk v o vs others w :
  is_vec o vs others w -> makes (heap w) mk v ->
  ends (push_back moved C mk o w)
    (fun o' _ w' => length vs < capacity /\ is_vec o' (vs ++ [v]) others w')
    (fun o' w' => untouched o o' w w' /\ (someone_throws w \/ length vs = capacity)).
Proof.
  intros Hv Hmk. pose proof (svec_unused _ _ _ _ Hv) as Hu. destruct (svec_cells _ _ _ _ Hv) as (k & Hc & Hk).
  pose proof (at_start w Hu) as Hat. apply makes_yields in Hmk.
  apply (wp_conseq (lazy_push_back moved C mk) o w _ _ _ _ (push_back_fixed_ok moved (calm w) C own B eq_refl _ _ _ _ _ _ _ _ Hat Hc Hmk)).
  - cbv beta. intros o' _ w' (Hk1 & h' & H' & Hc'). split; [lia|]. eapply cells_svec; eauto.
  - cbv beta. intros o' w' (-> & H' & Hq). split. { eapply untouched_intro; eauto. }
    apply calm_or. intros Hcalm. specialize (Hq Hcalm). lia.
Qed.

Lemma pop_back_svec o vs v others w :
  is_vec o (vs ++ [v]) others w ->
  ends (pop_back C o w) (fun o' _ w' => is_vec o' vs others w') (fun _ _ => False).
Proof.
  intros Hv. pose proof (svec_unused _ _ _ _ Hv) as Hu. destruct (svec_cells _ _ _ _ Hv) as (k & Hc & Hk).
  pose proof (at_start w Hu) as Hat.
  apply (wp_conseq (pop_back C) o w _ _ _ _ (pop_back_ok (calm w) C own B _ _ _ _ _ _ _ Hat Hc)); [|auto].
  cbv beta. intros o' _ w' (h' & H' & Hc'). eapply cells_svec; eauto.
Qed.
Lemma clear_svec o vs others w :
  is_vec o vs others w ->
  ends (clear C o w) (fun o' _ w' => is_vec o' [] others w') (fun _ _ => False).
Proof.
  intros Hv. pose proof (svec_unused _ _ _ _ Hv) as Hu. destruct (svec_cells _ _ _ _ Hv) as (k & Hc & Hk).
  pose proof (at_start w Hu) as Hat.
  apply (wp_conseq (clear C) o w _ _ _ _ (clear_ok (calm w) C own B _ _ _ _ _ _ Hat Hc)); [|auto].
  cbv beta. intros o' _ w' (h' & H' & Hc'). eapply cells_svec; eauto.
Qed.
Lemma erase_svec o l1 ds ss others w :
  is_vec o (l1 ++ ds ++ ss) others w ->
  ends (erase moved C (length l1) (length l1 + length ds) o w)
    (fun o' r w' => r = length l1 /\ is_vec o' (l1 ++ ss) others w') (fun _ _ => False).
Proof.
  intros Hv. pose proof (svec_unused _ _ _ _ Hv) as Hu. destruct (svec_cells _ _ _ _ Hv) as (k & Hc & Hk).
  pose proof (at_start w Hu) as Hat.
  apply (wp_conseq (erase moved C (length l1) (length l1 + length ds)) o w _ _ _ _
           (erase_ok moved (calm w) C own B _ _ _ _ _ _ _ _ _ _ Hat Hc eq_refl eq_refl)); [|auto].
  cbv beta. intros o' r w' (Hr & h' & H' & Hc'). split; auto. eapply cells_svec; eauto.
Qed.
Lemma insert_svec mks us o l1 l2 others w :
  is_vec o (l1 ++ l2) others w -> Forall2 (makes others) mks us -> mks <> [] \/ l2 = [] ->
  ends (insert moved C (length l1) mks o w)
    (fun o' r w' => r = length l1 /\ is_vec o' (l1 ++ us ++ l2) others w')
    (fun o' w' => untouched o o' w w' /\ (someone_throws w \/ capacity < length (l1 ++ us ++ l2))).
Proof.
  intros Hv Hmk Hnil. pose proof (svec_unused _ _ _ _ Hv) as Hu. destruct (svec_cells _ _ _ _ Hv) as (k & Hc & Hk).
  pose proof (at_start w Hu) as Hat. apply makes_all in Hmk. pose proof (Forall2_len _ _ _ Hmk) as Hlen.
  apply (wp_conseq (insert moved C (length l1) mks) o w _ _ _ _
      (insert_fixed_ok moved (calm w) C own B eq_refl _ _ _ _ _ _ _ _ _ _ Hat Hc Hmk eq_refl Hnil)).
  - cbv beta. intros o' r w' (_ & Hr & h' & H' & Hc'). split; auto. eapply cells_svec; eauto.
  - cbv beta. intros o' w' (-> & H' & Hq). split. { eapply untouched_intro; eauto. }
    apply calm_or. intros Hcalm. specialize (Hq Hcalm). rewrite !app_length in *. lia.
Qed.
Lemma append_svec mks us o vs others w :
  is_vec o vs others w -> Forall2 (makes (heap w)) mks us -> length vs + length us <= capacity ->
  ends (append moved C (Source mks true) o w)
    (fun o' _ w' => is_vec o' (vs ++ us) others w')
    (fun o' w' => untouched o o' w w' /\ someone_throws w).
Proof.
  intros Hv Hmk Hl. pose proof (svec_unused _ _ _ _ Hv) as Hu. destruct (svec_cells _ _ _ _ Hv) as (k & Hc & Hk).
  pose proof (at_start w Hu) as Hat. apply makes_all in Hmk. pose proof (Forall2_len _ _ _ Hmk) as Hlen.
  apply (wp_conseq (append moved C (Source mks true)) o w _ _ _ _
    (append_fixed_ok moved (calm w) C own B eq_refl _ _ _ _ _ _ _ _ Hat Hc Hmk ltac:(lia))).
  - cbv beta. intros o' _ w' (h' & H' & Hc'). eapply cells_svec; eauto.
  - cbv beta. intros o' w' (-> & H' & _ & Hq). split. { eapply untouched_intro; eauto. } now apply not_calm.
Qed.
Lemma append_too_long_svec mks o vs others w :
  is_vec o vs others w -> capacity < length mks ->
  append moved C (Source mks true) o w = Exc o w.
Proof.
  intros _ Hl. apply Nat.ltb_lt in Hl. unfold append, checked_uninitialized_copy, bind, get, ret.
  cbn [static_vector c_reserve c_capacity s_sized s_elements]. unfold ret, bind. now rewrite Hl.
Qed.
Lemma destroy_svec o vs others w :
  is_vec o vs others w ->
  ends (sv_destroy capacity o w) (fun _ _ w' => same (heap w') others) (fun _ _ => False).
Proof.
  intros Hv. pose proof (svec_unused _ _ _ _ Hv) as Hu. destruct (svec_cells _ _ _ _ Hv) as (k & Hc & Hk).
  pose proof (at_start w Hu) as Hat.
  apply (wp_conseq (sv_destroy capacity) o w _ _ _ _ (sv_disposes (calm w) capacity _ _ _ _ _ Hc w Hat)); [|auto].
  cbv beta. intros _ _ w' (H1 & _). exact H1.
Qed.

Lemma wp_sv_constructor (body : M svector unit) w (Q : unit -> svector -> world -> Prop) (E : unit -> world -> Prop) :
  wp (sv_default (V := V) capacity) tt w (fun x o w => wp body o w (fun o _ w => Q x o w)
     (fun o w => wp (deallocate (sv_data o) capacity) x w (fun x _ w => E x w) (fun _ _ => False))) E ->
  wp (sv_constructor capacity body) tt w Q E.
Proof.
  unfold wp, sv_constructor. destruct (sv_default capacity tt w) as [x' o w'|x' w'|]; auto. destruct (body o w') as [o' [] w''|o' w''|]; auto.
  destruct (deallocate (sv_data o') capacity x' w''); auto.
Qed.

Lemma sv_fill_ok q mks us (w : world) h :
  at_ q w h -> Forall2 (yields h) mks us -> length mks <= capacity ->
  wp (sv_constructor capacity (assign_to_empty_into_capacity moved C (Source mks true))) tt w
    (fun _ o w' => is_vec o us h w') (fun _ w' => at_ q w' h /\ ~ q).
Proof.
  intros H Hy Hn. pose proof (Forall2_len _ _ _ Hy) as Hlen. apply wp_sv_constructor.
  eapply wp_conseq. { apply (sv_default_ok q). exact H. } 2:{ contradiction. }
  cbv beta. intros x o w1 (h1 & H1 & [Ho Hs]). unfold assign_to_empty_into_capacity. cbn [s_elements].
  apply wp_bind, wp_get. apply wp_bind. apply wp_require. { rewrite Hs. reflexivity. }
  apply wp_bind. cbn [map app] in Ho.
  eapply (wp_own_copy moved q C own B o us mks [] (repeat None (capacity - length mks))); [exact H1| |eapply Forall2_yields_keep; eauto; exact B|..].
  { cbn [app]. rewrite <- repeat_plus. replace (length mks + (capacity - length mks)) with capacity by lia. exact Ho. }
  - intros w2 h2 H2 Ho2 _. cbn [app] in Ho2. eapply wp_set_size; [exact B|exact Ho2| |].
    { rewrite app_length, map_length, repeat_length. lia. }
    intros o3 Ho3 _ Hs3. eapply cells_svec; [exact H2|]. split; [exact Ho3|lia].
  - intros w2 Hq H2. destruct Ho as (Hg & Hh & _). eapply wp_release; [exact H2|exact Hh|exact Hg|reflexivity|]. intros w3 H3. auto.
Qed.

Lemma copy_svec o vs others w :
  is_vec o vs others w ->
  ends (sv_copy moved capacity o tt w)
    (fun _ c w' => is_vec c vs (heap w) w')
    (fun _ w' => same (heap w') (heap w) /\ someone_throws w).
Proof.
  intros Hv. pose proof (svec_unused _ _ _ _ Hv) as Hu. pose proof Hv as ((Hs & Hg & (k & Hb & Hk) & Hm) & _).
  assert (Hmk : Forall2 (yields (heap w)) (map (CopyOf (sv_data o)) (seq 0 (v_size o))) vs).
  { rewrite Hs. apply (copies_yield (heap w) (v_place o) vs (repeat None k) []). exact Hb. }
  pose proof (Forall2_len _ _ _ Hmk) as Hlen.
  apply (wp_conseq (sv_copy moved capacity o) tt w _ _ _ _ (sv_fill_ok (calm w) _ vs w (heap w) (at_start w Hu) Hmk ltac:(lia))).
  - cbv beta. auto.
  - cbv beta. intros _ w' [H' Hq]. split. { apply H'. } now apply not_calm.
Qed.

Lemma default_svec w :
  unused_names w ->
  ends (sv_default capacity tt w) (fun _ o w' => is_vec o [] (heap w) w') (fun _ _ => False).
Proof.
  intros Hu. apply (wp_conseq (sv_default capacity) tt w _ _ _ _ (sv_default_ok (calm w) capacity _ _ (at_start w Hu))); auto.
  cbv beta. intros _ o w' (h' & H' & Hc). eapply cells_svec; eauto.
Qed.

Lemma move_svec o vs others w :
  is_vec o vs others w ->
  ends (sv_move moved capacity o w)
    (fun o' c w' => two_static_vectors capacity o' [] c vs others w')
    (fun _ _ => False).
Proof.
  intros Hv. pose proof (svec_unused _ _ _ _ Hv) as Hu. destruct (svec_cells _ _ _ _ Hv) as (k & [(Hg & Hh & Hl) Hs] & Hk).
  pose proof (at_start w Hu) as Hat. rewrite length_cells in Hl.
  change (wp (sv_move moved capacity) o w
    (fun o' c w' => two_static_vectors capacity o' [] c vs others w') (fun _ _ => False)).
  unfold sv_move. apply wp_bind, wp_get. apply wp_bind. eapply wp_new_block; [exact Hat|]. intros w1 b Hb H1.
  apply wp_bind. cbn [static_vector c_size] in Hs. rewrite Hs.
  assert (Hne : v_place o <> b). { intros <-. rewrite Hh, upd_same in Hb. discriminate. }
  eapply (wp_uninitialized_relocate moved (calm w) (v_place o) 0 b 0 vs [] (repeat None k) [] (repeat None (capacity - length vs)));
    [exact H1|exact Hne| |reflexivity|reflexivity| |reflexivity|].
  { rewrite upd_other by auto. rewrite Hh, upd_same. reflexivity. }
  { rewrite upd_same. cbn [app]. rewrite <- repeat_plus. do 2 f_equal. lia. }
  intros w2 H2. apply wp_bind, wp_put. apply wp_ret. cbn [app] in H2.
  destruct (at_here _ _ _ H2) as [He2 Hu2].
  set (mid := upd (heap w) (v_place o) (Some (repeat None capacity))).
  exists mid. split; [|split; auto].
  - split; auto. split; auto. split.
    { exists capacity. split; auto. unfold mid. cbn [v_place]. now rewrite upd_same. }
    intros b' Hb'. cbn [v_place] in Hb'. unfold mid. rewrite upd_other by auto. rewrite Hh. now apply upd_other.
  - split; auto. split. { unfold mid. cbn [v_place]. rewrite upd_other; auto. } split.
    { exists (capacity - length vs). cbn [v_place]. rewrite <- He2, upd_same. split; auto. lia. }
    intros b' Hb'. cbn [v_place] in Hb'. rewrite <- He2. unfold mid. rewrite upd_other by auto. unfold upd.
    destruct (Nat.eqb_spec b' (v_place o)).
    + do 2 f_equal. rewrite <- repeat_plus. f_equal. lia.
    + destruct (Nat.eqb_spec b' b); [contradiction|reflexivity].
Qed.

End StaticVector.
End Proofs.
