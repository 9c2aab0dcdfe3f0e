(** * Exactly what insert does with an element of the container itself, and with nothing (C32, C120) *)

From Coq Require Import List Arith Bool Lia.
From Verif Require Import Mem Vec SpecVec MemLemmas VecLemmas VecLemmas2 VecLemmas3 VecInst VecProofs VecProofs2 VecProofs3 StdVec StdVecProofs PropsVec OwnElement.
Import ListNotations.
Local Open Scope nat_scope.

(** The element that ends up in the vector when the element at [i] is inserted at [position] without reallocation. *)
Definition inserted_instead (position i : nat) : nat := if i <? position then i else i - 1.

(** ** C32. Inserting an empty range anywhere but at the end constructs an object on top of the last element. *)
Theorem C32_empty_range_exactly : forall V (moved : V -> V) minc maxc o before rest others w,
  minc <= maxc -> is_vector minc maxc o (before ++ rest) others w -> rest <> [] ->
  insert moved (bounded_vector moved minc maxc) (length before) [] o w = Bad Overwrite.
Proof.
  intros V moved minc maxc o l1 l2 others w Hmm Hv Hl. pose proof Hv as [_ Hu]. destruct (vec_cells moved _ _ _ _ _ _ Hv) as (k & Hc & _).
  exact (insert_empty_bad moved (calm w) _ _ (bv_base moved minc maxc Hmm) _ _ _ _ _ _ _ (at_start w Hu) Hc Hl).
Qed.
Print Assumptions C32_empty_range_exactly.
Theorem C32_empty_range_static_exactly : forall V (moved : V -> V) capacity o before rest others w,
  is_static_vector capacity o (before ++ rest) others w -> rest <> [] ->
  insert moved (static_vector capacity) (length before) [] o w = Bad Overwrite.
Proof.
  intros V moved capacity o l1 l2 others w Hv Hl. pose proof (svec_unused _ _ _ _ _ Hv) as Hu. destruct (svec_cells _ _ _ _ _ Hv) as (k & Hc & _).
  exact (insert_empty_bad moved (calm w) _ _ (sv_base capacity) _ _ _ _ _ _ _ (at_start w Hu) Hc Hl).
Qed.
Print Assumptions C32_empty_range_static_exactly.

(** ** C32. With room, an element in front of the position is inserted correctly, the one at the position is gone
    when it is copied, and for one behind it its predecessor is inserted. *)
Theorem C32_own_element_exactly : forall V (moved : V -> V) minc maxc o before rest i others w,
  minc <= maxc -> is_vector minc maxc o (before ++ rest) others w -> i < length (before ++ rest) -> length (before ++ rest) < capacity_of o ->
  match insert moved (bounded_vector moved minc maxc) (length before) [CopyOf (bv_data o) i] o w with
  | Ret o' r w' => i <> length before /\ r = length before /\ capacity_of o' = capacity_of o /\
      exists u, nth_error (before ++ rest) (inserted_instead (length before) i) = Some u /\ is_vector minc maxc o' (before ++ u :: rest) others w'
  | Exc o' w' => i <> length before /\ untouched o o' w w' /\ someone_throws w
  | Bad f => i = length before /\ f = Dead
  end.
Proof.
  intros V moved minc maxc o l1 l2 i others w Hmm Hv Hi Hroom. pose proof Hv as [_ Hu]. destruct (vec_cells moved _ _ _ _ _ _ Hv) as (k & Hc & Hk).
  destruct k as [|k]; [lia|]. pose proof (at_start w Hu) as Hat. pose proof (bv_base moved minc maxc Hmm) as B.
  rewrite (insert_has_room moved (calm w) _ _ B _ _ _ _ _ _ _ _ Hat Hc).
  destruct (own_block _ _ B _ _ _ _ (proj1 Hc)) as (b & Hb & _). { rewrite length_cells. lia. }
  change (c_data (bounded_vector moved minc maxc) o) with (bv_data o) in Hb. rewrite Hb.
  destruct (Nat.eq_dec i (length l1)) as [->|Hne].
  - rewrite (insert_own_dead moved (calm w) _ _ B _ _ _ _ _ _ _ _ Hat Hc Hb). now split.
  - destruct (nth_error (l1 ++ l2) (inserted_instead (length l1) i)) as [u|] eqn:E.
    2:{ apply nth_error_None in E. unfold inserted_instead in E. destruct (i <? length l1); lia. }
    pose proof (insert_own_ok moved (calm w) _ _ B _ _ _ _ _ _ _ _ _ _ Hat Hc Hb Hne E) as T. unfold wp in T.
    destruct (insert_without_reallocation _ _ _ _ _ o w) as [o' r w'|o' w'|f]; [| |contradiction].
    + destruct T as (-> & h' & H' & Hc'). destruct (cells_vec _ _ _ Hmm _ _ _ _ _ _ _ H' Hc') as [H1 H2]. split; [exact Hne|]. split; [reflexivity|].
      split; [rewrite H2, <- Hk, !app_length; cbn; lia|]. exists u. split; [reflexivity|exact H1].
    + destruct T as (-> & H' & Hq). split; [exact Hne|]. split; [eapply untouched_intro; eauto|now apply not_calm].
Qed.
Print Assumptions C32_own_element_exactly.
Theorem C32_own_element_static_exactly : forall V (moved : V -> V) capacity o before rest i others w,
  is_static_vector capacity o (before ++ rest) others w -> i < length (before ++ rest) -> length (before ++ rest) < capacity ->
  match insert moved (static_vector capacity) (length before) [CopyOf (Some (v_place o)) i] o w with
  | Ret o' r w' => i <> length before /\ r = length before /\
      exists u, nth_error (before ++ rest) (inserted_instead (length before) i) = Some u /\ is_static_vector capacity o' (before ++ u :: rest) others w'
  | Exc o' w' => i <> length before /\ untouched o o' w w' /\ someone_throws w
  | Bad f => i = length before /\ f = Dead
  end.
Proof.
  intros V moved capacity o l1 l2 i others w Hv Hi Hroom. pose proof (svec_unused _ _ _ _ _ Hv) as Hu. destruct (svec_cells _ _ _ _ _ Hv) as (k & Hc & Hk).
  destruct k as [|k]; [lia|]. pose proof (at_start w Hu) as Hat. pose proof (sv_base (V := V) capacity) as B.
  rewrite (insert_has_room moved (calm w) _ _ B _ _ _ _ _ _ _ _ Hat Hc).
  destruct (Nat.eq_dec i (length l1)) as [->|Hne].
  - rewrite (insert_own_dead moved (calm w) _ _ B _ _ _ _ _ _ _ _ Hat Hc eq_refl). now split.
  - destruct (nth_error (l1 ++ l2) (inserted_instead (length l1) i)) as [u|] eqn:E.
    2:{ apply nth_error_None in E. unfold inserted_instead in E. destruct (i <? length l1); lia. }
    pose proof (insert_own_ok moved (calm w) _ _ B _ _ _ _ _ _ _ _ _ _ Hat Hc eq_refl Hne E) as T. unfold wp in T.
    destruct (insert_without_reallocation _ _ _ _ _ o w) as [o' r w'|o' w'|f]; [| |contradiction].
    + destruct T as (-> & h' & H' & Hc'). split; [exact Hne|]. split; [reflexivity|]. exists u. split; [reflexivity|]. eapply cells_svec; eauto.
    + destruct T as (-> & H' & Hq). split; [exact Hne|]. split; [eapply untouched_intro; eauto|now apply not_calm].
Qed.
Print Assumptions C32_own_element_static_exactly.

(** ** C32. Without room the new elements are made before anything is moved: elements of the vector itself are inserted correctly. *)
Theorem C32_own_elements_reallocating : forall V (moved : V -> V) minc maxc mks us o before rest others w,
  minc < maxc -> is_vector minc maxc o (before ++ rest) others w -> Forall2 (makes (heap w)) mks us -> capacity_of o < length (before ++ us ++ rest) ->
  ends (insert moved (bounded_vector moved minc maxc) (length before) mks o w)
    (fun o' r w' => r = length before /\ is_vector minc maxc o' (before ++ us ++ rest) others w' /\
       capacity_of o' = grown o (length (before ++ us ++ rest)))
    (fun o' w' => untouched o o' w w' /\ (someone_throws w \/ maxc < grown o (length (before ++ us ++ rest)))).
Proof.
  intros V moved minc maxc mks us o l1 l2 others w Hlt Hv Hmk Hroom. assert (Hmm : minc <= maxc) by lia. assert (Hne : minc <> maxc) by lia.
  pose proof Hv as [_ Hu]. destruct (vec_cells moved _ _ _ _ _ _ Hv) as (k & Hc & Hk). pose proof (at_start w Hu) as Hat.
  apply makes_all in Hmk. pose proof (Forall2_len _ _ _ Hmk) as Hlen. pose proof (bv_base moved minc maxc Hmm) as B.
  pose proof (bv_realloc moved (calm w) minc maxc Hmm Hne) as RL.
  assert (E : insert moved (bounded_vector moved minc maxc) (length l1) mks o w = insert_with_reallocation moved (bounded_vector moved minc maxc) (bv_reserve moved minc maxc) (length l1) mks (length mks) o w).
  { unfold insert. unfold bind at 1, get. unfold bind at 1, require. rewrite (proj2 Hc), (proj2 (Nat.leb_le (length l1) _)) by (rewrite app_length; lia). unfold ret.
    unfold bind at 1. rewrite (bl_cap _ _ B _ _ _ _ w (proj1 Hc)). rewrite length_cells, (proj2 (Nat.leb_gt _ _)) by (rewrite !app_length in *; lia).
    now rewrite (rl_reserve_is _ _ _ _ _ _ RL). }
  rewrite E.
  apply (wp_conseq _ o w _ _ _ _ (insert_with_reallocation_ok moved (calm w) _ _ (fun _ => True) minc B _ RL _ _ _ _ _ _ _ _ _ _ _ Hat Hc Hmk eq_refl eq_refl ltac:(rewrite !app_length in *; lia))).
  - cbv beta. intros o' r w' (Hr & h' & k' & H' & Hc' & Hk'). split; auto. destruct (cells_vec _ _ _ Hmm _ _ _ _ _ _ _ H' Hc') as [H1 H2]. split; auto.
    rewrite H2. unfold grown, reallocation_size in *. rewrite !app_length in *.
    destruct (Nat.leb_spec (length l1 + (length us + length l2)) (capacity_of o)); lia.
  - cbv beta. intros o' w' (-> & H' & Hq). split. { eapply untouched_intro; eauto. }
    apply calm_or. intros Hcalm. specialize (Hq Hcalm). cbn [bounded_vector c_max] in Hq. unfold grown, reallocation_size in *. rewrite !app_length in *.
    destruct (Nat.leb_spec (length l1 + (length us + length l2)) (capacity_of o)); lia.
Qed.
Print Assumptions C32_own_elements_reallocating.

(** ** C120. insert of no copies, anywhere but at the end, does the same; if the value is an element of the vector its copy may throw first. *)
Theorem C120_insert_no_copies_exactly : forall V (moved : V -> V) minc maxc p i v o before rest others w,
  minc <= maxc -> is_vector minc maxc o (before ++ rest) others w -> rest <> [] -> makes (heap w) (CopyOf p i) v ->
  match std_insert_n moved (bounded_vector moved minc maxc) (length before) 0 p i o w with
  | Ret _ _ _ => False
  | Exc o' w' => untouched o o' w w' /\ someone_throws w
  | Bad f => f = Overwrite
  end.
Proof.
  intros V moved minc maxc p i v o l1 l2 others w Hmm Hv Hl Hm. pose proof Hv as [_ Hu]. unfold std_insert_n, bind at 1, get at 1. cbn [repeat].
  destruct (in_storage _ _ p i).
  - assert (T : wp (copy_value moved p i) o w (fun o' t w' => o' = o /\ exists m, is_vector minc maxc o (l1 ++ l2) m w') (fun o' w' => untouched o o' w w' /\ someone_throws w)).
    { eapply wp_copy_value; eauto.
      - intros w1 t Ht Hh Hu1 _. split; [reflexivity|]. exists (plus_block others t [Some v]). exact (vec_plus _ _ _ _ _ _ _ _ _ Hv Ht Hh Hu1).
      - intros w1 H1 H2 H3. repeat split; assumption. }
    unfold with_local. unfold wp in T. destruct (copy_value moved p i o w) as [o1 t w1|o1 w1|f]; [|exact T|contradiction]. destruct T as (-> & m & Hv1).
    unfold bind, get, on_fst. cbn [fst snd]. now rewrite (C32_empty_range_exactly V moved minc maxc o l1 l2 m w1 Hmm Hv1 Hl).
  - now rewrite (C32_empty_range_exactly V moved minc maxc o l1 l2 others w Hmm Hv Hl).
Qed.
Print Assumptions C120_insert_no_copies_exactly.
Theorem C120_inplace_insert_no_copies_exactly : forall V (moved : V -> V) capacity p i v o before rest others w,
  is_static_vector capacity o (before ++ rest) others w -> rest <> [] -> makes (heap w) (CopyOf p i) v ->
  match std_insert_n moved (static_vector capacity) (length before) 0 p i o w with
  | Ret _ _ _ => False
  | Exc o' w' => untouched o o' w w' /\ someone_throws w
  | Bad f => f = Overwrite
  end.
Proof.
  intros V moved capacity p i v o l1 l2 others w Hv Hl Hm. pose proof Hv as [_ Hu]. unfold std_insert_n, bind at 1, get at 1. cbn [repeat].
  destruct (in_storage _ _ p i).
  - assert (T : wp (copy_value moved p i) o w (fun o' t w' => o' = o /\ exists m, is_static_vector capacity o (l1 ++ l2) m w') (fun o' w' => untouched o o' w w' /\ someone_throws w)).
    { eapply wp_copy_value; eauto.
      - intros w1 t Ht Hh Hu1 _. split; [reflexivity|]. exists (plus_block others t [Some v]). exact (svec_plus _ _ _ _ _ _ _ _ Hv Ht Hh Hu1).
      - intros w1 H1 H2 H3. repeat split; assumption. }
    unfold with_local. unfold wp in T. destruct (copy_value moved p i o w) as [o1 t w1|o1 w1|f]; [|exact T|contradiction]. destruct T as (-> & m & Hv1).
    unfold bind, get, on_fst. cbn [fst snd]. now rewrite (C32_empty_range_static_exactly V moved capacity o l1 l2 m w1 Hv1 Hl).
  - now rewrite (C32_empty_range_static_exactly V moved capacity o l1 l2 others w Hv Hl).
Qed.
Print Assumptions C120_inplace_insert_no_copies_exactly.

(** A vector of three elements with room for one more, and one without room. *)
Example C32_own_example :
  is_vector 0 20 roomy ([1] ++ [2; 3]) nothing (alone (some123 ++ [None]) []) /\ length ([1] ++ [2; 3]) < capacity_of roomy /\
  match insert forget (bounded_vector forget 0 20) 1 [CopyOf (bv_data roomy) 0] roomy (alone (some123 ++ [None]) []) with
  | Ret _ _ w' => heap w' 0 = Some [Some 1; Some 1; Some 2; Some 3] | _ => False end /\
  insert forget (bounded_vector forget 0 20) 1 [CopyOf (bv_data roomy) 1] roomy (alone (some123 ++ [None]) []) = Bad Dead /\
  match insert forget (bounded_vector forget 0 20) 1 [CopyOf (bv_data roomy) 2] roomy (alone (some123 ++ [None]) []) with
  | Ret _ _ w' => heap w' 0 = Some [Some 1; Some 2; Some 2; Some 3] | _ => False end /\
  is_vector 0 20 full ([1] ++ [2; 3]) nothing (alone some123 []) /\
  match insert forget (bounded_vector forget 0 20) 1 [CopyOf (bv_data full) 2] full (alone some123 []) with
  | Ret _ _ w' => heap w' 1 = Some [Some 1; Some 3; Some 2; Some 3; None; None] | _ => False end.
Proof. split; [exact (roomy_is_vector [])|]. split; [cbn; lia|]. repeat (split; [vm_compute; reflexivity|]). split; [exact (full_is_vector [])|vm_compute; reflexivity]. Qed.
