(** * Operations of sbo_vector that do not allocate *)

From Coq Require Import List Arith Bool NArith Lia.
From Verif Require Import Mem MemLemmas Vec VecLemmas VecCost SpecVec VecProofs Sbo SboLemmas SpecSbo SboProofs.
Import ListNotations.

Section Cost.
Context {V : Type} (moved : V -> V) (small max : nat).
Local Notation world := (world V).
Local Notation C := (sbo_vector (V := V) moved small max).
Local Notation is_sbo := (is_sbo (V := V) small max).
Local Notation cap := (sbo_capacity small).

Definition counted (k : nat) (w w' : world) : Prop := next w <= next w' <= next w + k.
Lemma counted_evolution : evolution counted.
Proof. constructor; unfold counted; intros; cbn in *; try lia. Qed.
Local Notation EV := counted_evolution.
Local Notation free := (evolves counted 0).

Lemma free_nothing {X A} (m : M V X A) x w : free m -> (match m x w with Bad _ => False | _ => True end) -> allocates_nothing w (m x w).
Proof.
  intros H Hb. specialize (H x w). unfold allocates_nothing. destruct (m x w); auto; unfold counted in H; lia.
Qed.

Ltac ev := cbn [sbo_vector c_capacity c_set_size c_data c_size]; repeat first
  [ apply (evolves_construct_at moved _ EV) | apply (evolves_assign_at moved _ EV) | apply (evolves_destroy_range _ EV) | apply (evolves_copy moved _ EV)
  | apply (evolves_relocate moved _ EV) | apply (evolves_relocate_reversed moved _ EV)
  | apply (evolves_deallocate _ EV) | apply (evolves_destroy _ EV) | apply (evolves_load _ EV) | apply (evolves_may_throw _ EV)
  | apply (evolves_bind0 _ EV); [|intros ?] | apply (evolves_rethrow _ EV) | apply (evolves_ret _ EV) | apply (evolves_get _ EV) | apply (evolves_put _ EV)
  | apply (evolves_throw _ EV) | apply (evolves_require _ EV) | apply evolves_bad ].

Lemma free_capacity : free (sb_capacity (V := V) small max).
Proof. unfold sb_capacity. ev. destruct (s_is_large v), (s_state v); ev. Qed.
Lemma free_set_size n : free (sb_set_size (V := V) small max n).
Proof. unfold sb_set_size. ev. destruct (s_is_large v), (s_state v); ev. Qed.
Local Opaque sb_set_size sb_capacity.
Ltac ev2 := cbn [sbo_vector c_capacity c_set_size c_data c_size]; repeat first
  [ apply free_capacity | apply free_set_size | apply (evolves_construct_at moved _ EV) | apply (evolves_assign_at moved _ EV) | apply (evolves_destroy_range _ EV) | apply (evolves_copy moved _ EV)
  | apply (evolves_relocate moved _ EV) | apply (evolves_relocate_reversed moved _ EV)
  | apply (evolves_deallocate _ EV) | apply (evolves_destroy _ EV) | apply (evolves_load _ EV) | apply (evolves_may_throw _ EV)
  | apply (evolves_bind0 _ EV); [|intros ?] | apply (evolves_rethrow _ EV) | apply (evolves_ret _ EV) | apply (evolves_get _ EV) | apply (evolves_put _ EV)
  | apply (evolves_throw _ EV) | apply (evolves_require _ EV) | apply evolves_bad ].
Lemma free_into_capacity mk : free (lazy_push_back_into_capacity moved C mk).
Proof. unfold lazy_push_back_into_capacity. ev2. Qed.
Lemma free_without_reallocation p mks n : free (insert_without_reallocation moved C p mks n).
Proof. unfold insert_without_reallocation. ev2. Qed.
Lemma free_erase_to_end n : free (erase_to_end C n).
Proof. unfold erase_to_end. ev2. Qed.
Lemma free_pop_back : free (pop_back C).
Proof. unfold pop_back. ev2. { destruct (_ =? _); ev2. } Qed.
Lemma free_clear : free (clear C).
Proof. unfold clear. ev2. Qed.
Lemma free_erase_loop p t n s l : free (erase_loop (O := sbo) moved p t n s l).
Proof. revert t s. induction n as [|n IH]; intros; cbn; ev. destruct (_ =? _); ev. apply IH. Qed.
Lemma free_erase i j : free (erase moved C i j).
Proof. unfold erase. destruct (i =? j); ev2. { apply free_erase_loop. } { destruct (negb _); ev2. } Qed.

Local Transparent sb_set_size sb_capacity.
Context (Hsm : small < max) (Hmax : (N.of_nat max < 2 ^ 63)%N).

Lemma capacity_is o vs others w : is_sbo o vs others w -> sb_capacity small max o w = Ret o (cap o) w.
Proof.
  intros Hv. destruct (sbo_cells moved small max o vs others w Hv) as (k & [[_ Ho] _] & Hk).
  unfold sb_capacity, sbo_capacity, bind, get. destruct (s_is_large o), (s_state o) as [f|[b|] c f]; try contradiction; [|reflexivity].
  destruct Ho as (_ & _ & _ & _ & Hc). replace (_ && _) with true; [reflexivity|].
  symmetry. apply andb_true_intro. split; apply Nat.leb_le; lia.
Qed.
Lemma size_is o vs others w : is_sbo o vs others w -> sb_size o = length vs.
Proof. intros [[H _] _]. exact H. Qed.

Lemma reserve_free n o vs others w : is_sbo o vs others w -> n <= cap o -> sb_reserve moved small max n o w = Ret o tt w.
Proof.
  intros Hv Hn. unfold sb_reserve, bind. rewrite (capacity_is _ _ _ _ Hv). destruct (Nat.leb_spec n (cap o)); [reflexivity|lia].
Qed.

Lemma ends_fine {X A} (r : out V X A) Q E : ends r Q E -> match r with Bad _ => False | _ => True end.
Proof. destruct r; auto. Qed.

Lemma push_back_free mk v o vs others w :
  is_sbo o vs others w -> makes (heap w) mk v -> length vs < cap o -> allocates_nothing w (push_back moved C mk o w).
Proof.
  intros Hv Hmk Hl. pose proof (push_back_sbo moved small max Hsm Hmax mk v o vs others w Hv Hmk (or_introl Hl)) as He. apply ends_fine in He.
  revert He. unfold push_back, lazy_push_back. cbn [sbo_vector c_max c_capacity c_size c_reserve].
  destruct (Nat.eqb_spec max 0); [lia|]. unfold bind, get. rewrite (capacity_is _ _ _ _ Hv), (size_is _ _ _ _ Hv).
  destruct (Nat.ltb_spec (length vs) (cap o)); [|lia]. apply (free_nothing (lazy_push_back_into_capacity moved C mk)), free_into_capacity.
Qed.

Lemma append_free mks us o vs others w :
  is_sbo o vs others w -> Forall2 (makes (heap w)) mks us -> length (vs ++ us) <= cap o ->
  allocates_nothing w (append moved C (Source mks true) o w).
Proof.
  intros Hv Hmk Hl. pose proof (append_sbo moved small max Hsm Hmax mks us o vs others w Hv Hmk) as He. apply ends_fine in He.
  assert (Hlen : length mks = length us). { clear - Hmk. induction Hmk; cbn; auto. }
  rewrite app_length in Hl.
  assert (Heq : append moved C (Source mks true) o w =
    (uninitialized_copy moved (c_data C o) (length vs) mks ;;; c_set_size C (length vs + length mks)) o w).
  { unfold append. cbn [sbo_vector c_max c_capacity c_size c_reserve s_sized s_elements c_set_size c_data].
    unfold bind, get. rewrite (capacity_is _ _ _ _ Hv), (size_is _ _ _ _ Hv).
    destruct (Nat.leb_spec (length vs + length mks) (cap o)); [reflexivity|lia]. }
  rewrite Heq in *. apply free_nothing; auto.
  Local Opaque sb_set_size. ev2. Local Transparent sb_set_size.
Qed.

Lemma insert_free mks us o l1 l2 others w :
  is_sbo o (l1 ++ l2) others w -> Forall2 (makes others) mks us -> mks <> [] \/ l2 = [] -> length (l1 ++ us ++ l2) <= cap o ->
  allocates_nothing w (insert moved C (length l1) mks o w).
Proof.
  intros Hv Hmk Hnil Hl. pose proof (insert_sbo moved small max Hsm Hmax mks us o l1 l2 others w Hv Hmk Hnil) as He. apply ends_fine in He.
  assert (Hlen : length mks = length us). { clear - Hmk. induction Hmk; cbn; auto. }
  rewrite !app_length in Hl.
  revert He. unfold insert. cbn [sbo_vector c_max c_capacity c_size c_reserve].
  unfold bind, get, require. rewrite (size_is _ _ _ _ Hv), app_length.
  destruct (Nat.leb_spec (length l1) (length l1 + length l2)); [|lia]. unfold ret. rewrite (capacity_is _ _ _ _ Hv).
  destruct (Nat.leb_spec (length l1 + length l2 + length mks) (cap o)); [|lia].
  apply (free_nothing (insert_without_reallocation moved C (length l1) mks (length mks))), free_without_reallocation.
Qed.

Lemma resize_free mk v n o vs others w :
  is_sbo o vs others w -> makes others mk v -> n <= cap o -> allocates_nothing w (resize moved C n mk o w).
Proof.
  intros Hv Hmk Hl. pose proof (resize_sbo moved small max Hsm Hmax mk v n o vs others w Hv Hmk) as He. apply ends_fine in He.
  revert He. unfold resize. cbn [sbo_vector c_size]. unfold bind, get. rewrite (size_is _ _ _ _ Hv).
  destruct (Nat.leb_spec n (length vs)).
  - apply free_nothing, free_erase_to_end.
  - intros _. eapply append_free with (us := repeat v (n - length vs)); [exact Hv| |].
    + assert (Hk : makes (heap w) mk v).
      { destruct (sbo_cells moved small max o vs others w Hv) as (k & [Ho _] & _). apply makes_yields in Hmk.
        pose proof (yields_keep C _ (sb_base moved small max Hsm Hmax) _ _ _ _ _ _ Ho Hmk) as Hy.
        destruct mk; cbn in *; auto. }
      induction (n - length vs); cbn; constructor; auto.
    + rewrite app_length, repeat_length. lia.
Qed.

Lemma remove_free {X A} (m : M V X A) o w Q E : free m -> ends (m o w) Q E -> allocates_nothing w (m o w).
Proof. intros Hf He. apply free_nothing; auto. eapply ends_fine; eauto. Qed.

Lemma set_size_sbo n o (vs : list V) others w : is_sbo o vs others w -> n <= cap o ->
  exists o', sb_set_size small max n o w = Ret o' tt w /\ sb_size o' = n /\
    s_is_large o' = s_is_large o /\ sb_data o' = sb_data o /\ cap o' = cap o.
Proof.
  intros Hv Hn. destruct (sbo_cells moved small max o vs others w Hv) as (k & [[_ Ho] _] & Hk).
  unfold sb_set_size, sbo_capacity, sb_data, bind, get, require in *.
  destruct (s_is_large o) eqn:Hl, (s_state o) as [f|[b|] c f] eqn:Hst; try contradiction.
  - destruct Ho as (_ & _ & _ & _ & Hc). destruct (Nat.leb_spec n max); [|lia]. cbn [put ret]. unfold put, ret, sb_size.
    cbn [s_is_large s_state s_last_size s_place]. rewrite split_recombine by (auto; lia). rewrite Nat.eqb_refl.
    eexists. split; [reflexivity|]. cbn [s_is_large s_state s_last_size s_place]. rewrite split_recombine by (auto; lia). auto.
  - destruct (Nat.leb_spec n small); [|lia]. unfold put, ret, sb_size.
    cbn [s_is_large s_state s_last_size s_place]. rewrite split_recombine by lia. rewrite Nat.eqb_refl.
    eexists. split; [reflexivity|]. cbn [s_is_large s_state s_last_size s_place]. rewrite split_recombine by lia. auto.
Qed.
End Cost.

Section Place.
Context {V : Type} (small max : nat).
Lemma small_capacity_sbo o (vs : list V) others w : is_sbo small max o vs others w ->
  (sb_data o = Some (s_place o) <-> sbo_capacity small o = small) /\ small <= sbo_capacity small o.
Proof.
  intros [[_ H] _]. unfold sb_data, sbo_capacity.
  destruct H as [(Hl & (f & Hst) & _)|(c & Hl & b & f & Hst & Hc & Hne & _)]; rewrite Hl, Hst.
  - split; [tauto|lia].
  - split; [|lia]. split; [congruence|lia].
Qed.
End Place.
