(** * More about static_vector; references stay valid; number of allocations *)

From Coq Require Import List Arith Bool Lia.
From Verif Require Import Mem MemLemmas Vec VecLemmas VecLemmas2 VecLemmas3 VecInst SpecVec VecProofs VecProofs2.
Import ListNotations.

Section Proofs.
Context {V : Type} (moved : V -> V).
Local Notation world := (world V).
Local Notation contents := (@contents V).
Local Notation memory := (@memory V).
Local Notation M := (M V).

Section StaticVector.
Context (capacity : nat).
Local Notation C := (static_vector (V := V) capacity).
Local Notation own := (sv_own (V := V) capacity).
Local Notation cells := (holds_cells C own).
Local Notation is_vec := (is_static_vector (V := V) capacity).
Local Notation B := (sv_base (V := V) capacity).

Lemma erase_if_svec p o vs others w :
  is_vec o vs others w ->
  ends (erase_if moved C p o w)
    (fun o' r w' => is_vec o' (without p vs) others w' /\
       exists before after, vs = before ++ after /\ without p before = before /\
         match after with [] => True | v :: _ => p v = true end /\ r = length (without p after))
    (fun o' w' => someone_throws w /\ exists us, length us = length vs /\ is_vec o' us others w').
Proof.
  intros Hv. pose proof (svec_unused _ _ _ _ _ Hv) as Hu. destruct (svec_cells _ _ _ _ _ Hv) as (k & Hc & Hk).
  pose proof (at_start w Hu) as Hat.
  apply (wp_conseq (erase_if moved C p) o w _ _ _ _ (erase_if_ok moved (calm w) C own B p _ _ _ _ _ _ Hat Hc)).
  - cbv beta. intros o' r w' (h' & k' & H' & Hc' & pre & suf & Hsplit & Hpre & Hsuf & Hr). split. { eapply cells_svec; eauto. }
    exists pre, suf. split; auto. split; auto. unfold without. now apply filter_none.
  - cbv beta. intros o' w' (h' & all & Hq & H' & Hl & Hc'). split. { now apply not_calm. }
    exists all. split; auto. eapply cells_svec; eauto.
Qed.

Lemma resize_svec mk v new_size o vs others w :
  is_vec o vs others w -> makes others mk v -> new_size <= capacity ->
  ends (resize moved C new_size mk o w)
    (fun o' _ w' => is_vec o' (firstn new_size vs ++ repeat v (new_size - length vs)) others w')
    (fun o' w' => untouched o o' w w' /\ someone_throws w).
Proof.
  intros Hv Hmk Hn. pose proof (svec_unused _ _ _ _ _ Hv) as Hu. destruct (svec_cells _ _ _ _ _ Hv) as (k & Hc & Hk).
  pose proof (at_start w Hu) as Hat. apply makes_yields in Hmk.
  apply (wp_conseq (resize moved C new_size mk) o w _ _ _ _
    (resize_fixed_ok moved (calm w) C own B eq_refl mk v new_size o vs k others (heap w) w Hat Hc Hmk ltac:(lia))).
  - cbv beta. intros o' _ w' (h' & H' & Hc'). eapply cells_svec; eauto.
  - cbv beta. intros o' w' (-> & H' & Hq). split. { eapply untouched_intro; eauto. } now apply not_calm.
Qed.

Lemma assign_svec mks us o vs others w :
  is_vec o vs others w -> Forall2 (makes others) mks us -> length us <= capacity ->
  forall fits,
  ends (assign moved C false fits (Source mks true) o w)
    (fun o' _ w' => is_vec o' us others w')
    (fun o' w' => someone_throws w /\
       exists n, n <= length vs /\ n <= length us /\ is_vec o' (firstn n us ++ skipn n vs) others w').
Proof.
  intros Hv Hmk Hn fits. pose proof (svec_unused _ _ _ _ _ Hv) as Hu. destruct (svec_cells _ _ _ _ _ Hv) as (k & Hc & Hk).
  pose proof (at_start w Hu) as Hat. apply makes_all in Hmk. pose proof (Forall2_len _ _ _ Hmk) as Hlen.
  apply (wp_conseq (assign moved C false fits (Source mks true)) o w _ _ _ _
    (assign_fixed_ok moved (calm w) C own B eq_refl fits mks us o vs k others (heap w) w Hat Hc Hmk ltac:(lia))).
  - cbv beta. intros o' _ w' (h' & k' & H' & Hc'). eapply cells_svec; eauto.
  - cbv beta. intros o' w' (m & h' & k' & Hq & Hm & H' & Hc'). split. { now apply not_calm. }
    exists m. split; [lia|]. split; [lia|]. eapply cells_svec; eauto.
Qed.

Lemma assign_trivial_svec mks us o vs others w :
  is_vec o vs others w -> Forall2 (makes others) mks us -> length us <= capacity ->
  ends (assign moved C true true (Source mks true) o w)
    (fun o' _ w' => is_vec o' us others w')
    (fun o' w' => someone_throws w /\ is_vec o' [] others w').
Proof.
  intros Hv Hmk Hn. pose proof (svec_unused _ _ _ _ _ Hv) as Hu. destruct (svec_cells _ _ _ _ _ Hv) as (k & Hc & Hk).
  pose proof (at_start w Hu) as Hat. apply makes_all in Hmk. pose proof (Forall2_len _ _ _ Hmk) as Hlen.
  apply (wp_conseq (assign moved C true true (Source mks true)) o w _ _ _ _
    (clear_and_fill_ok moved (calm w) C own B mks us o vs k others (heap w) w Hat Hc Hmk ltac:(lia))).
  - cbv beta. intros o' _ w' (h' & k' & H' & Hc'). eapply cells_svec; eauto.
  - cbv beta. intros o' w' (h' & k' & Hq & H' & Hc'). split. { now apply not_calm. } eapply cells_svec; eauto.
Qed.

Lemma two_static_vectors_sym o (vs : list V) t us others (w : world) :
  two_static_vectors capacity o vs t us others w -> two_static_vectors capacity t us o vs others w.
Proof.
  intros (mid & (Hso & Hgo & (ko & Hmo & Hko) & Heo) & (Hst & Hgt & (kt & Hmt & Hkt) & Het) & Hu).
  assert (Hne : v_place o <> v_place t) by congruence.
  exists (upd others (v_place t) (heap w (v_place t))). split; [|split; auto].
  - split; auto. split. { rewrite <- Heo; auto. } split. { exists kt. rewrite upd_same. auto. }
    intros b Hb. now apply upd_other.
  - split; auto. split. { now rewrite upd_other. } split.
    { exists ko. split; auto. rewrite Het; auto. }
    intros b Hb. unfold upd. destruct (Nat.eqb_spec b (v_place t)) as [->|Hb']; auto. rewrite Het; auto.
Qed.

Lemma copies_of_static t (us : list V) others (m : memory) :
  is_static_vector_in capacity t us others m -> Forall2 (makes m) (map (CopyOf (sv_data t)) (seq 0 (v_size t))) us.
Proof.
  intros (Hs & _ & (k & Hb & _) & _). rewrite Hs. eapply Forall2_weaken. { intros a c. apply makes_yields. }
  apply (copies_yield m (v_place t) us (repeat None k) []). exact Hb.
Qed.

Lemma copy_assign_svec trivial o vs t us others w :
  two_static_vectors capacity o vs t us others w ->
  ends (sv_copy_assign moved capacity trivial t o w)
    (fun o' _ w' => two_static_vectors capacity o' us t us others w')
    (fun o' w' => someone_throws w /\
       exists n, n <= length vs /\ n <= length us /\ (trivial = true -> n = 0) /\
         two_static_vectors capacity o' (firstn n us ++ (if trivial then [] else skipn n vs)) t us others w').
Proof.
  intros H. apply two_static_vectors_sym in H. destruct H as (mid & Ht & Ho & Hu).
  pose proof (copies_of_static _ _ _ _ Ht) as Hmk. pose proof Ht as (_ & _ & (k & _ & Hk) & _).
  assert (Hv : is_vec o vs mid w) by (split; auto).
  unfold sv_copy_assign. destruct trivial.
  - pose proof (assign_trivial_svec _ _ _ _ _ _ Hv Hmk ltac:(lia)) as Ha. unfold ends in *.
    destruct (assign _ _ _ _ _ _ _) as [o' [] w'|o' w'|]; auto.
    + apply two_static_vectors_sym. destruct Ha. exists mid. auto.
    + destruct Ha as [Hs [Ha1 Ha2]]. split; auto. exists 0. split; [lia|]. split; [lia|]. split; auto. apply two_static_vectors_sym. exists mid. auto.
  - pose proof (assign_svec _ _ _ _ _ _ Hv Hmk ltac:(lia) true) as Ha. unfold ends in *.
    destruct (assign _ _ _ _ _ _ _) as [o' [] w'|o' w'|]; auto.
    + apply two_static_vectors_sym. destruct Ha. exists mid. auto.
    + destruct Ha as [Hs (n & Hn1 & Hn2 & [Ha1 Ha2])]. split; auto. exists n. split; auto. split; auto. split; [discriminate|].
      apply two_static_vectors_sym. exists mid. auto.
Qed.

(** Construction from a range. *)
Lemma from_svec fits mks us w :
  unused_names w -> Forall2 (makes (heap w)) mks us ->
  length us <= capacity \/ fits = false ->
  ends (sv_from moved capacity fits (Source mks true) tt w)
    (fun _ o w' => is_vec o us (heap w) w')
    (fun _ w' => same (heap w') (heap w) /\ (someone_throws w \/ capacity < length us)).
Proof.
  intros Hu Hmk Hl. apply makes_all in Hmk. pose proof (Forall2_len _ _ _ Hmk) as Hlen. pose proof (at_start w Hu) as Hat.
  destruct (le_lt_dec (length mks) capacity) as [Hle|Hgt].
  - assert (He : sv_from moved capacity fits (Source mks true) tt w =
                 sv_constructor capacity (assign_to_empty_into_capacity moved C (Source mks true)) tt w).
    { unfold sv_from, assign_to_empty, assign_to_empty_into_capacity, sv_constructor, sv_default, new_block, bind, get, require, ret.
      cbn [static_vector c_reserve c_capacity c_size c_data v_size s_sized s_elements Nat.eqb].
      destruct fits; auto. unfold checked_uninitialized_copy, bind, ret. cbn [s_sized s_elements].
      destruct (Nat.ltb_spec capacity (length mks)); [lia|reflexivity]. }
    rewrite He.
    apply (wp_conseq (sv_constructor capacity (assign_to_empty_into_capacity moved C (Source mks true))) tt w _ _ _ _
       (sv_fill_ok moved capacity (calm w) mks us w (heap w) Hat Hmk Hle)).
    + auto.
    + cbv beta. intros _ w' [H' Hq]. split. { apply H'. } left. now apply not_calm.
  - destruct Hl as [Hl| ->]; [lia|].
    unfold sv_from, assign_to_empty, sv_constructor, sv_default, new_block, bind, get, require, ret, ends.
    cbn [static_vector c_reserve c_capacity c_size c_data v_size s_sized s_elements Nat.eqb].
    unfold checked_uninitialized_copy, bind, ret. cbn [s_sized s_elements].
    apply Nat.ltb_lt in Hgt. rewrite Hgt. unfold throw, deallocate, sv_data. cbn [v_place heap].
    rewrite Nat.eqb_refl, repeat_length, Nat.eqb_refl. cbn [negb].
    assert (Hall : forallb (fun c : option V => match c with Some _ => false | None => true end) (repeat None capacity) = true).
    { apply forallb_forall. intros c Hc. apply repeat_spec in Hc. now subst. }
    rewrite Hall. split.
    + intros b. cbn. destruct (Nat.eqb_spec b (next w)) as [->|]; auto. symmetry. apply Hu. lia.
    + right. apply Nat.ltb_lt in Hgt. lia.
Qed.

End StaticVector.

(** ** References stay valid

    [keeps f m]: however [m] ends, [f] of the object is what it was. *)
Definition keeps {X Y A} (f : X -> Y) (m : M X A) : Prop :=
  forall x w, match m x w with Ret x' _ _ | Exc x' _ => f x' = f x | Bad _ => True end.

Lemma keeps_bind {X Y A A'} (f : X -> Y) (m : M X A) (k : A -> M X A') :
  keeps f m -> (forall a, keeps f (k a)) -> keeps f (bind m k).
Proof.
  intros Hm Hk x w. unfold bind. specialize (Hm x w). destruct (m x w) as [x' a w'|x' w'|]; auto.
  specialize (Hk a x' w'). destruct (k a x' w'); congruence.
Qed.
Lemma keeps_rethrow {X Y A} (f : X -> Y) (m : M X A) h : keeps f m -> keeps f h -> keeps f (rethrow_after m h).
Proof.
  intros Hm Hh x w. unfold rethrow_after. specialize (Hm x w). destruct (m x w) as [x' a w'|x' w'|]; auto.
  specialize (Hh x' w'). destruct (h x' w'); congruence.
Qed.
Lemma keeps_ret {X Y A} (f : X -> Y) (a : A) : keeps f (ret (V := V) a). Proof. intros x w. reflexivity. Qed.
Lemma keeps_get {X Y} (f : X -> Y) : keeps f (get (V := V)). Proof. intros x w. reflexivity. Qed.
Lemma keeps_throw {X Y A} (f : X -> Y) : keeps f (throw (V := V) (A := A)). Proof. intros x w. reflexivity. Qed.
Lemma keeps_bad {X Y A} (f : X -> Y) e : keeps f (bad (V := V) (A := A) e). Proof. intros x w. exact I. Qed.
Lemma keeps_require {X Y} (f : X -> Y) b : keeps f (require (V := V) b).
Proof. destruct b; [apply keeps_ret|apply keeps_bad]. Qed.
Lemma keeps_may_throw {X Y} (f : X -> Y) : keeps f (may_throw (V := V)).
Proof. intros x w. unfold may_throw. destruct (script w) as [|[] s]; reflexivity. Qed.
Ltac find_it p i := intros x w; unfold load, store, destroy, require_raw, begin_life;
  destruct (find_cell w p i) as [[[? ?] [?|]]|]; reflexivity || exact I.
Lemma keeps_load {X Y} (f : X -> Y) p i : keeps f (load (V := V) p i). Proof. find_it p i. Qed.
Lemma keeps_store {X Y} (f : X -> Y) p i v : keeps f (store (V := V) p i v). Proof. find_it p i. Qed.
Lemma keeps_destroy {X Y} (f : X -> Y) p i : keeps f (destroy (V := V) p i). Proof. find_it p i. Qed.
Lemma keeps_require_raw {X Y} (f : X -> Y) p i : keeps f (require_raw (V := V) p i). Proof. find_it p i. Qed.
Lemma keeps_begin_life {X Y} (f : X -> Y) p i v : keeps f (begin_life (V := V) p i v). Proof. find_it p i. Qed.
Lemma keeps_make {X Y} (f : X -> Y) mk : keeps f (make moved mk).
Proof.
  destruct mk; cbn [make]; unfold relocate;
  repeat (apply keeps_bind; [|intros ?]); auto using keeps_may_throw, keeps_load, keeps_store, keeps_destroy, keeps_ret.
Qed.
Lemma keeps_construct_at {X Y} (f : X -> Y) p i mk : keeps f (construct_at moved p i mk).
Proof. unfold construct_at. apply keeps_bind; [apply keeps_require_raw|intros _]. apply keeps_bind; [apply keeps_make|intros v; apply keeps_begin_life]. Qed.
Lemma keeps_assign_at {X Y} (f : X -> Y) p i mk : keeps f (assign_at moved p i mk).
Proof. unfold assign_at. apply keeps_bind; [apply keeps_make|intros v; apply keeps_store]. Qed.
Lemma keeps_for_each {X Y} (f : X -> Y) from n body : (forall i, keeps f (body i)) -> keeps f (for_each (V := V) from n body).
Proof. intros H. revert from. induction n as [|n IH]; intros from; cbn; [apply keeps_ret|]. apply keeps_bind; auto. Qed.
Lemma keeps_destroy_range {X Y} (f : X -> Y) p i n : keeps f (destroy_range (V := V) p i n).
Proof. apply keeps_for_each. intros. apply keeps_destroy. Qed.
Lemma keeps_copy {X Y} (f : X -> Y) p i mks : keeps f (uninitialized_copy moved p i mks).
Proof.
  unfold uninitialized_copy. generalize 0. induction mks as [|mk mks IH]; intros d; cbn; [apply keeps_ret|].
  apply keeps_bind; auto. apply keeps_rethrow; [apply keeps_construct_at|apply keeps_destroy_range].
Qed.
Lemma keeps_relocate {X Y} (f : X -> Y) p i n q j : keeps f (uninitialized_relocate moved p i n q j).
Proof. revert i j. induction n as [|n IH]; intros; cbn; [apply keeps_ret|]. apply keeps_bind; auto using keeps_construct_at. Qed.
Lemma keeps_relocate_reversed {X Y} (f : X -> Y) p i n q j : keeps f (uninitialized_relocate_reversed moved p i n q j).
Proof. revert i j. induction n as [|n IH]; intros; cbn; [apply keeps_ret|]. apply keeps_bind; auto using keeps_construct_at. Qed.

Section Stay.
Context (minc maxc : nat).
Local Notation C := (bounded_vector (V := V) moved minc maxc).
Local Notation is_vec := (is_vector (V := V) minc maxc).
Notation st := b_storage.

Lemma keeps_capacity : keeps st (bv_capacity (V := V) minc maxc).
Proof.
  unfold bv_capacity, storage_capacity. apply keeps_bind; [apply keeps_get|intros o]. destruct (minc =? maxc); [apply keeps_ret|].
  apply keeps_bind; [apply keeps_require|intros _; apply keeps_ret].
Qed.
Lemma keeps_set_size n : keeps st (bv_set_size (V := V) minc maxc n).
Proof.
  unfold bv_set_size. apply keeps_bind; [apply keeps_capacity|intros c]. apply keeps_bind; [apply keeps_require|intros _].
  intros o w. reflexivity.
Qed.

Ltac keep := repeat first
  [ apply keeps_set_size | apply keeps_capacity | apply keeps_construct_at | apply keeps_assign_at
  | apply keeps_destroy_range | apply keeps_copy | apply keeps_relocate | apply keeps_relocate_reversed
  | apply keeps_bind; [|intros ?] | apply keeps_rethrow | apply keeps_ret | apply keeps_get | apply keeps_throw | apply keeps_require
  | apply keeps_bad | apply keeps_may_throw | apply keeps_load | apply keeps_destroy ].

Lemma keeps_pop_back : keeps st (pop_back C).
Proof. unfold pop_back. cbn [bounded_vector c_set_size]. keep. destruct (_ =? _); keep. Qed.
Lemma keeps_clear : keeps st (clear C).
Proof. unfold clear. cbn [bounded_vector c_set_size]. keep. Qed.
Lemma keeps_erase_to_end n : keeps st (erase_to_end C n).
Proof. unfold erase_to_end. cbn [bounded_vector c_set_size]. keep. Qed.
Lemma keeps_erase_loop {Y} (f : bvector -> Y) p t n s l : keeps f (erase_loop moved p t n s l).
Proof. revert t s. induction n as [|n IH]; intros; cbn; keep. destruct (_ =? _); keep. apply IH. Qed.
Lemma keeps_erase i j : keeps st (erase moved C i j).
Proof.
  unfold erase. cbn [bounded_vector c_set_size]. destruct (i =? j); keep. { apply keeps_erase_loop. } destruct (negb _); keep.
Qed.
Lemma keeps_find_if {Y} (f : bvector -> Y) p i n q : keeps f (find_if p i n q).
Proof. revert i. induction n as [|n IH]; intros; cbn; keep. destruct (q _); keep. apply IH. Qed.
Lemma keeps_erase_if_loop {Y} (f : bvector -> Y) p i n l r q : keeps f (erase_if_loop moved p i n l r q).
Proof. revert i l r. induction n as [|n IH]; intros; cbn; keep. destruct (q _); keep; apply IH. Qed.
Lemma keeps_erase_if q : keeps st (erase_if moved C q).
Proof.
  unfold erase_if. apply keeps_bind; [apply keeps_get|intros o]. apply keeps_bind; [apply keeps_find_if|intros n]. destruct (_ =? _); [apply keeps_ret|].
  apply keeps_bind; [apply keeps_erase_if_loop|intros nr]. apply keeps_bind; [apply keeps_erase_to_end|intros _; apply keeps_ret].
Qed.
Lemma keeps_ends {X Y A} (f : X -> Y) (m : M X A) x w Q E :
  keeps f m -> ends (m x w) Q E -> ends (m x w) (fun x' a w' => Q x' a w' /\ f x' = f x) (fun x' w' => E x' w' /\ f x' = f x).
Proof. intros H. specialize (H x w). unfold ends. destruct (m x w); auto. Qed.

Lemma capacity_is o vs (others : memory) (w : world) : is_vec o vs others w -> bv_capacity minc maxc o w = Ret o (capacity_of o) w.
Proof.
  intros [[_ H] _]. unfold bv_capacity, bind, get, storage_capacity, require, ret, capacity_of.
  destruct (u_pointer (b_storage o)).
  - destruct H as (_ & (k & _ & Hc & Hr) & _). destruct (Nat.eqb_spec minc maxc); auto. do 2 f_equal. lia.
  - destruct H as (_ & Hc & Hm & _). destruct (Nat.eqb_spec minc maxc); [|now rewrite Hc]. do 2 f_equal. lia.
Qed.

Lemma push_back_stays mk o vs (others : memory) (w : world) :
  is_vec o vs others w -> length vs < capacity_of o ->
  match push_back moved C mk o w with Ret o' _ _ | Exc o' _ => b_storage o' = b_storage o | Bad _ => True end.
Proof.
  intros Hv Hl. pose proof (proj1 (proj1 Hv)) as Hs. unfold push_back, lazy_push_back.
  destruct (c_max C =? 0); [reflexivity|].
  assert (Hk : keeps st (lazy_push_back_into_capacity moved C mk)).
  { unfold lazy_push_back_into_capacity. cbn [bounded_vector c_set_size c_capacity]. keep. }
  specialize (Hk o w). unfold bind, get. cbn [bounded_vector c_capacity c_size]. rewrite (capacity_is _ _ _ _ Hv), Hs.
  rewrite (proj2 (Nat.ltb_lt _ _) Hl). exact Hk.
Qed.
Lemma append_stays mks o vs (others : memory) (w : world) :
  is_vec o vs others w -> length vs + length mks <= capacity_of o ->
  match append moved C (Source mks true) o w with Ret o' _ _ | Exc o' _ => b_storage o' = b_storage o | Bad _ => True end.
Proof.
  intros Hv Hl. pose proof (proj1 (proj1 Hv)) as Hs. unfold append. cbn [bounded_vector c_reserve]. destruct (minc =? maxc).
  - match goal with |- context [match ?m o w with _ => _ end] => assert (Hk : keeps st m) end.
    { cbn [bounded_vector c_set_size c_capacity]. keep. unfold checked_uninitialized_copy. cbn [s_sized]. keep. destruct (_ <? _); keep. }
    exact (Hk o w).
  - cbn [s_sized s_elements]. unfold bind at 1 2, get. cbn [bounded_vector c_capacity c_size]. rewrite (capacity_is _ _ _ _ Hv), Hs.
    rewrite (proj2 (Nat.leb_le _ _) Hl).
    match goal with |- context [match ?m o w with _ => _ end] => assert (Hk : keeps st m) end.
    { cbn [bounded_vector c_set_size]. keep. }
    exact (Hk o w).
Qed.
Lemma insert_stays i mks o vs (others : memory) (w : world) :
  is_vec o vs others w -> length vs + length mks <= capacity_of o ->
  match insert moved C i mks o w with Ret o' _ _ | Exc o' _ => b_storage o' = b_storage o | Bad _ => True end.
Proof.
  intros Hv Hl. pose proof (proj1 (proj1 Hv)) as Hs. unfold insert.
  unfold bind, get, require. cbn [bounded_vector c_capacity c_size]. rewrite Hs.
  destruct (i <=? length vs); [|exact I]. unfold ret. rewrite (capacity_is _ _ _ _ Hv).
  rewrite (proj2 (Nat.leb_le _ _) Hl).
  assert (Hk : keeps st (insert_without_reallocation moved C i mks (length mks))).
  { unfold insert_without_reallocation. cbn [bounded_vector c_set_size]. keep. }
  exact (Hk o w).
Qed.
Lemma reserve_stays n o vs (others : memory) (w : world) :
  is_vec o vs others w -> n <= capacity_of o ->
  bv_reserve moved minc maxc n o w = Ret o tt w.
Proof.
  intros Hv Hl. unfold bv_reserve, bind. rewrite (capacity_is _ _ _ _ Hv). now rewrite (proj2 (Nat.leb_le _ _) Hl).
Qed.

End Stay.
End Proofs.
