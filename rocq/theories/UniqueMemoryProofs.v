(** * Proofs for unique and unique_inplace_merge in memory *)

From Coq Require Import List Arith Bool Lia Permutation.
From Verif Require Import Mem MemLemmas SpecVec Vec DynArray SpecDyn DynProofs Unique UniqueProofs FlatMemoryProofs UniqueMemory.
From Verif Require Algo VecCost.
Import ListNotations.
Local Open Scope nat_scope.

Lemma da_destroy_less {V} o (w : world V) : match da_destroy o w with Ret _ _ w' | Exc _ w' => incl (script w') (script w) | Bad _ => True end.
Proof.
  pose proof (VecCost.less_script_evolution (V := V)) as EV. assert (VecCost.evolves VecCost.less_script 0 (da_destroy (V := V))) as H.
  { unfold da_destroy, da_destroy_elements, da_size, storage_capacity. apply (VecCost.evolves_bind0 _ EV); [apply (VecCost.evolves_get _ EV)|intros o1].
    apply (VecCost.evolves_bind0 _ EV); [|intros ?; apply (VecCost.evolves_deallocate_storage _ EV)]. destruct (da_data o1); [|apply (VecCost.evolves_ret _ EV)].
    apply (VecCost.evolves_bind0 _ EV); [|intros ?; apply (VecCost.evolves_destroy_range _ EV)].
    apply (VecCost.evolves_bind0 _ EV); [apply (VecCost.evolves_require _ EV)|intros ?; apply (VecCost.evolves_ret _ EV)]. }
  exact (H o w).
Qed.

Section Arrays.
Context {V : Type} (moved self_moved : V -> V) (P : V -> Prop) (Hmoved : forall v, P v -> P (moved v)) (Hself : forall v, P v -> P (self_moved v)).
Local Notation world := (world V).
Local Notation arrays := (arrays (V := V)).

(** The arrays [h] are in the blocks [bs], each followed by the cells [spare]; the rest of the memory is [others]. *)
Definition shown (bs : list nat) (spare : nat -> list (option V)) (others : memory (V := V)) (h : arrays) (w : world) : Prop :=
  length bs = length h /\ NoDup bs /\
  (forall k b l, nth_error bs k = Some b -> nth_error h k = Some l -> heap w b = Some (map Some l ++ spare k)) /\
  (forall b, ~ In b bs -> heap w b = others b) /\ unused_names w.
Definition fine (shape : list nat) (h : arrays) : Prop := map (@length V) h = shape /\ Forall (Forall P) h.

Lemma shown_quiet bs spare others h w w' : quiet w w' -> shown bs spare others h w -> shown bs spare others h w'.
Proof. intros (H1 & H2 & _) (A & B & C & D & E). unfold shown, unused_names. rewrite H1, H2. repeat split; auto. Qed.

Section Inside.
Context (bs : list nat) (spare : nat -> list (option V)) (others : memory (V := V)) (shape : list nat).
Local Notation shown := (shown bs spare others).
Local Notation fine := (fine shape).

Lemma shown_load {X} h w k b i v (x : X) : shown h w -> nth_error bs k = Some b -> read h k i = Some v -> load (Some b) i x w = Ret x v w.
Proof.
  intros (_ & _ & H & _) Hb Hr. unfold read in Hr. destruct (nth_error h k) as [l|] eqn:E; [|discriminate]. unfold load, find_cell. rewrite (H k b l Hb E).
  assert (i < length l) as Hi by (apply nth_error_Some; congruence). rewrite nth_error_app1 by (now rewrite map_length). now rewrite nth_error_map, Hr.
Qed.
Lemma set_nth_length {A} (l : list A) i a : length (set_nth l i a) = length l.
Proof. revert i. induction l as [|x l IH]; intros [|i]; cbn; auto. Qed.
Lemma set_nth_at {A} (l : list A) i a k : nth_error (set_nth l i a) k = if k =? i then (if i <? length l then Some a else None) else nth_error l k.
Proof.
  revert i k. induction l as [|x l IH]; intros [|i] [|k]; cbn; auto.
  - destruct (k =? i); reflexivity.
  - rewrite IH. destruct (k =? i); [|reflexivity]. reflexivity.
Qed.
Lemma set_nth_front {A} (l : list A) l' i a : i < length l -> set_nth (l ++ l') i a = set_nth l i a ++ l'.
Proof. revert i. induction l as [|x l IH]; intros [|i] H; cbn in *; try lia; [reflexivity|]. f_equal. apply IH. lia. Qed.
Lemma set_nth_image {A B} (f : A -> B) l i a : set_nth (map f l) i (f a) = map f (set_nth l i a).
Proof. revert i. induction l as [|x l IH]; intros [|i]; cbn; auto. f_equal. apply IH. Qed.
Lemma set_nth_all (l : list V) i a : P a -> Forall P l -> Forall P (set_nth l i a).
Proof. intros Ha H. revert i. induction H as [|x l Hx Hl IH]; intros [|i]; cbn; constructor; auto. Qed.
Lemma shown_store {X} h w k b i v h' (x : X) : shown h w -> nth_error bs k = Some b -> write h k i v = Some h' ->
  exists w', store (Some b) i v x w = Ret x tt w' /\ shown h' w' /\ script w' = script w.
Proof.
  intros (H1 & H2 & H3 & H4 & H5) Hb Hw. unfold write in Hw. destruct (nth_error h k) as [l|] eqn:E; [|discriminate]. destruct (Nat.ltb_spec i (length l)) as [Hi|]; [|discriminate].
  injection Hw as <-. unfold store, find_cell. rewrite (H3 k b l Hb E). rewrite nth_error_app1 by (now rewrite map_length). rewrite nth_error_map.
  destruct (nth_error l i) as [u|] eqn:Eu; [|apply nth_error_None in Eu; lia]. cbn [option_map]. eexists. split; [reflexivity|]. split; [|reflexivity].
  split; [now rewrite set_nth_length|]. split; [exact H2|]. split; [|split].
  - intros k' b' l' Hb' Hl'. cbn. rewrite set_nth_at in Hl'. destruct (Nat.eqb_spec k' k) as [->|Hk].
    + rewrite Hb in Hb'. injection Hb' as <-. rewrite Nat.eqb_refl. destruct (k <? length h); [|discriminate]. injection Hl' as <-.
      rewrite set_nth_front by (now rewrite map_length). now rewrite set_nth_image.
    + destruct (Nat.eqb_spec b' b) as [->|]; [|now apply H3]. exfalso. apply Hk. apply (proj1 (NoDup_nth_error bs) H2); [|congruence].
      apply nth_error_Some. congruence.
  - intros b' Hn. cbn. destruct (Nat.eqb_spec b' b) as [->|]; [|now apply H4]. exfalso. apply Hn. eapply nth_error_In; eauto.
  - intros b' Hb'. cbn in *. destruct (Nat.eqb_spec b' b) as [->|]; [|now apply H5]. exfalso. pose proof (H5 _ Hb'). rewrite (H3 k b l Hb E) in H. discriminate.
Qed.
Lemma write_fine h k i v h' : fine h -> P v -> write h k i v = Some h' -> fine h'.
Proof.
  intros [H1 H2] Hv Hw. unfold write in Hw. destruct (nth_error h k) as [l|] eqn:E; [|discriminate]. destruct (i <? length l); [|discriminate]. injection Hw as <-. split.
  - rewrite <- H1. clear -E. revert k E. induction h as [|a h IH]; intros [|k] E; cbn in *; try discriminate; [injection E as ->; now rewrite set_nth_length|f_equal; auto].
  - clear -E H2 Hv. revert k E. induction H2 as [|a h Ha Hh IH]; intros [|k] E; cbn in *; try discriminate; constructor; auto. injection E as ->. now apply set_nth_all.
Qed.
Lemma read_fine h k i v : fine h -> read h k i = Some v -> P v.
Proof.
  intros [_ H] Hr. unfold read in Hr. destruct (nth_error h k) as [l|] eqn:E; [|discriminate]. rewrite Forall_forall in H. pose proof (H l (nth_error_In _ _ E)) as Hl.
  rewrite Forall_forall in Hl. apply Hl. eapply nth_error_In; eauto.
Qed.

(** The computation does what is done to the arrays: they become [h'] and the result is [a]. Or it throws and leaves living objects only. *)
Definition good (h : arrays) (w : world) : Prop := fine h /\ shown h w.
Definition does {X A} (m : M V X A) (x : X) (w : world) (h' : arrays) (a : A) : Prop :=
  ends (m x w) (fun x' a' w' => x' = x /\ a' = a /\ good h' w' /\ incl (script w') (script w))
    (fun x' w' => x' = x /\ someone_throws w /\ exists h'', good h'' w').
Lemma good_quiet h w w' : quiet w w' -> good h w -> good h w'.
Proof. intros Hq [H1 H2]. split; [exact H1|eapply shown_quiet; eauto]. Qed.
Lemma does_ret {X A} (x : X) w h (a : A) : good h w -> does (ret a) x w h a.
Proof. intros H. cbn. auto using incl_refl. Qed.
Lemma does_bind {X A B} (m : M V X A) (k : A -> M V X B) x w h1 h' a b : does m x w h1 a ->
  (forall w', good h1 w' -> does (k a) x w' h' b) -> does (bind m k) x w h' b.
Proof.
  unfold does, ends, bind. intros Hm Hk. destruct (m x w) as [x1 a1 w1|x1 w1|]; auto. destruct Hm as (-> & -> & H1 & H2). specialize (Hk w1 H1).
  destruct (k a x w1) as [x' b' w''|x' w''|]; auto.
  - destruct Hk as (A1 & A2 & A3 & A4). split; [exact A1|]. split; [exact A2|]. split; [exact A3|]. eapply incl_tran; eauto.
  - destruct Hk as (A1 & A2 & A3). split; [exact A1|]. split; [|exact A3]. apply H2, A2.
Qed.
Lemma does_read {X A} (m : M V X A) x w h a : good h w -> reading m x w a -> does m x w h a.
Proof.
  unfold does, ends, reading. intros Hg Hr. destruct (m x w) as [x1 a1 w1|x1 w1|]; auto.
  - destruct Hr as (-> & Hq & ->). split; [reflexivity|]. split; [reflexivity|]. split; [eapply good_quiet; eauto|apply Hq].
  - destruct Hr as (-> & Hq & Ht). split; [reflexivity|]. split; [exact Ht|]. exists h. eapply good_quiet; eauto.
Qed.
Lemma does_reading {X A B} (m : M V X A) (k : A -> M V X B) x w h h' a b : good h w -> reading m x w a ->
  (forall w', good h w' -> does (k a) x w' h' b) -> does (bind m k) x w h' b.
Proof. intros Hg Hr Hk. eapply does_bind; [eapply does_read; eauto|exact Hk]. Qed.
Lemma compare_reads {X} (compare : V -> V -> bool) h w k b i u l c j v (x : X) : shown h w -> nth_error bs k = Some b -> read h k i = Some u ->
  nth_error bs l = Some c -> read h l j = Some v -> reading (compare_at compare (Some b) i (Some c) j) x w (compare u v).
Proof.
  intros H Hb Hu Hc Hv. unfold compare_at. unfold reading, bind. rewrite (shown_load _ _ _ _ _ _ x H Hb Hu), (shown_load _ _ _ _ _ _ x H Hc Hv).
  pose proof (reading_may_throw x w) as Ht. unfold reading in Ht. destruct (may_throw x w) as [x1 [] w1|x1 w1|]; auto.
  destruct Ht as (-> & Hq & _). cbn. auto.
Qed.
Lemma find_does {X} (test : nat -> M V X bool) pr h k n : forall w first r (x : X), good h w ->
  (forall w i v, good h w -> read h k i = Some v -> reading (test i) x w (pr v)) ->
  Unique.find_if pr n h k first = Some r -> reading (Algo.find_if_loop test first n) x w r.
Proof.
  induction n as [|n IH]; intros w first r x Hs Ht; cbn [Unique.find_if Algo.find_if_loop].
  - intros [= ->]. apply reading_ret.
  - destruct (read h k first) as [v|] eqn:E; [|discriminate]. intros Hr. eapply reading_bind; [apply Ht; eauto|]. intros w' Hq. destruct (pr v).
    + injection Hr as ->. apply reading_ret.
    + apply IH; auto. eapply good_quiet; eauto.
Qed.
Lemma move_does {X} h w k b i l c j h' (x : X) : good h w -> nth_error bs k = Some b -> nth_error bs l = Some c ->
  assign moved self_moved Move h (k, i) (l, j) = Some h' -> does (move_assign moved self_moved (Some b) i (Some c) j) x w h' tt.
Proof.
  intros [Hf Hs] Hb Hc. unfold assign, move_assign, same_place. destruct (read h l j) as [v|] eqn:Ev; [|discriminate]. pose proof (read_fine _ _ _ _ Hf Ev) as Hv.
  assert (E : (b =? c) = (k =? l)).
  { apply eq_iff_eq_true. rewrite !Nat.eqb_eq. split; [intros ->|intros ->; congruence].
    apply (proj1 (NoDup_nth_error bs) (proj1 (proj2 Hs))); [|congruence]. apply nth_error_Some. congruence. }
  rewrite E. destruct ((k =? l) && (i =? j)) eqn:Ep.
  - apply andb_true_iff in Ep as [Ek Ei]. apply Nat.eqb_eq in Ek, Ei. subst l j. intros Hw. assert (fine h') as Hf' by exact (write_fine _ _ _ _ _ Hf (Hself _ Hv) Hw).
    unfold does, bind. rewrite (shown_load _ _ _ _ _ _ x Hs Hb Ev). destruct (shown_store _ _ _ _ _ _ _ x Hs Hb Hw) as (w' & -> & H1 & H2). cbn. rewrite H2. unfold good. auto using incl_refl.
  - destruct (write h k i v) as [h1|] eqn:Ew; [|discriminate]. intros Hw.
    assert (exists h2, write h l j (moved v) = Some h2 /\ write h2 k i v = Some h') as (h2 & Hw1 & Hw2).
    { unfold write, read in *. destruct (nth_error h l) as [ll|] eqn:El; [|discriminate]. assert (j < length ll) as Hj by (apply nth_error_Some; congruence).
      destruct (nth_error h k) as [lk|] eqn:Ek; [|discriminate]. destruct (Nat.ltb_spec i (length lk)) as [Hi|]; [|discriminate]. injection Ew as <-.
      rewrite (proj2 (Nat.ltb_lt j (length ll)) Hj). eexists. split; [reflexivity|]. rewrite set_nth_at in Hw |- *. rewrite Nat.eqb_sym in Hw.
      assert (k < length h) as Hk by (apply nth_error_Some; congruence). assert (l < length h) as Hl by (apply nth_error_Some; congruence).
      rewrite (proj2 (Nat.ltb_lt _ _) Hk) in Hw. rewrite (proj2 (Nat.ltb_lt _ _) Hl). destruct (Nat.eqb_spec k l) as [->|Hkl].
      - rewrite Ek in El. injection El as <-. rewrite set_nth_length in *. cbn in Ep. rewrite (proj2 (Nat.ltb_lt _ _) Hj) in Hw. rewrite (proj2 (Nat.ltb_lt _ _) Hi).
        rewrite <- Hw. f_equal. assert (Hss : forall A (z : list A) n a a', set_nth (set_nth z n a) n a' = set_nth z n a').
        { clear. intros A z. induction z as [|y z IH]; intros [|n] a a'; cbn; auto. f_equal. apply IH. }
        rewrite !Hss. f_equal. apply Nat.eqb_neq in Ep. clear -Ep. revert i j Ep. induction lk as [|y z IH]; intros [|i] [|j] Ep; cbn; auto; [lia|]. f_equal. apply IH. lia.
      - rewrite El in Hw. rewrite Ek. rewrite (proj2 (Nat.ltb_lt _ _) Hj) in Hw. rewrite (proj2 (Nat.ltb_lt _ _) Hi). rewrite <- Hw. f_equal.
        clear -Hkl. revert k l Hkl. induction h as [|y z IH]; intros [|k] [|l] Hkl; cbn; auto; [lia|]. f_equal. apply IH. lia. }
    assert (fine h2) as Hf2 by exact (write_fine _ _ _ _ _ Hf (Hmoved _ Hv) Hw1). assert (fine h') as Hf' by exact (write_fine _ _ _ _ _ Hf2 Hv Hw2).
    unfold does, assign_at, make, bind. rewrite (shown_load _ _ _ _ _ _ x Hs Hc Ev). destruct (shown_store _ _ _ _ _ _ _ x Hs Hc Hw1) as (w1 & -> & H1 & H2).
    cbn [ret]. destruct (shown_store _ _ _ _ _ _ _ x H1 Hb Hw2) as (w2 & -> & H3 & H4). cbn. rewrite H4, H2. unfold good. auto using incl_refl.
Qed.
Lemma common_does {X} equal n : forall h w k b i l c o h' r (x : X), good h w -> nth_error bs k = Some b -> nth_error bs l = Some c ->
  unique_common moved self_moved equal Move n h k i l o = Some (h', r) -> does (mem_unique_common moved self_moved equal n (Some b) i (Some c) o) x w h' r.
Proof.
  induction n as [|n IH]; intros h w k b i l c o h' r x Hg Hb Hc; cbn [unique_common mem_unique_common].
  - intros [= <- <-]. now apply does_ret.
  - destruct (read h l o) as [u|] eqn:Eu; [|discriminate]. destruct (read h k i) as [v|] eqn:Ev; [|discriminate]. intros H.
    eapply does_reading; [exact Hg|exact (compare_reads equal h w l c o u k b i v x (proj2 Hg) Hc Eu Hb Ev)|]. intros w1 Hg1. destruct (equal u v); cbv beta iota.
    + eapply IH; eauto.
    + destruct (assign _ _ _ h _ _) as [h1|] eqn:Ea; [|discriminate]. eapply does_bind; [eapply move_does; eauto|]. intros w2 Hg2. eapply IH; eauto.
Qed.
Lemma unique_move_does {X} equal n h w k b i l c o h' r (x : X) : good h w -> nth_error bs k = Some b -> nth_error bs l = Some c ->
  unique_copy moved self_moved equal Move h k i n l o = Some (h', r) -> does (mem_unique_move moved self_moved equal (Some b) i n (Some c) o) x w h' r.
Proof.
  intros Hg Hb Hc. destruct n as [|n]; cbn [unique_copy mem_unique_move].
  - intros [= <- <-]. now apply does_ret.
  - destruct (assign _ _ _ h _ _) as [h1|] eqn:Ea; [|discriminate]. intros H. eapply does_bind; [eapply move_does; eauto|]. intros w2 Hg2. eapply common_does; eauto.
Qed.
Lemma first_equal_reads {X} equal n : forall h w k b previous first r (x : X), good h w -> nth_error bs k = Some b ->
  find_first_equal_loop equal n h k previous first = Some r -> reading (mem_find_first_equal_loop equal n (Some b) previous first) x w r.
Proof.
  induction n as [|n IH]; intros h w k b previous first r x Hg Hb; cbn [find_first_equal_loop mem_find_first_equal_loop].
  - intros [= ->]. apply reading_ret.
  - destruct (read h k previous) as [u|] eqn:Eu; [|discriminate]. destruct (read h k first) as [v|] eqn:Ev; [|discriminate]. intros H.
    eapply reading_bind; [exact (compare_reads equal h w k b previous u k b first v x (proj2 Hg) Hb Eu Hb Ev)|]. intros w1 Hq. destruct (equal u v); cbv beta iota.
    + injection H as ->. apply reading_ret.
    + eapply IH; eauto. eapply good_quiet; eauto.
Qed.
Lemma unique_does {X} equal n h w k b first h' r (x : X) : good h w -> nth_error bs k = Some b ->
  unique moved self_moved equal h k first n = Some (h', r) -> does (mem_unique moved self_moved equal (Some b) first n) x w h' r.
Proof.
  intros Hg Hb. unfold unique, mem_unique. destruct (find_first_equal equal h k first n) as [e|] eqn:Ee; [|discriminate]. intros H. eapply does_reading; [exact Hg| |].
  { instantiate (1 := e). unfold find_first_equal, mem_find_first_equal in *. destruct n; [injection Ee as <-; apply reading_ret|eapply first_equal_reads; eauto]. }
  intros w1 Hg1. destruct (e =? first + n). { injection H as <- <-. now apply does_ret. }
  destruct (read h k e) as [v|] eqn:Ev; [|discriminate]. destruct (Unique.find_if _ _ h k (S e)) as [other|] eqn:Eo; [|discriminate].
  eapply does_reading; [exact Hg1| |].
  { eapply find_does; [exact Hg1| |exact Eo]. intros w2 i u Hg2 Hu. cbv beta. eapply reading_bind; [exact (compare_reads equal h w2 k b e v k b i u x (proj2 Hg2) Hb Ev Hb Hu)|].
    intros w3 _. apply reading_ret. }
  intros w2 Hg2. destruct (other =? first + n). { injection H as <- <-. now apply does_ret. }
  destruct (assign _ _ _ h _ _) as [h1|] eqn:Ea; [|discriminate]. eapply does_bind; [eapply move_does; eauto|]. intros w3 Hg3. eapply common_does; eauto.
Qed.

Context (less : V -> V -> bool).
Lemma next_greater_reads {X} h w k b first n l c o v r (x : X) : good h w -> nth_error bs k = Some b -> nth_error bs l = Some c -> read h l o = Some v ->
  next_greater less h k first n v = Some r -> reading (mem_next_greater less (Some b) first n (Some c) o) x w r.
Proof.
  intros Hg Hb Hc Hv H. eapply find_does; [exact Hg| |exact H]. intros w2 i u Hg2 Hu. exact (compare_reads less h w2 l c o v k b i u x (proj2 Hg2) Hc Hv Hb Hu).
Qed.
Lemma merge_does {X} fuel : forall h w k b first1 n1 l c first2 n2 j d output h' r (x : X), good h w ->
  nth_error bs k = Some b -> nth_error bs l = Some c -> nth_error bs j = Some d ->
  unique_merge_copy moved self_moved less fuel Move h k first1 n1 l first2 n2 j output = Some (h', r) ->
  does (mem_unique_merge moved self_moved less fuel (Some b) first1 n1 (Some c) first2 n2 (Some d) output) x w h' r.
Proof.
  induction fuel as [|fuel IH]; intros h w k b first1 n1 l c first2 n2 j d output h' r x Hg Hb Hc Hd; cbn [unique_merge_copy mem_unique_merge]; [discriminate|].
  destruct n1 as [|n1]. { apply unique_move_does; auto. }
  destruct n2 as [|n2]. { apply unique_move_does; auto. }
  destruct (read h l first2) as [v2|] eqn:E2; [|discriminate]. destruct (read h k first1) as [v1|] eqn:E1; [|discriminate]. intros H.
  eapply does_reading; [exact Hg|exact (compare_reads less h w l c first2 v2 k b first1 v1 x (proj2 Hg) Hc E2 Hb E1)|]. intros w1 Hg1.
  destruct (assign _ _ _ h _ _) as [h1|] eqn:Ea; [|discriminate]. eapply does_bind.
  { instantiate (1 := tt). instantiate (1 := h1). destruct (less v2 v1); eapply move_does; eauto. }
  intros w2 Hg2. cbv zeta in *. destruct (read h1 j output) as [v|] eqn:Ev; [|discriminate].
  destruct (next_greater less h1 k _ _ v) as [x1|] eqn:En1; [|discriminate]. destruct (next_greater less h1 l _ _ v) as [x2|] eqn:En2; [|discriminate].
  eapply does_reading; [exact Hg2|exact (next_greater_reads _ _ _ _ _ _ _ _ _ _ _ x Hg2 Hb Hd Ev En1)|]. intros w3 Hg3.
  eapply does_reading; [exact Hg3|exact (next_greater_reads _ _ _ _ _ _ _ _ _ _ _ x Hg3 Hc Hd Ev En2)|]. intros w4 Hg4.
  eapply IH; eauto.
Qed.
Lemma to_move_reads {X} n : forall h w k b before first middle m r (x : X), good h w -> nth_error bs k = Some b -> read h k middle = Some m ->
  find_first_to_move less n h k before first m = Some r -> reading (mem_find_first_to_move less n (Some b) before first middle) x w r.
Proof.
  induction n as [|n IH]; intros h w k b before first middle m r x Hg Hb Hm; cbn [find_first_to_move mem_find_first_to_move].
  - intros [= <-]. apply reading_ret.
  - destruct (read h k first) as [v|] eqn:Ev; [|discriminate]. intros H.
    eapply reading_bind; [exact (compare_reads less h w k b middle m k b first v x (proj2 Hg) Hb Hm Hb Ev)|]. intros w1 Hq. destruct (less m v); cbv beta iota.
    + injection H as <-. apply reading_ret.
    + eapply IH; eauto. eapply good_quiet; eauto.
Qed.
End Inside.

(** One more array, with [n] cells that are raw. *)
Definition followed (spare : nat -> list (option V)) (n : nat) (k : nat) : list (option V) := match k with 0 => spare 0 | _ => repeat None n end.
Lemma move_out_mem {X} b c spare others n : forall l done first w temp h1 (x : X), b <> c ->
  shown [b; c] (followed spare n) others [l; done] w -> move_out moved n [l] 0 first = Some (temp, h1) ->
  exists l1 w', h1 = [l1] /\ copy_loop moved (Some c) 0 (length done) (map (MoveOf (Some b)) (seq first n)) x w = Ret x tt w' /\
    shown [b; c] (followed spare 0) others [l1; done ++ temp] w' /\ script w' = script w.
Proof.
  induction n as [|n IH]; intros l done first w temp h1 x Hbc Hs; cbn [move_out seq map copy_loop].
  - intros [= <- <-]. exists l, w. rewrite app_nil_r. repeat split; auto; apply Hs.
  - destruct (read [l] 0 first) as [v|] eqn:Ev; [|discriminate]. destruct (write [l] 0 first (moved v)) as [h2|] eqn:Ew; [|discriminate].
    destruct (move_out moved n h2 0 (S first)) as [[vs h3]|] eqn:Em; [|discriminate]. intros [= <- <-].
    assert (exists l2, h2 = [l2] /\ write [l; done] 0 first (moved v) = Some [l2; done]) as (l2 & -> & Ew').
    { unfold write in *. cbn [nth_error] in *. destruct (first <? length l); [|discriminate]. injection Ew as <-. cbn. eauto. }
    assert (forall w2, shown [b; c] (followed spare (S n)) others [l2; done] w2 -> exists w3, begin_life (Some c) (length done) v x w2 = Ret x tt w3 /\
              shown [b; c] (followed spare n) others [l2; done ++ [v]] w3 /\ script w3 = script w2) as Hlife.
    { intros w2 (H1 & H2 & H3 & H4 & H5). unfold begin_life, find_cell. rewrite (H3 1 c done eq_refl eq_refl). cbn [followed repeat].
      rewrite nth_error_app2, map_length, Nat.sub_diag by (rewrite map_length; lia). cbn [nth_error]. eexists. split; [reflexivity|]. split; [|reflexivity].
      split; [reflexivity|]. split; [exact H2|]. split; [|split].
      - intros [|[|k]] b' l' Hb' Hl'; cbn in Hb', Hl'; try (destruct k; discriminate); injection Hb' as <-; injection Hl' as <-; cbn.
        + rewrite (proj2 (Nat.eqb_neq b c) Hbc). exact (H3 0 b l2 eq_refl eq_refl).
        + rewrite Nat.eqb_refl. f_equal. rewrite map_app, <- app_assoc. cbn [map app].
          assert (Hset : forall (z : list V) y t, set_nth (map Some z ++ None :: t) (length z) (Some y) = map Some z ++ Some y :: t).
          { clear. induction z as [|a z IH]; intros y t; cbn; [reflexivity|]. f_equal. apply IH. }
          apply Hset.
      - intros b' Hb'. cbn. destruct (Nat.eqb_spec b' c) as [->|]; [exfalso; apply Hb'; cbn; auto|now apply H4].
      - intros b' Hb'. cbn in *. destruct (Nat.eqb_spec b' c) as [->|]; [|now apply H5]. exfalso. pose proof (H5 _ Hb') as Hx. rewrite (H3 1 c done eq_refl eq_refl) in Hx. discriminate. }
    destruct (shown_store _ _ _ _ _ 0 b first (moved v) [l2; done] x Hs eq_refl Ew') as (w2 & E2 & Hs2 & Hsc2). destruct (Hlife w2 Hs2) as (w3 & E3 & Hs3 & Hsc3).
    destruct (IH l2 (done ++ [v]) (S first) w3 vs h3 x Hbc Hs3 Em) as (l1 & w' & -> & E4 & Hs4 & Hsc4). exists l1, w'. split; [reflexivity|].
    rewrite app_length in E4. cbn [length] in E4. rewrite Nat.add_1_r in E4. rewrite <- app_assoc in Hs4. split; [|split; [exact Hs4|congruence]].
    unfold bind at 1, rethrow_after, construct_at. cbn [Nat.add]. unfold bind at 1.
    assert (require_raw (Some c) (length done) x w = Ret x tt w) as ->.
    { unfold require_raw, find_cell. destruct Hs as (_ & _ & H3 & _). rewrite (H3 1 c done eq_refl eq_refl). cbn [followed repeat].
      rewrite nth_error_app2, map_length, Nat.sub_diag by (rewrite map_length; lia). reflexivity. }
    unfold make, bind. rewrite (shown_load _ _ _ _ _ 0 b first v x Hs eq_refl Ev), E2. cbn [ret]. rewrite E3. exact E4.
Qed.
Lemma move_out_fine n : forall l first temp h1, Forall P l -> move_out moved n [l] 0 first = Some (temp, h1) ->
  exists l1, h1 = [l1] /\ length l1 = length l /\ length temp = n /\ Forall P l1 /\ Forall P temp.
Proof.
  induction n as [|n IH]; intros l first temp h1 Hl; cbn [move_out].
  - intros [= <- <-]. exists l. auto.
  - destruct (read [l] 0 first) as [v|] eqn:Ev; [|discriminate]. destruct (write [l] 0 first (moved v)) as [h2|] eqn:Ew; [|discriminate].
    destruct (move_out moved n h2 0 (S first)) as [[vs h3]|] eqn:Em; [|discriminate]. intros [= <- <-].
    assert (P v) as Hv. { rewrite Forall_forall in Hl. apply Hl. cbn in Ev. eapply nth_error_In; eauto. }
    unfold write in Ew. cbn [nth_error] in Ew. destruct (first <? length l); [|discriminate]. injection Ew as <-. cbn [set_nth] in Em.
    destruct (IH _ _ _ _ (set_nth_all l first (moved v) (Hmoved _ Hv) Hl) Em) as (l1 & -> & E & E' & H1 & H2). rewrite set_nth_length in E.
    exists l1. repeat split; auto. cbn. now rewrite E'.
Qed.

Context (spare : nat -> list (option V)) (others : memory (V := V)).
Lemma temporary_does {X A} b l w first n temp l1 (body : ptr -> M V X A) (x : X) h2 a :
  good [b] spare others [length l] [l] w -> move_out moved n [l] 0 first = Some (temp, [l1]) ->
  (forall c w1, c <> b -> good [b; c] (followed spare 0) others [length l; n] [l1; temp] w1 -> does [b; c] (followed spare 0) others [length l; n] (body (Some c)) x w1 h2 a) ->
  does [b] spare others [length l] (with_temporary moved (Some b) first n body) x w (firstn 1 h2) a.
Proof.
  intros [Hf Hs] Hm Hbody. assert (Forall P l) as Hl by (destruct Hf as [_ Hf]; now inversion Hf).
  destruct (move_out_fine n l first temp [l1] Hl Hm) as (l1' & [= <-] & E1 & E2 & H1 & H2).
  assert (Hend : forall c w1 h, c <> b -> others c = None -> good [b; c] (followed spare 0) others [length l; n] h w1 ->
    exists l3 t3 w2, h = [l3; t3] /\ good [b] spare others [length l] [l3] w2 /\ incl (script w2) (script w1) /\ exists o', da_destroy (Storage (Some c) n) w1 = Ret o' tt w2).
  { intros c w1 h Hcb Hoc [Hf1 Hs1]. destruct Hf1 as [Hsh Hp]. destruct h as [|l3 [|t3 [|]]]; try discriminate Hsh. injection Hsh as E3 E4. exists l3, t3.
    destruct Hs1 as (A1 & A2 & A3 & A4 & A5). pose proof (A3 0 b l3 eq_refl eq_refl) as B0. pose proof (A3 1 c t3 eq_refl eq_refl) as B1. cbn in B0, B1. rewrite app_nil_r in B1.
    assert (is_array 0 n (Storage (Some c) n) t3 (fun b' => if b' =? c then None else heap w1 b') w1) as Ha.
    { split; [|exact A5]. split; [cbn; lia|]. split; [lia|]. cbn. rewrite Nat.eqb_refl. split; [reflexivity|]. split; [exact B1|]. intros b' Hb'. now rewrite (proj2 (Nat.eqb_neq b' c) Hb'). }
    pose proof (destroy_array 0 n _ _ _ _ Ha) as Hd. pose proof (da_destroy_less (Storage (Some c) n) w1) as Hsc.
    destruct (da_destroy (Storage (Some c) n) w1) as [o' [] w2|o' w2|]; cbn [ends] in Hd; [|contradiction..].
    destruct Hd as [Hd1 Hd2]. exists w2. split; [reflexivity|]. split; [|split; [exact Hsc|now exists o']]. split.
    - split; [cbn; now rewrite E3|]. inversion Hp; subst. auto.
    - split; [reflexivity|]. split; [constructor; [auto|constructor]|]. split; [|split; [|exact Hd2]].
      + intros [|k] b' l' Hb' Hl'; cbn in Hb', Hl'; [|destruct k; discriminate]. injection Hb' as <-. injection Hl' as <-. rewrite Hd1. rewrite (proj2 (Nat.eqb_neq b c)) by auto. exact B0.
      + intros b' Hb'. rewrite Hd1. destruct (Nat.eqb_spec b' c) as [->|Hc]; [now rewrite Hoc|]. apply A4. cbn in *. intuition. }
  unfold does, with_temporary, with_local, on_unit, da_from. rewrite map_length, seq_length, Nat.leb_refl. cbn [Nat.leb andb].
  unfold bind at 1 2. cbn [ret]. unfold allocate_storage, allocate, bind at 1 2 3.
  pose proof (reading_may_throw tt w) as Ht. unfold reading in Ht. destruct (may_throw tt w) as [u [] w1|u w1|]; [| |contradiction].
  2:{ destruct Ht as (_ & Hq & Ht). cbn [ends]. split; [reflexivity|]. split; [exact Ht|]. exists [l]. eapply good_quiet; [exact Hq|]. now split. }
  destruct Ht as (-> & Hq & _). pose proof (shown_quiet _ _ _ _ _ _ Hq Hs) as Hs1. cbn [new_block ret]. unfold rethrow_after, uninitialized_copy. cbn [u_pointer].
  set (c := next w1). set (w2 := World _ _ _). assert (b <> c) as Hbc.
  { intros E. destruct Hs1 as (_ & _ & A3 & _ & A5). pose proof (A3 0 b l eq_refl eq_refl) as Hx. rewrite (A5 b) in Hx; [discriminate|]. subst c. lia. }
  assert (others c = None) as Hoc. { destruct Hs1 as (_ & _ & _ & A4 & A5). rewrite <- A4; [apply A5; subst c; lia|]. cbn. intuition. }
  assert (shown [b; c] (followed spare n) others [l; []] w2) as Hs2.
  { destruct Hs1 as (A1 & A2 & A3 & A4 & A5). split; [reflexivity|]. split; [constructor; [cbn; intuition|constructor; [auto|constructor]]|]. split; [|split].
    - intros [|[|k]] b' l' Hb' Hl'; cbn in Hb', Hl'; try (destruct k; discriminate); injection Hb' as <-; injection Hl' as <-; cbn.
      + fold c. rewrite (proj2 (Nat.eqb_neq b c) Hbc). exact (A3 0 b l eq_refl eq_refl).
      + fold c. now rewrite Nat.eqb_refl.
    - intros b' Hb'. cbn. fold c. destruct (Nat.eqb_spec b' c) as [->|Hc]; [exfalso; apply Hb'; cbn; auto|]. apply A4. cbn in *. intuition.
    - intros b' Hb'. cbn in *. fold c in Hb' |- *. destruct (Nat.eqb_spec b' c) as [->|Hc]; [lia|]. apply A5. subst c. lia. }
  destruct (move_out_mem b c spare others n l [] first w2 temp [l1] tt Hbc Hs2 Hm) as (l1' & w3 & [= <-] & Ec & Hs3 & Hsc3). cbn [app length] in *. rewrite Ec. unfold ret.
  assert (good [b; c] (followed spare 0) others [length l; n] [l1; temp] w3) as Hg3.
  { split; [|exact Hs3]. split; [cbn; now rewrite E1, E2|]. auto. }
  unfold bind, get, on_fst. cbn [fst snd da_data u_pointer]. specialize (Hbody c w3 (not_eq_sym Hbc) Hg3). unfold does in Hbody. unfold ends in Hbody |- *.
  assert (incl (script w3) (script w)) as Hi. { rewrite Hsc3. subst w2. cbn. apply Hq. }
  destruct (body (Some c) x w3) as [x4 a4 w4|x4 w4|]; [| |contradiction].
  - destruct Hbody as (-> & -> & Hg4 & Hi4). destruct (Hend c w4 _ (not_eq_sym Hbc) Hoc Hg4) as (l3 & t3 & w5 & -> & Hg5 & Hi5 & o' & Ed). cbn [fst snd]. rewrite Ed.
    split; [reflexivity|]. split; [reflexivity|]. split; [exact Hg5|]. eapply incl_tran; [exact Hi5|]. eapply incl_tran; eauto.
  - destruct Hbody as (-> & Ht4 & h4 & Hg4). destruct (Hend c w4 _ (not_eq_sym Hbc) Hoc Hg4) as (l3 & t3 & w5 & -> & Hg5 & Hi5 & o' & Ed). cbn [fst snd]. rewrite Ed.
    split; [reflexivity|]. split; [apply Hi, Ht4|]. now exists [l3].
Qed.

Lemma move_out_others n : forall l first temp l1, move_out moved n [l] 0 first = Some (temp, [l1]) -> forall i, ~ (first <= i < first + n) -> nth_error l1 i = nth_error l i.
Proof.
  induction n as [|n IH]; intros l first temp l1; cbn [move_out].
  - intros [= <- <-]. reflexivity.
  - destruct (read [l] 0 first) as [v|] eqn:Ev; [|discriminate]. destruct (write [l] 0 first (moved v)) as [h2|] eqn:Ew; [|discriminate].
    destruct (move_out moved n h2 0 (S first)) as [[vs h3]|] eqn:Em; [|discriminate]. intros [= <- ->] i Hi.
    unfold write in Ew. cbn [nth_error] in Ew. destruct (first <? length l); [|discriminate]. injection Ew as <-. cbn [set_nth] in Em.
    rewrite (IH _ _ _ _ Em) by lia. rewrite set_nth_at. destruct (Nat.eqb_spec i first); [lia|reflexivity].
Qed.
Lemma find_same (pr : V -> bool) n : forall (h : arrays) k (h' : arrays) k' first, (forall i, first <= i < first + n -> read h' k' i = read h k i) -> Unique.find_if pr n h' k' first = Unique.find_if pr n h k first.
Proof.
  induction n as [|n IH]; intros h k h' k' first H; cbn [Unique.find_if]; [reflexivity|]. rewrite H by lia. destruct (read h k first) as [v|]; [|reflexivity].
  destruct (pr v); [reflexivity|]. apply IH. intros i Hi. apply H. lia.
Qed.
Lemma to_move_range (less : V -> V -> bool) n : forall (h : arrays) k before first m bt t, find_first_to_move less n h k before first m = Some (bt, t) -> before < first -> bt < t /\ first <= t <= first + n.
Proof.
  induction n as [|n IH]; intros h k before first m bt t; cbn [find_first_to_move].
  - intros [= -> ->]. lia.
  - destruct (read h k first) as [v|]; [|discriminate]. destruct (less m v).
    + intros [= -> ->]. lia.
    + intros H _. apply IH in H; lia.
Qed.
Lemma inplace_merge_does {X} less b l w first middle last h' r (x : X) : good [b] spare others [length l] [l] w -> first <= middle ->
  unique_inplace_merge moved self_moved less [l] 0 first middle last = Some (h', r) ->
  does [b] spare others [length l] (mem_unique_inplace_merge moved self_moved less (Some b) first middle last) x w h' r.
Proof.
  intros Hg Hle. assert (Forall P l) as Hl by (destruct Hg as [[_ Hf] _]; now inversion Hf).
  assert (Hmove : forall w1 target new_middle, good [b] spare others [length l] [l] w1 -> target <= middle -> middle <= new_middle ->
    merge_from_temporary moved self_moved less [l] 0 target middle new_middle last = Some (h', r) ->
    exists temp l1 h2, move_out moved (middle - target) [l] 0 target = Some (temp, [l1]) /\ firstn 1 h2 = h' /\
      unique_merge_copy moved self_moved less (S (middle - target + (last - new_middle))) Move [l1; temp] 1 0 (middle - target) 0 new_middle (last - new_middle) 0 target = Some (h2, r)).
  { intros w1 target new_middle Hg1 H1 H2. unfold merge_from_temporary. destruct (move_out moved (middle - target) [l] 0 target) as [[temp h1]|] eqn:Em; [|discriminate].
    destruct (move_out_fine _ _ _ _ _ Hl Em) as (l1 & -> & E1 & E2 & _). rewrite E2. cbn [app length].
    destruct (unique_merge_copy _ _ _ _ _ _ _ _ _ _ _ _ _ _) as [[h2 r2]|] eqn:Eu; [|discriminate]. intros [= <- <-]. exists temp, l1, h2. auto. }
  unfold unique_inplace_merge, mem_unique_inplace_merge. destruct ((first =? middle) || (middle =? last)) eqn:Eo. { apply unique_does; auto. }
  destruct (read [l] 0 middle) as [m|] eqn:Em; [|discriminate]. destruct (read [l] 0 first) as [f|] eqn:Ef; [|discriminate]. intros H.
  eapply does_reading; [exact Hg|exact (compare_reads [b] _ _ less [l] w 0 b middle m 0 b first f x (proj2 Hg) eq_refl Em eq_refl Ef)|]. intros w1 Hg1.
  destruct (less m f); cbv beta iota.
  - destruct (Hmove w1 first middle Hg1 Hle (le_n _) H) as (temp & l1 & h2 & Ho & <- & Hu). eapply temporary_does; [exact Hg1|exact Ho|]. intros c w2 Hc Hg2.
    exact (merge_does [b; c] _ _ _ less _ [l1; temp] w2 1 c 0 _ 0 b _ _ 0 b _ _ _ x Hg2 eq_refl eq_refl eq_refl Hu).
  - destruct (find_first_to_move less (middle - S first) [l] 0 first (S first) m) as [[bt t]|] eqn:Et; [|discriminate].
    destruct (to_move_range _ _ _ _ _ _ _ _ _ Et (Nat.lt_succ_diag_r _)) as (Hbt & Ht).
    eapply does_reading; [exact Hg1|exact (to_move_reads [b] _ _ _ less _ _ _ 0 b _ _ middle m _ x Hg1 eq_refl Em Et)|]. intros w2 Hg2. cbn [fst snd].
    destruct (Nat.eqb_spec t middle) as [E|E]. { now apply unique_does with (k := 0) (h := [l]). }
    destruct (read [l] 0 bt) as [v|] eqn:Ev; [|discriminate]. destruct (next_greater less [l] 0 middle (last - middle) v) as [nm|] eqn:En; [|discriminate].
    assert (middle <= nm) as Hnm. { clear -En. unfold next_greater in En. revert En. generalize (last - middle) as n. intros n. generalize middle as a. induction n as [|n IH]; intros a; cbn [Unique.find_if].
      - intros [= ->]. lia.
      - destruct (read [l] 0 a) as [u|]; [|discriminate]. destruct (less v u); [intros [= ->]; lia|]. intros H. apply IH in H. lia. }
    assert (first < middle) as Hlt. { destruct (Nat.eq_dec first middle); [|lia]. subst. rewrite Nat.eqb_refl in Eo. discriminate. }
    destruct (Hmove w2 t nm Hg2 ltac:(lia) Hnm H) as (temp & l1 & h2 & Ho & <- & Hu). eapply temporary_does; [exact Hg2|exact Ho|]. intros c w3 Hc Hg3.
    assert (Hsame : forall i, ~ (t <= i < middle) -> read [l1; temp] 0 i = read [l] 0 i).
    { intros i Hi. cbn. apply (move_out_others _ _ _ _ _ Ho). lia. }
    eapply does_reading; [exact Hg3| |].
    { eapply (next_greater_reads [b; c] _ _ _ less [l1; temp] w3 0 b middle _ 0 b bt v nm x Hg3 eq_refl eq_refl); [rewrite Hsame by lia; exact Ev|].
      unfold next_greater in *. rewrite <- En. apply find_same. intros i Hi. apply Hsame. lia. }
    intros w4 Hg4. exact (merge_does [b; c] _ _ _ less _ [l1; temp] w4 1 c 0 _ 0 b _ _ 0 b _ _ _ x Hg4 eq_refl eq_refl eq_refl Hu).
Qed.
End Arrays.
