(** * Proofs for linear maps in memory *)

From Coq Require Import List Arith Bool Lia Permutation.
From Verif Require Import Mem MemLemmas SpecVec Vec SpecUnique LinearMap SpecMap LinearMapProofs VecProofs VecProofs2 VecCost VecHistory Keyed SpecDict KeyedProofs
  FlatMemory SpecFlatMemory FlatMemoryProofs FlatMemoryProofs2 LinearMemory VecFill.
From Verif Require Algo AlgoProofs VecPrograms StaticPrograms PropsVec.
Import ListNotations.
Local Open Scope nat_scope.

(** Like [ends], with what may be undefined. *)
Definition ends_or {V X A} (r : out V X A) (Q : X -> A -> world V -> Prop) (E : X -> world V -> Prop) (B : Prop) : Prop :=
  match r with
  | Ret x a w => Q x a w
  | Exc x w => E x w
  | Bad f => f = Broken /\ B
  end.
Lemma ends_or_weaken {V X A} (r : out V X A) (Q Q' : X -> A -> world V -> Prop) (E E' : X -> world V -> Prop) (B B' : Prop) :
  ends_or r Q E B -> (forall x a w, Q x a w -> Q' x a w) -> (forall x w, E x w -> E' x w) -> (B -> B') -> ends_or r Q' E' B'.
Proof. unfold ends_or. destruct r; auto. intros [H1 H2]; auto. Qed.
Lemma ends_or_reading {V X A B} (m : M V X A) (k : A -> M V X B) x w a Q E U :
  reading m x w a -> (forall w', quiet w w' -> ends_or (k a x w') Q E U) -> (forall w', quiet w w' -> someone_throws w -> E x w') -> ends_or (bind m k x w) Q E U.
Proof.
  unfold reading, bind, ends_or. intros Hm Hk He. destruct (m x w) as [x' a' w'|x' w'|]; [| |contradiction].
  - destruct Hm as (-> & Hq & ->). exact (Hk w' Hq).
  - destruct Hm as (-> & Hq & Ht). exact (He w' Hq Ht).
Qed.

Fixpoint position_of {V} (f : V -> bool) (l : list V) : nat := match l with [] => 0 | e :: l => if f e then 0 else S (position_of f l) end.
Lemma find_loop_reads {V X} (x : X) (test : nat -> M V X bool) (f : V -> bool) l : forall n first w,
  (forall i e w', quiet w w' -> nth_error l i = Some e -> reading (test i) x w' (f e)) -> first + n = length l ->
  reading (Algo.find_if_loop test first n) x w (first + position_of f (skipn first l)).
Proof.
  induction n as [|n IH]; intros first w Ht Hl; cbn [Algo.find_if_loop].
  - rewrite skipn_all2 by lia. cbn [position_of]. rewrite Nat.add_0_r. apply reading_ret.
  - destruct (nth_error l first) as [e|] eqn:E; [|apply nth_error_None in E; lia].
    assert (skipn first l = e :: skipn (S first) l) as ->.
    { clear -E. revert first E. induction l as [|a l IH]; intros [|first] E; try discriminate; cbn in *. { now injection E as ->. } now apply IH. }
    eapply reading_bind; [apply Ht; [apply quiet_refl|exact E]|]. intros w' Hq. cbn [position_of]. destruct (f e).
    + rewrite Nat.add_0_r. apply reading_ret.
    + rewrite Nat.add_succ_r. change (S (first + ?x)) with (S first + x). apply IH; [|lia]. intros i e' w'' Hq' Hi. apply Ht; [eapply quiet_trans; eauto|exact Hi].
Qed.

Section Linear.
Context {K T : Type} (moved : K * T -> K * T) (equal : K -> K -> bool) (Heq : equivalence equal).
Local Notation element := (K * T)%type.
Local Notation world := (world element).
Context {O : Type} (C : container (V := element) O).
Context (holds : O -> list element -> world -> Prop) (full : O -> list element -> Prop) (undefined : O -> list element -> Prop).
Hypothesis holds_size : forall o m w, holds o m w -> c_size C o = length m.
Hypothesis holds_read : forall o m w, holds o m w -> readable o (c_data C o) m w.
Hypothesis holds_quiet : forall o m w w', holds o m w -> quiet w w' -> holds o m w'.
Hypothesis push_holds : forall o m u w, holds o m w ->
  ends_or (lazy_push_back moved C (Supply u) o w)
    (fun o' _ w' => holds o' (m ++ [u]) w' /\ incl (script w') (script w))
    (fun o' w' => o' = o /\ holds o m w' /\ incl (script w') (script w) /\ (someone_throws w \/ full o m)) (undefined o m).
Hypothesis erase_holds : forall o before ds rest w, holds o (before ++ ds ++ rest) w ->
  ends (Vec.erase moved C (length before) (length before + length ds) o w)
    (fun o' r w' => holds o' (before ++ rest) w' /\ incl (script w') (script w)) (fun _ _ => False).
Hypothesis cut_holds : forall o before rest w, holds o (before ++ rest) w ->
  ends (erase_to_end C (length before) o w) (fun o' _ w' => holds o' before w' /\ incl (script w') (script w)) (fun _ _ => False).
Hypothesis store_holds : forall o m w i v, holds o m w -> i < length m ->
  exists w', store (c_data C o) i v o w = Ret o tt w' /\ holds o (set_nth m i v) w' /\ script w' = script w.

Lemma linear_find_reads o m w key : holds o m w -> reading (mem_linear_find equal C key) o w (linear_find equal m key).
Proof.
  intros H. unfold mem_linear_find. eapply reading_bind; [apply reading_get|]. intros w1 H1. rewrite (holds_size _ _ _ H).
  unfold Algo.find_if, Algo.distance. cbn [Nat.leb]. eapply reading_bind; [apply reading_ret|]. intros w2 H2. rewrite Nat.sub_0_r.
  pose proof (find_loop_reads o (Algo.test_at (c_data C o) (fun e => equal key (fst e))) (fun e => equal key (fst e)) m (length m) 0 w2) as Hr.
  assert (E : forall l : list element, position_of (fun e => equal key (fst e)) l = linear_find equal l key).
  { induction l as [|e l IH]; cbn; [reflexivity|]. now rewrite IH. }
  rewrite E in Hr. cbn [skipn Nat.add] in Hr. apply Hr; [|reflexivity]. intros i e w' Hq Hi.
  apply (reading_test o (c_data C o) m w' (fun e => equal key (fst e)) i e); [|exact Hi].
  eapply readable_quiet; [|eapply holds_read; exact H]. eapply quiet_trans; [|exact Hq]. eapply quiet_trans; eauto.
Qed.

Lemma linear_act_memory o m w a : holds o m w ->
  ends_or (mem_linear_act moved equal C a o w)
    (fun o' r w' => exists m', linear_act equal m a = Some (m', r) /\ holds o' m' w' /\ incl (script w') (script w))
    (fun o' w' => o' = o /\ holds o m w' /\ incl (script w') (script w) /\
       (someone_throws w \/ exists k v, a = Insert k v /\ element_of equal m k = None /\ full o m))
    (exists k v, a = Insert k v /\ element_of equal m k = None /\ undefined o m).
Proof.
  intros H. assert (Hthrow : forall a w1, quiet w w1 -> someone_throws w -> o = o /\ holds o m w1 /\ incl (script w1) (script w) /\
      (someone_throws w \/ exists k v, (a : action K T) = Insert k v /\ element_of equal m k = None /\ full o m)).
  { intros b w1 H1 Ht. split; [reflexivity|]. split; [eapply holds_quiet; eauto|]. split; [apply H1|now left]. }
  destruct a as [k v|k|k|]; cbn [mem_linear_act linear_act].
  - unfold linear_keyed_insert, linear_lazy_insert, mem_linear_lazy_insert. destruct (linear_find_ok equal m k) as (Hle & Hit). pose proof (linear_find_reads o m w k H) as Hr.
    set (it := linear_find equal m k) in *. unfold bind at 1 2. unfold reading in Hr. destruct (mem_linear_find equal C k o w) as [o1 r1 w1|o1 w1|]; [| |contradiction].
    2:{ destruct Hr as (-> & Hq & Ht). cbn. auto. }
    destruct Hr as (-> & Hq & ->). unfold bind at 1, get at 1. rewrite (holds_size _ _ _ H). destruct (Nat.eqb_spec it (length m)) as [Ei|Ei]; cbn [negb].
    + pose proof (push_holds o m (k, v) w1 (holds_quiet _ _ _ _ H Hq)) as Hp. unfold bind. 
      assert (element_of equal m k = None) as Hn. { rewrite <- Hit, Ei. apply nth_error_None. lia. }
      destruct (lazy_push_back moved C (Supply (k, v)) o w1) as [o2 [] w2|o2 w2|]; cbn [ends_or ret get snd] in *.
      * destruct Hp as (Hp & Hs). exists (m ++ [(k, v)]). split; [reflexivity|]. split; [exact Hp|]. eapply incl_tran; [exact Hs|apply Hq].
      * destruct Hp as (-> & Hp & Hs & Hc). split; [reflexivity|]. split; [exact Hp|]. split; [eapply incl_tran; [exact Hs|apply Hq]|].
        destruct Hc as [Hc|Hc]; [left; eapply quiet_throws; eauto|right; exists k, v; auto].
      * destruct Hp as [-> Hp]. split; [reflexivity|]. exists k, v. auto.
    + cbn. exists m. split; [reflexivity|]. split; [eapply holds_quiet; eauto|apply Hq].
  - unfold linear_keyed_erase, mem_linear_keyed_erase. destruct (linear_find_ok equal m k) as (Hle & Hit). pose proof (linear_find_reads o m w k H) as Hr.
    set (it := linear_find equal m k) in *. unfold bind at 1 2. unfold reading in Hr. destruct (mem_linear_find equal C k o w) as [o1 r1 w1|o1 w1|]; [| |contradiction].
    2:{ destruct Hr as (-> & Hq & Ht). cbn. auto. }
    destruct Hr as (-> & Hq & ->). unfold bind at 1, get at 1. rewrite (holds_size _ _ _ H). destruct (Nat.eqb_spec it (length m)) as [Ei|Ei].
    + cbn. exists m. split; [reflexivity|]. split; [eapply holds_quiet; eauto|apply Hq].
    + assert (it <? length m = true) as -> by (apply Nat.ltb_lt; lia).
      unfold erase_one, bind, get. rewrite (holds_size _ _ _ H), (proj2 (Nat.eqb_neq it (length m)) Ei). cbn [negb require ret].
      pose proof (erase_holds o (firstn it m) (firstn 1 (skipn it m)) (skipn (S it) m) w1) as He.
      assert (Em : firstn it m ++ firstn 1 (skipn it m) ++ skipn (S it) m = m).
      { rewrite <- (firstn_skipn it m) at 4. f_equal. rewrite <- (firstn_skipn 1 (skipn it m)) at 2. f_equal.
        rewrite VecHistory.skipn_add. reflexivity. }
      rewrite Em in He. specialize (He (holds_quiet _ _ _ _ H Hq)). rewrite !firstn_length, skipn_length in He. replace (Nat.min it (length m)) with it in He by lia.
      replace (Nat.min 1 (length m - it)) with 1 in He by lia. unfold ends in He.
      destruct (Vec.erase moved C it (it + 1) o w1) as [o2 r2 w2|o2 w2|]; [|contradiction..]. cbn. destruct He as (Hh & Hs).
      eexists. split; [reflexivity|]. split; [exact Hh|]. eapply incl_tran; [exact Hs|apply Hq].
  - unfold linear_lookup_value, mem_linear_lookup_value. destruct (linear_find_ok equal m k) as (Hle & Hit). pose proof (linear_find_reads o m w k H) as Hr.
    set (it := linear_find equal m k) in *. unfold bind at 1 2. unfold reading in Hr. destruct (mem_linear_find equal C k o w) as [o1 r1 w1|o1 w1|]; [| |contradiction].
    2:{ destruct Hr as (-> & Hq & Ht). cbn. auto. }
    destruct Hr as (-> & Hq & ->). unfold bind, get. rewrite (holds_size _ _ _ H). destruct (Nat.eqb_spec it (length m)) as [Ei|Ei].
    + cbn. exists m. split; [reflexivity|]. split; [eapply holds_quiet; eauto|apply Hq].
    + destruct (nth_error m it) as [e|] eqn:En; [|apply nth_error_None in En; lia].
      rewrite (readable_quiet o _ m _ _ Hq (holds_read _ _ _ H) it e En). cbn. exists m. split; [reflexivity|]. split; [eapply holds_quiet; eauto|apply Hq].
  - cbn. rewrite (holds_size _ _ _ H). exists m. split; [reflexivity|]. split; [exact H|apply incl_refl].
Qed.

(** Removing what is there twice *)
Lemma any_reads o m w sf e : holds o m w -> nth_error m sf = Some e ->
  reading (Algo.any (matches_this_value equal (c_data C o) sf) 0 sf) o w (existsb (fun verified => equal (fst e) (fst verified)) (firstn sf m)).
Proof.
  intros H He. assert (Hl : sf < length m) by (apply nth_error_Some; congruence). unfold Algo.any, Algo.find_if, Algo.distance. cbn [Nat.leb].
  set (r := position_of (fun v => equal (fst e) (fst v)) (firstn sf m)). assert (Hx : negb (r =? sf) = existsb (fun verified => equal (fst e) (fst verified)) (firstn sf m)).
  { assert (Hsf : length (firstn sf m) = sf) by (rewrite firstn_length; lia). transitivity (negb (r =? length (firstn sf m))); [now rewrite Hsf|]. subst r. cbn [skipn Nat.add]. generalize (firstn sf m) as l. clear. induction l as [|a l IH]; cbn; [reflexivity|].
    destruct (equal (fst e) (fst a)); cbn; [reflexivity|]. exact IH. }
  rewrite <- Hx. eapply reading_bind.
  - eapply reading_bind; [apply reading_ret|]. intros w1 H1. rewrite Nat.sub_0_r.
    assert (Hgo : reading (Algo.find_if_loop (matches_this_value equal (c_data C o) sf) 0 sf) o w1 r).
    { subst r. apply (find_loop_reads o (matches_this_value equal (c_data C o) sf) (fun v => equal (fst e) (fst v)) (firstn sf m) sf 0 w1); [|rewrite firstn_length; lia]. intros i e' w' Hq Hi. unfold matches_this_value.
      assert (readable o (c_data C o) m w') as R. { eapply readable_quiet; [|eapply holds_read; exact H]. eapply quiet_trans; eauto. }
      eapply reading_bind; [eapply reading_load; eauto|]. intros w2 H2.
      apply (reading_test o (c_data C o) m w2 (fun v => equal (fst e) (fst v)) i e'); [eapply readable_quiet; eauto|].
      rewrite <- (firstn_skipn sf m). rewrite nth_error_app1; [exact Hi|]. apply nth_error_Some. congruence. }
    exact Hgo.
  - intros w1 H1. apply reading_ret.
Qed.
Lemma swap_holds o m w i j m' : holds o m w -> LinearMap.swap_elements m i j = Some m' ->
  exists w', Vec.swap_elements (c_data C o) i (c_data C o) j o w = Ret o tt w' /\ holds o m' w' /\ script w' = script w.
Proof.
  intros H. unfold LinearMap.swap_elements. destruct (nth_error m i) as [a|] eqn:Ea; [|discriminate]. destruct (nth_error m j) as [b|] eqn:Eb; [|discriminate]. intros [= <-].
  unfold Vec.swap_elements, bind. rewrite (holds_read _ _ _ H i a Ea), (holds_read _ _ _ H j b Eb).
  destruct (store_holds o m w i b H) as (w1 & -> & H1 & S1). { apply nth_error_Some. congruence. }
  destruct (store_holds o (set_nth m i b) w1 j a H1) as (w2 & -> & H2 & S2). { rewrite length_set_nth. apply nth_error_Some. congruence. }
  exists w2. split; [reflexivity|]. split; [exact H2|congruence].
Qed.
Lemma swap_perm (m : list element) i j m' n : LinearMap.swap_elements m i j = Some m' -> n <= i -> n <= j -> Permutation m' m /\ firstn n m' = firstn n m /\ length m' = length m.
Proof.
  unfold LinearMap.swap_elements. destruct (nth_error m i) as [a|] eqn:Ea; [|discriminate]. destruct (nth_error m j) as [b|] eqn:Eb; [|discriminate]. intros [= <-] Hi Hj.
  split; [|split].
  - pose proof (AlgoProofs.swapl_perm m i j) as Hp. unfold AlgoProofs.swapl in Hp. rewrite Ea, Eb in Hp. now symmetry.
  - assert (Hf : forall l k (x : element), n <= k -> firstn n (set_nth l k x) = firstn n l).
    { clear. intros l. revert n. induction l as [|y l IH]; intros [|n] [|k] x Hk; cbn; try reflexivity; try lia. f_equal. apply IH. lia. }
    now rewrite !Hf.
  - now rewrite !length_set_nth.
Qed.
Lemma remove_memory fuel : forall o m w sf tr m' n, holds o m w -> remove_duplicates equal fuel m sf tr = Some m' -> n <= sf -> sf <= tr <= length m ->
  ends (mem_remove_duplicates equal C fuel sf tr o w) (fun o' _ w' => holds o' m' w' /\ incl (script w') (script w))
    (fun o' w' => o' = o /\ someone_throws w /\ exists q, holds o q w' /\ Permutation q m /\ firstn n q = firstn n m).
Proof.
  induction fuel as [|fuel IH]; intros o m w sf tr m' n H; cbn [remove_duplicates mem_remove_duplicates]; [discriminate|].
  assert (Hcut : forall w1 k, quiet w w1 -> k <= length m -> Some (firstn k m) = Some m' ->
    ends (erase_to_end C k o w1) (fun o' _ w' => holds o' m' w' /\ incl (script w') (script w))
    (fun o' w' => o' = o /\ someone_throws w /\ exists q, holds o q w' /\ Permutation q m /\ firstn n q = firstn n m)).
  { intros w1 k Hq Hk [= <-]. pose proof (cut_holds o (firstn k m) (skipn k m) w1) as Hc. rewrite firstn_skipn, firstn_length in Hc. replace (Nat.min k (length m)) with k in Hc by lia.
    specialize (Hc (holds_quiet _ _ _ _ H Hq)). refine (FlatMemoryProofs2.ends_weaken _ _ _ _ _ Hc _ _); cbv beta; [|tauto].
    intros o' _ w' (H1 & H2). split; [exact H1|eapply incl_tran; [exact H2|apply Hq]]. }
  destruct (Nat.eqb_spec sf tr) as [Es|Es]. { intros Hm Hn Hb. apply Hcut; auto using quiet_refl; lia. }
  destruct (nth_error m sf) as [e|] eqn:En; [|discriminate]. intros Hm Hn Hb.
  eapply ends_reading; [apply reading_get| |]. 2: { intros w1 Hq Ht. split; [reflexivity|]. split; [exact Ht|]. exists m. eauto. }
  intros w1 Hq. eapply ends_reading; [eapply any_reads; [|exact En]; eauto| |].
  2: { intros w2 Hq2 Ht. split; [reflexivity|]. split; [eapply quiet_throws; eauto|]. exists m. eauto. }
  intros w2 Hq2. assert (quiet w w2) as Hq' by (eapply quiet_trans; eauto). destruct (existsb _ _).
  - destruct tr as [|tr]; [lia|]. replace (S tr - 1) with tr by lia. destruct (Nat.eqb_spec sf tr) as [Et|Et]. { apply Hcut; auto. lia. }
    destruct (LinearMap.swap_elements m sf tr) as [ms|] eqn:Esw; [|discriminate].
    destruct (swap_holds o m w2 sf tr ms (holds_quiet _ _ _ _ H Hq') Esw) as (w3 & E3 & H3 & S3). unfold bind. rewrite E3.
    destruct (swap_perm m sf tr ms n Esw) as (Hp & Hf & Hl); [lia|lia|].
    refine (FlatMemoryProofs2.ends_weaken _ _ _ _ _ (IH o ms w3 sf tr m' n H3 Hm Hn _) _ _); cbv beta; [lia| |].
    + intros o' _ w' (H4 & H5). split; [exact H4|]. rewrite S3 in H5. eapply incl_tran; [exact H5|apply Hq'].
    + intros o' w' (-> & Ht & q & H4 & H5 & H6). split; [reflexivity|]. split. { unfold someone_throws in *. rewrite S3 in Ht. apply Hq', Ht. }
      exists q. split; [exact H4|]. split; [now rewrite H5|congruence].
  - refine (FlatMemoryProofs2.ends_weaken _ _ _ _ _ (IH o m w2 (S sf) tr m' n (holds_quiet _ _ _ _ H Hq') Hm _ _) _ _); cbv beta; [lia|lia| |].
    + intros o' _ w' (H4 & H5). split; [exact H4|]. eapply incl_tran; [exact H5|apply Hq'].
    + intros o' w' (-> & Ht & q & H4). split; [reflexivity|]. split; [eapply quiet_throws; eauto|]. now exists q.
Qed.
End Linear.

(** Storing into a vector and into a static_vector *)
Lemma store_block {V X} (w : world V) b cs i v (x : X) c : heap w b = Some cs -> nth_error cs i = Some (Some c) ->
  store (Some b) i v x w = Ret x tt (set_block w b (Some (set_nth cs i (Some v)))).
Proof. intros H Hi. unfold store, find_cell. now rewrite H, Hi. Qed.
Lemma set_nth_first {V} (m : list V) k i v : i < length m -> set_nth (map Some m ++ repeat None k) i (Some v) = map Some (set_nth m i v) ++ repeat None k.
Proof.
  revert i. induction m as [|a m IH]; intros [|i] Hi; cbn in *; try lia; [reflexivity|]. f_equal. apply IH. lia.
Qed.

Section VectorStore.
Context {K T : Type} (moved : K * T -> K * T) (maxc : nat).
Local Notation element := (K * T)%type.
Local Notation world := (world element).
Local Notation C := (bounded_vector moved 0 maxc).
Context (others : memory (V := element)).
Lemma vec_store o m (w : world) i v : vec_holds maxc others o m w -> i < length m ->
  exists w', store (c_data C o) i v o w = Ret o tt w' /\ vec_holds maxc others o (set_nth m i v) w' /\ script w' = script w.
Proof.
  intros H Hi. destruct H as ((Hz & H) & Hu). cbn [bounded_vector c_data]. unfold bv_data. destruct (u_pointer (b_storage o)) as [b|] eqn:Eb.
  2: { destruct H as (-> & _). cbn in Hi. lia. }
  destruct H as (Hn & (spare & Hb & Hc) & Ho). destruct (nth_error m i) as [e|] eqn:Ei; [|apply nth_error_None in Ei; lia].
  assert (nth_error (map Some m ++ repeat None spare) i = Some (Some e)) as Hx. { rewrite nth_error_app1 by (now rewrite map_length). rewrite nth_error_map, Ei. reflexivity. }
  rewrite (store_block w b _ i v o e Hb Hx). eexists. split; [reflexivity|]. split; [|reflexivity].
  split; [split|].
  - rewrite length_set_nth. exact Hz.
  - rewrite Eb. split; [exact Hn|]. split.
    + exists spare. cbn [set_block heap]. rewrite Nat.eqb_refl, set_nth_first by exact Hi. rewrite length_set_nth. auto.
    + intros b' Hb'. cbn [set_block heap]. rewrite (proj2 (Nat.eqb_neq b' b)) by exact Hb'. now apply Ho.
  - intros b' Hb'. cbn [set_block heap next] in *. destruct (Nat.eqb_spec b' b) as [->|]; [|now apply Hu]. rewrite (Hu b Hb') in Hb. discriminate.
Qed.
Lemma vec_cut o before rest (w : world) : vec_holds maxc others o (before ++ rest) w ->
  ends (erase_to_end C (length before) o w) (fun o' _ w' => vec_holds maxc others o' before w' /\ incl (script w') (script w)) (fun _ _ => False).
Proof.
  intros H. pose proof (PropsVec.C31_erase_to_end _ moved 0 maxc o before rest others w (Nat.le_0_l _) H) as Hi.
  pose proof (evolves_erase_to_end moved _ less_script_evolution 0 maxc (length before) o w) as He.
  unfold ends in *. destruct (erase_to_end C _ o w) as [o' r w'|o' w'|]; auto. destruct Hi as (Hv & Hc). split; [exact Hv|exact He].
Qed.
Lemma vec_erase' o before ds rest (w : world) : vec_holds maxc others o (before ++ ds ++ rest) w ->
  ends (Vec.erase moved C (length before) (length before + length ds) o w)
    (fun o' r w' => vec_holds maxc others o' (before ++ rest) w' /\ incl (script w') (script w)) (fun _ _ => False).
Proof.
  intros H. refine (FlatMemoryProofs2.ends_weaken _ _ _ _ _ (vec_erase moved maxc others o before ds rest w H) _ _); cbv beta; tauto.
Qed.
Lemma vec_push o m u (w : world) : vec_holds maxc others o m w -> 
  ends_or (lazy_push_back moved C (Supply u) o w)
    (fun o' _ w' => vec_holds maxc others o' (m ++ [u]) w' /\ incl (script w') (script w))
    (fun o' w' => o' = o /\ vec_holds maxc others o m w' /\ incl (script w') (script w) /\ (someone_throws w \/ maxc = 0))
    (1 <= maxc /\ length m = capacity_of o /\ maxc < 2 * length m).
Proof.
  intros H. destruct (Nat.eq_dec maxc 0) as [E0|E0].
  { unfold lazy_push_back. cbn [c_max bounded_vector]. rewrite E0, Nat.eqb_refl. cbn. subst. repeat split; auto using incl_refl; try apply H. }
  pose proof (holds_fit maxc others _ _ _ H) as Hf. destruct (Nat.eq_dec (length m) (capacity_of o)) as [Hc|Hc];
    [destruct (Nat.le_gt_cases (2 * length m) maxc) as [Hm|Hm]|].
  2: { rewrite (push_too_many moved maxc ltac:(lia) o m u others w H Hc Hm). cbn. split; [reflexivity|]. lia. }
  all: pose proof (PropsVec.C30_push_back _ moved 0 maxc (Supply u) u o m others w (Nat.le_0_l _) H eq_refl ltac:(lia)) as Hp;
    pose proof (evolves_push_back moved _ less_script_evolution 0 maxc 1 (evolves_default _ less_script_evolution 0) (Supply u) o w) as He;
    unfold push_back in *; destruct (lazy_push_back moved C (Supply u) o w) as [o' [] w'|o' w'|]; cbn [ends ends_or] in *; [split; [apply Hp|exact He]| |contradiction];
    destruct Hp as (Hu & Ht); assert (o' = o) as -> by apply Hu; split; [reflexivity|]; split; [eapply untouched_vec; [exact H|exact Hu]|]; split; [exact He|];
    destruct Ht as [Ht|[Ht _]]; [now left|right; lia].
Qed.
End VectorStore.

Section StaticStore.
Context {K T : Type} (moved : K * T -> K * T) (capacity : nat).
Local Notation element := (K * T)%type.
Local Notation world := (world element).
Local Notation C := (static_vector (V := element) capacity).
Context (others : memory (V := element)).
Lemma static_store o m (w : world) i v : static_holds capacity others o m w -> i < length m ->
  exists w', store (c_data C o) i v o w = Ret o tt w' /\ static_holds capacity others o (set_nth m i v) w' /\ script w' = script w.
Proof.
  intros H Hi. destruct H as ((Hz & Hn & (spare & Hb & Hc) & Ho) & Hu). cbn [static_vector c_data]. unfold sv_data.
  destruct (nth_error m i) as [e|] eqn:Ei; [|apply nth_error_None in Ei; lia].
  assert (nth_error (map Some m ++ repeat None spare) i = Some (Some e)) as Hx. { rewrite nth_error_app1 by (now rewrite map_length). rewrite nth_error_map, Ei. reflexivity. }
  rewrite (store_block w (v_place o) _ i v o e Hb Hx). eexists. split; [reflexivity|]. split; [|reflexivity].
  split; [split; [|split; [|split]]|].
  - rewrite length_set_nth. exact Hz.
  - exact Hn.
  - exists spare. cbn [set_block heap]. rewrite Nat.eqb_refl, set_nth_first by exact Hi. rewrite length_set_nth. auto.
  - intros b' Hb'. cbn [set_block heap]. rewrite (proj2 (Nat.eqb_neq b' _)) by exact Hb'. now apply Ho.
  - intros b' Hb'. cbn [set_block heap next] in *. destruct (Nat.eqb_spec b' (v_place o)) as [->|]; [|now apply Hu]. rewrite (Hu _ Hb') in Hb. discriminate.
Qed.
Lemma static_erase' o before ds rest (w : world) : static_holds capacity others o (before ++ ds ++ rest) w ->
  ends (Vec.erase moved C (length before) (length before + length ds) o w)
    (fun o' r w' => static_holds capacity others o' (before ++ rest) w' /\ incl (script w') (script w)) (fun _ _ => False).
Proof.
  intros H. refine (FlatMemoryProofs2.ends_weaken _ _ _ _ _ (static_erase moved capacity others o before ds rest w H) _ _); cbv beta; tauto.
Qed.
Lemma static_push o m u (w : world) : static_holds capacity others o m w -> 
  ends_or (lazy_push_back moved C (Supply u) o w)
    (fun o' _ w' => static_holds capacity others o' (m ++ [u]) w' /\ incl (script w') (script w))
    (fun o' w' => o' = o /\ static_holds capacity others o m w' /\ incl (script w') (script w) /\ (someone_throws w \/ length m = capacity)) False.
Proof.
  intros H. pose proof (PropsVec.C36_push_back _ moved capacity (Supply u) u o m others w H eq_refl) as Hp.
  pose proof (StaticPrograms.calm_push_back moved capacity (Supply u) o w) as He.
  unfold push_back in *. destruct (lazy_push_back moved C (Supply u) o w) as [o' [] w'|o' w'|]; cbn [ends ends_or] in *; [| |contradiction].
  - destruct He. tauto.
  - destruct Hp as ((-> & Hs & Hu) & Ht). destruct He as [He _]. split; [reflexivity|]. split; [|split; [exact He|exact Ht]].
    destruct H as [(Hz & Hx & Hb & Ho) H2]. split; [split; [exact Hz|split; [exact Hx|split]]|].
    + destruct Hb as (k & E & Hk). exists k. rewrite Hs. auto.
    + intros b Hb'. rewrite Hs. now apply Ho.
    + exact Hu.
Qed.
End StaticStore.

(** Programs whose behaviour may be undefined *)
Section Sessions.
Context {K T O A R D : Type} (act : A -> M (K * T) O R) (spec : D -> A -> D * R) (holds : O -> D -> world (K * T) -> Prop) (may undefined : D -> A -> Prop).
Hypothesis act_ok : forall o d w a, holds o d w ->
  ends_or (act a o w)
    (fun o' r w' => r = snd (spec d a) /\ holds o' (fst (spec d a)) w' /\ incl (script w') (script w))
    (fun o' w' => o' = o /\ holds o d w' /\ incl (script w') (script w) /\ (someone_throws w \/ may d a)) (undefined d a).
Lemma session_or (w0 : world (K * T)) actions : forall o d w, holds o d w -> incl (script w) (script w0) ->
  ends_or (session act actions o w)
    (fun o' seen w' => exists d', explained spec (fun d a => someone_throws w0 \/ may d a) d actions seen d' /\ holds o' d' w') (fun _ _ => False)
    (exists done a rest seen d', actions = done ++ a :: rest /\ explained spec (fun d a => someone_throws w0 \/ may d a) d done seen d' /\ undefined d' a).
Proof.
  induction actions as [|a actions IH]; intros o d w H Hw0; cbn [session].
  - cbn. exists d. split; [constructor|exact H].
  - unfold bind, attempt. pose proof (act_ok o d w a H) as Ha. destruct (act a o w) as [o1 r w1|o1 w1|]; cbn [ends_or] in Ha.
    + destruct Ha as (-> & H1 & Hs). specialize (IH o1 _ w1 H1 (incl_tran Hs Hw0)). destruct (session act actions o1 w1) as [o2 rs w2|o2 w2|]; cbn [ends_or ret] in *; [|contradiction|].
      * destruct IH as (d' & He & Hd). exists d'. split; [now constructor|exact Hd].
      * destruct IH as (-> & done & b & rest & seen & d' & -> & He & Hd). split; [reflexivity|]. exists (a :: done), b, rest, (Some (snd (spec d a)) :: seen), d'. split; [reflexivity|]. split; [now constructor|exact Hd].
    + destruct Ha as (-> & H1 & Hs & Hw). assert (someone_throws w0 \/ may d a) as Hm by (destruct Hw as [Hw|Hw]; [left; apply Hw0, Hw|now right]).
      specialize (IH o _ w1 H1 (incl_tran Hs Hw0)). destruct (session act actions o w1) as [o2 rs w2|o2 w2|]; cbn [ends_or ret] in *; [|contradiction|].
      * destruct IH as (d' & He & Hd). exists d'. split; [now constructor|exact Hd].
      * destruct IH as (-> & done & b & rest & seen & d' & -> & He & Hd). split; [reflexivity|]. exists (a :: done), b, rest, (None :: seen), d'. split; [reflexivity|]. split; [now constructor|exact Hd].
    + destruct Ha as (-> & Ha). cbn. split; [reflexivity|]. exists [], a, actions, [], d. split; [reflexivity|]. split; [constructor|exact Ha].
Qed.
End Sessions.

Section Lives.
Context {K T : Type} (moved : K * T -> K * T) (equal : K -> K -> bool) (Heq : equivalence equal).
Local Notation element := (K * T)%type.
Lemma linear_life maxc actions (w : world element) : unused_names w -> 1 <= maxc ->
  ends_or (linear_map_life moved equal maxc actions tt w)
    (fun _ seen w' => same (heap w') (heap w) /\ exists d, explained (dictionary_act equal) (fun _ _ => someone_throws w) no_entries actions seen d) (fun _ _ => False)
    (exists done a rest seen d, actions = done ++ a :: rest /\ explained (dictionary_act equal) (fun _ _ => someone_throws w) no_entries done seen d /\ inserts_new d a /\ maxc < 2 * keys d).
Proof.
  intros Hu Hmax. unfold linear_map_life, with_local. pose proof (PropsVec.C38_default element 0 maxc w (Nat.le_0_l _) Hu) as Hd.
  destruct (bv_default 0 tt w) as [x o w0|x w0|] eqn:Ed; cbn [ends] in Hd; [|cbn in Ed; discriminate|contradiction].
  destruct Hd as (Hd & _). assert (w0 = w) as -> by (cbn in Ed; inversion Ed; reflexivity).
  set (holds := fun o d w' => exists m, vec_holds maxc (heap w) o m w' /\ distinct equal m /\ represents equal m d).
  assert (Hact : forall o d w1 a, holds o d w1 -> ends_or (mem_linear_act moved equal (bounded_vector moved 0 maxc) a o w1)
    (fun o' r w' => r = snd (dictionary_act equal d a) /\ holds o' (fst (dictionary_act equal d a)) w' /\ incl (script w') (script w1))
    (fun o' w' => o' = o /\ holds o d w' /\ incl (script w') (script w1) /\ (someone_throws w1 \/ False)) (inserts_new d a /\ maxc < 2 * keys d)).
  { intros o1 d w1 a (m & Hh & Hm & Hr).
    pose proof (linear_act_memory moved equal (bounded_vector moved 0 maxc) (vec_holds maxc (heap w)) (fun _ _ => maxc = 0) (fun o m => 1 <= maxc /\ length m = capacity_of o /\ maxc < 2 * length m)
      (vec_size moved maxc (heap w)) (vec_read moved maxc (heap w)) (vec_quiet maxc (heap w)) (vec_push moved maxc (heap w)) (vec_erase' moved maxc (heap w)) o1 m w1 a Hh) as Ha.
    destruct (linear_act_ok equal Heq m d a Hm Hr) as (m1 & Hact & Hm1 & Hr1). refine (ends_or_weaken _ _ _ _ _ _ _ Ha _ _ _); cbv beta.
    - intros o' r w' (m' & E & Hh' & Hs). rewrite Hact in E. injection E as <- <-. split; [reflexivity|]. split; [now exists m1|exact Hs].
    - intros o' w' (-> & Hh' & Hs & Hc). split; [reflexivity|]. split; [now exists m|]. split; [exact Hs|]. destruct Hc as [Hc|(k & v & _ & _ & Hc)]; [now left|lia].
    - intros (k & v & -> & Hk & _ & _ & Hc). destruct Hr as (Hr1' & Hr2). split; [exists k, v; split; [reflexivity|]; now rewrite <- Hr1', Hk|]. now rewrite <- Hr2. }
  unfold on_snd. cbn [fst snd].
  assert (holds o no_entries w) as H0. { exists []. split; [exact Hd|]. split; [intros i j a b Hi; destruct i; discriminate|split; reflexivity]. }
  pose proof (session_or _ (dictionary_act equal) holds (fun _ _ => False) _ Hact w actions o no_entries w H0 (incl_refl _)) as Hs.
  assert (Hweak : forall d l seen d', explained (dictionary_act equal) (fun (_ : @dictionary K T) _ => someone_throws w \/ False) d l seen d' -> explained (dictionary_act equal) (fun _ _ => someone_throws w) d l seen d').
  { induction 1; constructor; auto; tauto. }
  destruct (session _ actions o w) as [o2 seen w2|o2 w2|]; cbn [ends_or] in Hs; [|contradiction|].
  - destruct Hs as (d' & He & m & Hm & _). pose proof (PropsVec.C38_destroy element 0 maxc o2 m (heap w) w2 Hm) as Hx.
    destruct (bv_destroy o2 w2) as [x3 [] w3|x3 w3|]; cbn [ends ends_or] in *; [|contradiction..]. split; [exact Hx|]. exists d'. auto.
  - cbn [ends_or]. destruct Hs as (-> & done & a & rest & seen & d' & -> & He & Hd'). split; [reflexivity|]. exists done, a, rest, seen, d'. auto.
Qed.
Lemma static_linear_life capacity actions (w : world element) : unused_names w ->
  ends (static_linear_map_life moved equal capacity actions tt w)
    (fun _ seen w' => same (heap w') (heap w) /\ exists d, explained (dictionary_act equal) (fun d a => someone_throws w \/ inserts_new d a /\ keys d = capacity) no_entries actions seen d) (fun _ _ => False).
Proof.
  intros Hu. unfold static_linear_map_life, with_local. pose proof (default_svec capacity w Hu) as Hd.
  pose proof (StaticPrograms.calm_default (V := element) capacity tt w) as Hs0.
  destruct (sv_default capacity tt w) as [x o w0|x w0|]; cbn [ends] in Hd; [|contradiction..]. cbn in Hs0. destruct Hs0 as [Hs0 _].
  set (holds := fun o d w' => exists m, static_holds capacity (heap w) o m w' /\ distinct equal m /\ represents equal m d).
  assert (Hact : forall o d w1 a, holds o d w1 -> ends_or (mem_linear_act moved equal (static_vector capacity) a o w1)
    (fun o' r w' => r = snd (dictionary_act equal d a) /\ holds o' (fst (dictionary_act equal d a)) w' /\ incl (script w') (script w1))
    (fun o' w' => o' = o /\ holds o d w' /\ incl (script w') (script w1) /\ (someone_throws w1 \/ inserts_new d a /\ keys d = capacity)) False).
  { intros o1 d w1 a (m & Hh & Hm & Hr).
    pose proof (linear_act_memory moved equal (static_vector capacity) (static_holds capacity (heap w)) (fun _ m => length m = capacity) (fun o m => False)
      (static_size capacity (heap w)) (static_read capacity (heap w)) (static_quiet capacity (heap w)) (static_push moved capacity (heap w)) (static_erase' moved capacity (heap w)) o1 m w1 a Hh) as Ha.
    destruct (linear_act_ok equal Heq m d a Hm Hr) as (m1 & Hact & Hm1 & Hr1). refine (ends_or_weaken _ _ _ _ _ _ _ Ha _ _ _); cbv beta.
    - intros o' r w' (m' & E & Hh' & Hs). rewrite Hact in E. injection E as <- <-. split; [reflexivity|]. split; [now exists m1|exact Hs].
    - intros o' w' (-> & Hh' & Hs & Hc). split; [reflexivity|]. split; [now exists m|]. split; [exact Hs|]. destruct Hc as [Hc|(k & v & -> & Hk & Hc)]; [now left|right].
      destruct Hr as (Hr1' & Hr2). split; [exists k, v; split; [reflexivity|]; now rewrite <- Hr1', Hk|]. now rewrite <- Hr2.
    - intros (k & v & _ & _ & Hc). exact Hc. }
  unfold on_snd. cbn [fst snd].
  assert (holds o no_entries w0) as H0. { exists []. split; [exact Hd|]. split; [intros i j a b Hi; destruct i; discriminate|split; reflexivity]. }
  pose proof (session_or _ (dictionary_act equal) holds _ _ Hact w actions o no_entries w0 H0 Hs0) as Hs.
  destruct (session _ actions o w0) as [o2 seen w2|o2 w2|]; cbn [ends_or] in Hs; [|contradiction|].
  - destruct Hs as (d' & He & m & Hm & _). pose proof (PropsVec.C36_destroy element capacity o2 m (heap w) w2 Hm) as Hx.
    destruct (sv_destroy capacity o2 w2) as [x3 [] w3|x3 w3|]; cbn [ends ends_or] in *; [|contradiction..]. split; [exact Hx|]. now exists d'.
  - destruct Hs as (_ & done & a & rest & seen & d' & _ & _ & []).
Qed.

(** What inserting and erasing do with the elements themselves. *)
Lemma linear_insert_vector maxc others o m w key mapped : 1 <= maxc -> is_vector 0 maxc o m others w ->
  ends_or (mem_linear_lazy_insert moved equal (bounded_vector moved 0 maxc) key mapped o w)
    (fun o' r w' => match element_of equal m key with
       | Some e => snd r = false /\ o' = o /\ is_vector 0 maxc o m others w' /\ nth_error m (fst r) = Some e
       | None => r = (length m, true) /\ is_vector 0 maxc o' (m ++ [(key, mapped)]) others w'
       end)
    (fun o' w' => o' = o /\ is_vector 0 maxc o m others w' /\ someone_throws w)
    (element_of equal m key = None /\ length m = capacity_of o /\ maxc < 2 * length m).
Proof.
  intros Hpos H. unfold mem_linear_lazy_insert. destruct (linear_find_ok equal m key) as (Hle & Hit).
  pose proof (linear_find_reads equal (bounded_vector moved 0 maxc) (vec_holds maxc others) (vec_size moved maxc others) (vec_read moved maxc others) o m w key H) as Hr.
  set (it := linear_find equal m key) in *. eapply ends_or_reading; [exact Hr| |].
  2:{ intros w1 Hq Ht. split; [reflexivity|]. split; [eapply (vec_quiet maxc others); eauto|exact Ht]. }
  intros w1 Hq. pose proof (vec_quiet maxc others _ _ _ _ H Hq) as H1. unfold bind at 1, get at 1. rewrite (vec_size moved maxc others _ _ _ H).
  destruct (Nat.eqb_spec it (length m)) as [Ei|Ei]; cbn [negb].
  - assert (element_of equal m key = None) as Hn. { rewrite <- Hit, Ei. apply nth_error_None. lia. } rewrite Hn.
    pose proof (vec_push moved maxc others o m (key, mapped) w1 H1) as Hp. unfold bind.
    destruct (lazy_push_back moved (bounded_vector moved 0 maxc) (Supply (key, mapped)) o w1) as [o2 [] w2|o2 w2|]; cbn [ends_or ret get] in *.
    + destruct Hp as [Hp _]. rewrite (vec_size moved maxc others _ _ _ Hp), app_length. cbn [length]. split; [f_equal; lia|exact Hp].
    + destruct Hp as (-> & Hp & _ & [Ht|Ht]); [|lia]. split; [reflexivity|]. split; [exact Hp|]. eapply quiet_throws; eauto.
    + destruct Hp as (-> & _ & Hc & Hm). auto.
  - cbn [ends_or ret]. destruct (element_of equal m key) as [e|] eqn:E; cbn [fst snd].
    + split; [reflexivity|]. split; [reflexivity|]. split; [exact H1|exact Hit].
    + exfalso. apply nth_error_None in Hit. lia.
Qed.
Lemma linear_erase_vector maxc others o m w key : is_vector 0 maxc o m others w -> distinct equal m ->
  ends (mem_linear_keyed_erase moved equal (bounded_vector moved 0 maxc) key o w)
    (fun o' r w' => is_vector 0 maxc o' (filter (fun e => negb (equal key (fst e))) m) others w' /\ r = match element_of equal m key with Some _ => 1 | None => 0 end)
    (fun o' w' => o' = o /\ is_vector 0 maxc o m others w' /\ someone_throws w).
Proof.
  intros H Hd.
  pose proof (linear_act_memory moved equal (bounded_vector moved 0 maxc) (vec_holds maxc others) (fun _ _ => maxc = 0) (fun o m => 1 <= maxc /\ length m = capacity_of o /\ maxc < 2 * length m)
      (vec_size moved maxc others) (vec_read moved maxc others) (vec_quiet maxc others) (vec_push moved maxc others) (vec_erase' moved maxc others) o m w (Erase key) H) as Ha.
  cbn [mem_linear_act linear_act] in Ha. unfold bind at 1 in Ha. destruct (linear_keyed_erase_ok equal Heq m key Hd) as (m1 & n & E & _ & Hm1 & _ & Hn & _). rewrite E in Ha.
  destruct (mem_linear_keyed_erase moved equal (bounded_vector moved 0 maxc) key o w) as [o2 r2 w2|o2 w2|]; cbn [ends ends_or ret] in *.
  - destruct Ha as (m2 & Hm2 & Hh & _). injection Hm2 as <- <-. rewrite <- Hm1. split; [exact Hh|exact Hn].
  - destruct Ha as (-> & Hh & _ & [Ht|(k & v & Hk & _)]); [auto|discriminate].
  - destruct Ha as (_ & k & v & Hk & _). discriminate.
Qed.
Lemma supplies (elements : list element) h : Forall2 (makes h) (map Supply elements) elements.
Proof. induction elements; constructor; [reflexivity|assumption]. Qed.
Lemma remove_vector maxc others o m w sf m' n : is_vector 0 maxc o m others w -> remove_duplicates equal (S (length m - sf)) m sf (length m) = Some m' -> n <= sf -> sf <= length m ->
  ends (mem_remove_duplicates equal (bounded_vector moved 0 maxc) (S (length m - sf)) sf (length m) o w) (fun o' _ w' => is_vector 0 maxc o' m' others w')
    (fun o' w' => o' = o /\ someone_throws w /\ exists q, is_vector 0 maxc o q others w' /\ Permutation q m /\ firstn n q = firstn n m).
Proof.
  intros Hv Hm Hn Hs. refine (FlatMemoryProofs2.ends_weaken _ _ _ _ _ (remove_memory equal (bounded_vector moved 0 maxc) (vec_holds maxc others)
    (vec_read moved maxc others) (vec_quiet maxc others) (vec_cut moved maxc others) (vec_store moved maxc others) _ o m w sf (length m) m' n Hv Hm Hn _) _ _); cbv beta; [lia|tauto|].
  intros o' w' (-> & Ht & q & H). split; [reflexivity|]. split; [exact Ht|]. exists q. exact H.
Qed.
Lemma insert_range_vector maxc o m elements others w : 1 <= maxc -> is_vector 0 maxc o m others w -> distinct equal m ->
  ends (mem_linear_insert moved equal (bounded_vector moved 0 maxc) true elements o w)
    (fun o' _ w' => exists r, is_vector 0 maxc o' (m ++ r) others w' /\ distinct equal (m ++ r) /\ incl r elements /\
       forall e, In e elements -> exists e', In e' (m ++ r) /\ equal (fst e) (fst e') = true)
    (fun o' w' => (is_vector 0 maxc o' m others w' /\ o' = o /\ (someone_throws w \/ capacity_of o < length m + length elements /\ maxc < grown o (length m + length elements))) \/
       (someone_throws w /\ exists q, is_vector 0 maxc o' (m ++ q) others w' /\ Permutation q elements)).
Proof.
  intros H1 Hv Hd. pose proof (PropsVec.C33_append _ moved 0 maxc (map Supply elements) elements o m others w H1 Hv (supplies elements _)) as Ha.
  pose proof (evolves_append_sized moved _ less_script_evolution 0 maxc 1 (evolves_default _ less_script_evolution 0) (map Supply elements) o w) as He.
  unfold mem_linear_insert, bind, get. destruct (append moved _ _ o w) as [o1 [] w1|o1 w1|]; cbn [ends] in Ha; [| |contradiction].
  - destruct Ha as (Hv1 & _). cbn [bounded_vector c_size]. rewrite (vec_size moved maxc others o m w Hv : b_size o = length m), (vec_size moved maxc others o1 _ w1 Hv1 : b_size o1 = length (m ++ elements)).
    destruct (remove_ok equal Heq (S (length elements)) m elements [] (le_n _) Hd) as (r & Hr & H2 & H3 & H4). rewrite app_nil_r in Hr.
    replace (length m + length elements) with (length (m ++ elements)) in Hr by apply app_length.
    assert (length (m ++ elements) - length m = length elements) as El by (rewrite app_length; lia). rewrite <- El in Hr.
    refine (FlatMemoryProofs2.ends_weaken _ _ _ _ _ (remove_vector maxc others o1 (m ++ elements) w1 (length m) _ (length m) Hv1 Hr (le_n _) _) _ _); cbv beta.
    + rewrite app_length. lia.
    + intros o' _ w' Hv'. exists r. auto.
    + intros o' w' (-> & Ht & q & Hq & Hp & Hf). right. split; [apply He, Ht|]. rewrite firstn_app, Nat.sub_diag, firstn_all in Hf. cbn [firstn] in Hf. rewrite app_nil_r in Hf.
      rewrite <- (firstn_skipn (length m) q) in Hq, Hp. rewrite Hf in Hq, Hp. exists (skipn (length m) q). split; [exact Hq|]. now apply Permutation_app_inv_l in Hp.
  - cbn [ends]. destruct Ha as (Hu & Ht). left. split; [assert (o1 = o) as -> by apply Hu; eapply untouched_vec; [exact Hv|exact Hu]|]. split; [apply Hu|]. now rewrite app_length in Ht.
Qed.
Lemma from_range_vector maxc elements (w : world element) : unused_names w -> length elements <= maxc ->
  ends (mem_linear_from moved equal maxc elements tt w)
    (fun _ o w' => exists r, is_vector 0 maxc o r (heap w) w' /\ distinct equal r /\ incl r elements /\
       forall e, In e elements -> exists e', In e' r /\ equal (fst e) (fst e') = true)
    (fun _ w' => same (heap w') (heap w) /\ someone_throws w).
Proof.
  intros Hu Hl. pose proof (PropsVec.C38_from_range _ moved 0 maxc false (map Supply elements) elements w (Nat.le_0_l _) Hu (supplies elements _) Hl) as Hf.
  pose proof (VecPrograms.calm_from moved 0 maxc (Nat.le_0_l _) (map Supply elements) tt w) as Hs.
  unfold mem_linear_from. destruct (bv_from moved 0 maxc false _ tt w) as [x o w1|x w1|]; cbn [ends] in Hf; [| |contradiction].
  2: { cbn. destruct Hf as (Hf & Ht). auto. }
  destruct Hs as (Hs & _). destruct Hf as (Hv & _). rewrite (vec_size moved maxc (heap w) o _ w1 Hv : b_size o = length elements).
  destruct (remove_ok equal Heq (S (length elements)) [] elements [] (le_n _)) as (r & Hr & H2 & H3 & H4). { intros i j a b Hi. destruct i; discriminate. }
  cbn [app length Nat.add] in Hr. rewrite app_nil_r in Hr.
  pose proof (remove_vector maxc (heap w) o elements w1 0 r 0 Hv) as Hx. rewrite Nat.sub_0_r in Hx. specialize (Hx Hr (le_n _) (Nat.le_0_l _)).
  destruct (mem_remove_duplicates _ _ _ _ _ o w1) as [o2 [] w2|o2 w2|]; cbn [ends] in Hx |- *; [| |contradiction].
  - exists r. auto.
  - destruct Hx as (-> & Ht & q & Hq & _). pose proof (PropsVec.C38_destroy element 0 maxc o q (heap w) w2 Hq) as Hy.
    destruct (bv_destroy o w2) as [x3 [] w3|x3 w3|]; cbn [ends] in *; [|contradiction..]. split; [exact Hy|]. apply Hs, Ht.
Qed.
End Lives.
