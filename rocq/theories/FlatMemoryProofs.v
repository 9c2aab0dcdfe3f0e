(** * Proofs for flat maps in memory *)

From Coq Require Import List Arith Bool Lia.
From Verif Require Import Mem SpecVec Vec SpecSort SpecUnique FlatMap SpecMap SortLemmas VecHistory FlatMapProofs FlatMapProofs2 Keyed SpecDict KeyedProofs FlatMemory.
From Verif Require Algo.
Import ListNotations.
Local Open Scope nat_scope.

(** Only the script has become shorter. *)
Definition quiet {V} (w w' : world V) : Prop := heap w' = heap w /\ next w' = next w /\ incl (script w') (script w).
Lemma quiet_refl {V} (w : world V) : quiet w w. Proof. repeat split; auto using incl_refl. Qed.
Lemma quiet_trans {V} (w w' w'' : world V) : quiet w w' -> quiet w' w'' -> quiet w w''.
Proof. intros (A1 & A2 & A3) (B1 & B2 & B3). repeat split; try congruence. eapply incl_tran; eauto. Qed.
Lemma quiet_throws {V} (w w' : world V) : quiet w w' -> someone_throws w' -> someone_throws w.
Proof. intros (_ & _ & H) Ht. apply H, Ht. Qed.

(** A computation that only looks. *)
Definition reading {V X A} (m : M V X A) (x : X) (w : world V) (a : A) : Prop :=
  match m x w with
  | Ret x' a' w' => x' = x /\ quiet w w' /\ a' = a
  | Exc x' w' => x' = x /\ quiet w w' /\ someone_throws w
  | Bad _ => False
  end.
Lemma reading_ret {V X A} (x : X) (w : world V) (a : A) : reading (ret a) x w a.
Proof. repeat split; auto using incl_refl. Qed.
Lemma reading_get {V X} (x : X) (w : world V) : reading get x w x.
Proof. repeat split; auto using incl_refl. Qed.
Lemma reading_may_throw {V X} (x : X) (w : world V) : reading may_throw x w tt.
Proof.
  unfold reading, may_throw. destruct (script w) as [|[] s] eqn:E.
  - repeat split; auto using incl_refl.
  - repeat split; cbn; try (rewrite E; apply incl_tl, incl_refl). unfold someone_throws. rewrite E. now left.
  - repeat split; cbn. rewrite E. apply incl_tl, incl_refl.
Qed.
Lemma reading_bind {V X A B} (m : M V X A) (k : A -> M V X B) x w a b :
  reading m x w a -> (forall w', quiet w w' -> reading (k a) x w' b) -> reading (bind m k) x w b.
Proof.
  unfold reading, bind. intros Hm Hk. destruct (m x w) as [x' a' w'|x' w'|]; auto. destruct Hm as (-> & Hq & ->). specialize (Hk w' Hq).
  destruct (k a x w') as [x' b' w''|x' w''|]; auto.
  - destruct Hk as (-> & Hq' & ->). repeat split; auto; eapply quiet_trans; eauto.
  - destruct Hk as (-> & Hq' & Ht). split; [reflexivity|]. split; [eapply quiet_trans; eauto|eapply quiet_throws; eauto].
Qed.
Lemma ends_reading {V X A B} (m : M V X A) (k : A -> M V X B) x w a Q E :
  reading m x w a -> (forall w', quiet w w' -> ends (k a x w') Q E) -> (forall w', quiet w w' -> someone_throws w -> E x w') -> ends (bind m k x w) Q E.
Proof.
  unfold reading, bind, ends. intros Hm Hk He. destruct (m x w) as [x' a' w'|x' w'|]; auto.
  - destruct Hm as (-> & Hq & ->). exact (Hk w' Hq).
  - destruct Hm as (-> & Hq & Ht). exact (He w' Hq Ht).
Qed.
Lemma load_quiet {V X} (p : ptr) i (x : X) (w w' : world V) v : quiet w w' -> load p i x w = Ret x v w -> load p i x w' = Ret x v w'.
Proof.
  intros (H & _) E. unfold load, find_cell in *. rewrite H. destruct p as [b|]; [|discriminate]. destruct (heap w b) as [cs|]; [|discriminate].
  destruct (nth_error cs i) as [[c|]|]; try discriminate. now injection E as ->.
Qed.

Section Search.
Context {V X : Type} (x : X) (p : ptr) (l : list V).
Definition readable (w : world V) : Prop := forall i e, nth_error l i = Some e -> load p i x w = Ret x e w.
Lemma readable_quiet w w' : quiet w w' -> readable w -> readable w'.
Proof. intros Hq H i e Hi. eapply load_quiet; [exact Hq|]. now apply H. Qed.
Lemma reading_load w i e : readable w -> nth_error l i = Some e -> reading (load p i) x w e.
Proof. intros H Hi. unfold reading. rewrite (H i e Hi). split; [reflexivity|]. split; [apply quiet_refl|reflexivity]. Qed.
Lemma reading_test w f i e : readable w -> nth_error l i = Some e -> reading (Algo.test_at p f i) x w (f e).
Proof.
  intros H Hi. unfold Algo.test_at. eapply reading_bind; [eapply reading_load; eauto|]. intros w1 H1.
  eapply reading_bind; [apply reading_may_throw|]. intros w2 H2. apply reading_ret.
Qed.
Lemma reading_partition fuel f : forall w first count r, readable w -> partition_point_list fuel f l first count = Some r ->
  reading (Algo.partition_point_loop fuel (Algo.test_at p f) first count) x w r.
Proof.
  induction fuel as [|fuel IH]; intros w first count r H; cbn [partition_point_list Algo.partition_point_loop]; [discriminate|].
  destruct (count =? 0). { intros [= ->]. apply reading_ret. }
  destruct (nth_error l (first + count / 2)) as [e|] eqn:E; [|discriminate]. intros Hr.
  eapply reading_bind; [eapply reading_test; eauto|]. intros w' Hq. pose proof (readable_quiet _ _ Hq H). destruct (f e); apply IH; auto.
Qed.
End Search.

Lemma partition_point_fuel {V} (f : V -> bool) l fuel : forall fuel' first count r, partition_point_list fuel f l first count = Some r -> count < fuel' ->
  partition_point_list fuel' f l first count = Some r.
Proof.
  induction fuel as [|fuel IH]; intros [|fuel'] first count r; cbn [partition_point_list]; try discriminate; try lia.
  destruct (Nat.eqb_spec count 0) as [|Hc]; [auto|]. destruct (nth_error l (first + count / 2)) as [e|]; [|discriminate]. intros Hr Hf.
  assert (count / 2 < count) by (apply Nat.div_lt; lia). destruct (f e); apply IH; auto; lia.
Qed.
Lemma upper_below {K T} (key_less : K -> K -> bool) (m : list (K * T)) key up : keyed_upper_bound key_less m key = Some up -> up <= length m.
Proof.
  unfold keyed_upper_bound. destruct (point_sound (fun e : K * T => negb (key_less key (fst e))) m (S (length m)) 0 (length m)) as (r & -> & Hr & _); [lia|lia|].
  intros [= <-]. lia.
Qed.

Section Maps.
Context {K T : Type} (moved : K * T -> K * T) (key_less : K -> K -> bool) (Hlt : strict_weak_order key_less).
Local Notation element := (K * T)%type.
Local Notation world := (world element).
Context {O : Type} (C : container (V := element) O).
Local Notation same := (equivalent key_less).

Context (holds : O -> list element -> world -> Prop) (grows : O -> O -> nat -> Prop) (full : O -> nat -> Prop) (stays : O -> O -> Prop).
Hypothesis stays_refl : forall o, stays o o.
Hypothesis holds_size : forall o m w, holds o m w -> c_size C o = length m.
Hypothesis holds_read : forall o m w, holds o m w -> readable o (c_data C o) m w.
Hypothesis holds_quiet : forall o m w w', holds o m w -> quiet w w' -> holds o m w'.
Hypothesis insert_holds : forall o before rest u w, holds o (before ++ rest) w ->
  ends (insert_one moved C (length before) (Supply u) o w)
    (fun o' r w' => r = length before /\ holds o' (before ++ u :: rest) w' /\ incl (script w') (script w) /\ grows o o' (length (before ++ u :: rest)))
    (fun o' w' => o' = o /\ holds o (before ++ rest) w' /\ incl (script w') (script w) /\ (someone_throws w \/ full o (length (before ++ u :: rest)))).
Hypothesis erase_holds : forall o before ds rest w, holds o (before ++ ds ++ rest) w ->
  ends (Vec.erase moved C (length before) (length before + length ds) o w)
    (fun o' r w' => holds o' (before ++ rest) w' /\ incl (script w') (script w) /\ stays o o') (fun _ _ => False).

Lemma lower_reads o m w key it : holds o m w -> keyed_lower_bound key_less m key = Some it -> reading (mem_lower_bound key_less C key) o w it.
Proof.
  intros H E. unfold mem_lower_bound. eapply reading_bind; [apply reading_get|]. intros w' Hq. rewrite (holds_size _ _ _ H).
  unfold Algo.partition_point. eapply reading_partition; [|exact E]. eapply readable_quiet; eauto.
Qed.
Lemma upper_reads o m w key it : holds o m w -> keyed_upper_bound key_less m key = Some it -> reading (mem_upper_bound key_less C key) o w it.
Proof.
  intros H E. unfold mem_upper_bound. eapply reading_bind; [apply reading_get|]. intros w' Hq. rewrite (holds_size _ _ _ H).
  unfold Algo.partition_point. eapply reading_partition; [|exact E]. eapply readable_quiet; eauto.
Qed.
Lemma find_reads o m w key it : holds o m w -> find key_less m key = Some it -> reading (mem_find key_less C key) o w it.
Proof.
  intros H. unfold find, mem_find. destruct (keyed_lower_bound key_less m key) as [i|] eqn:E; [|discriminate]. intros Hf.
  eapply reading_bind; [eapply lower_reads; eauto|]. intros w1 H1. eapply reading_bind; [apply reading_get|]. intros w2 H2.
  rewrite (holds_size _ _ _ H). destruct (i =? length m). { injection Hf as <-. apply reading_ret. }
  destruct (nth_error m i) as [e|] eqn:En; [|discriminate]. injection Hf as <-.
  assert (readable o (c_data C o) m w2) as Hr by (eapply readable_quiet; [|eapply holds_read; eauto]; eapply quiet_trans; eauto).
  eapply reading_bind with (a := key_less key (fst e)).
  - unfold is_greater. eapply reading_bind; [apply reading_get|]. intros w3 H3.
    apply (reading_test o (c_data C o) m w3 (fun e => key_less key (fst e)) i e); [eapply readable_quiet; eauto|exact En].
  - intros w3 H3. apply reading_ret.
Qed.
Lemma equal_range_reads o m w key r : holds o m w -> keyed_equal_range key_less m key = Some r -> reading (mem_equal_range key_less C key) o w r.
Proof.
  intros H. unfold keyed_equal_range, mem_equal_range. destruct (keyed_lower_bound key_less m key) as [it|] eqn:E; [|discriminate].
  intros Hf. eapply reading_bind; [eapply lower_reads; eauto|]. intros w1 H1. eapply reading_bind; [apply reading_get|]. intros w2 H2.
  rewrite (holds_size _ _ _ H).
  assert (readable o (c_data C o) m w2) as Hr by (eapply readable_quiet; [|eapply holds_read; eauto]; eapply quiet_trans; eauto).
  destruct (partition_point_list _ _ _ it _) as [last|] eqn:E2; [|discriminate]. injection Hf as <-.
  eapply reading_bind; [unfold Algo.partition_point; eapply reading_partition; [exact Hr|]|intros w3 H3; apply reading_ret].
  eapply partition_point_fuel; [exact E2|]. lia.
Qed.

(** What happens to the storage when the map goes from [m] to [m']. *)
Definition stored (o o' : O) (m m' : list element) : Prop := length m' <= length m /\ stays o o' \/ length m' = S (length m) /\ grows o o' (length m').

Lemma firstn_length_le' (m : list element) n : n <= length m -> length (firstn n m) = n.
Proof. intros. rewrite firstn_length. lia. Qed.

Lemma insert_memory o m w key mapped m' position inserted : holds o m w -> flat key_less m -> lazy_insert key_less m key mapped = Some (m', position, inserted) ->
  ends (mem_lazy_insert moved key_less C key mapped o w)
    (fun o' r w' => r = (position, inserted) /\ holds o' m' w' /\ incl (script w') (script w) /\ stored o o' m m')
    (fun o' w' => o' = o /\ holds o m w' /\ incl (script w') (script w) /\
       (someone_throws w \/ element_of same m key = None /\ full o (S (length m)))).
Proof.
  intros H Hm Hi. destruct (lazy_insert_ok key_less Hlt m key mapped Hm) as (m1 & p1 & i1 & Hi1 & _ & Hcase).
  rewrite Hi in Hi1. injection Hi1 as <- <- <-. unfold lazy_insert in Hi.
  destruct (keyed_upper_bound key_less m key) as [up|] eqn:Eu; [|discriminate].
  unfold mem_lazy_insert. eapply ends_reading; [eapply upper_reads; eauto| |].
  2:{ intros w1 H1 Ht. split; [reflexivity|]. split; [eapply holds_quiet; eauto|]. split; [apply H1|]. now left. }
  intros w1 H1.
  assert (Hup : up <= length m).
  { eapply upper_below; eauto. }
  assert (Hadd : forall w2, quiet w w2 -> m' = insert_at m up (key, mapped) -> position = up -> inserted = true -> element_of same m key = None ->
    ends (bind (insert_one moved C up (Supply (key, mapped))) (fun it => ret (it, true)) o w2)
    (fun o' r w' => r = (position, inserted) /\ holds o' m' w' /\ incl (script w') (script w) /\ stored o o' m m')
    (fun o' w' => o' = o /\ holds o m w' /\ incl (script w') (script w) /\
       (someone_throws w \/ element_of same m key = None /\ full o (S (length m))))).
  { intros w2 Hq -> -> -> Hnone. pose proof (insert_holds o (firstn up m) (skipn up m) (key, mapped) w2) as Hins.
    rewrite firstn_skipn, firstn_length_le' in Hins by exact Hup.
    assert (Hl : length (firstn up m ++ (key, mapped) :: skipn up m) = S (length m)).
    { rewrite app_length. cbn [length]. rewrite firstn_length, skipn_length. lia. }
    rewrite Hl in Hins. specialize (Hins (holds_quiet _ _ _ _ H Hq)). unfold bind, ends in *.
    destruct (insert_one moved C up (Supply (key, mapped)) o w2) as [o' r w'|o' w'|]; [| |contradiction].
    - cbn [ret]. destruct Hins as (-> & Hh & Hs & Hg). split; [reflexivity|]. split; [exact Hh|]. split; [eapply incl_tran; [exact Hs|apply Hq]|].
      right. unfold insert_at. rewrite Hl. split; [reflexivity|exact Hg].
    - destruct Hins as (-> & Hh & Hs & Hc). split; [reflexivity|]. split; [exact Hh|]. split; [eapply incl_tran; [exact Hs|apply Hq]|].
      destruct Hc as [Hc|Hc]; [left; eapply quiet_throws; eauto|right; auto]. }
  destruct up as [|previous]; cbn [Nat.eqb].
  - injection Hi as <- <- <-. destruct (element_of same m key) as [e|] eqn:Ee; [destruct Hcase; discriminate|]. apply Hadd; auto.
  - destruct (nth_error m previous) as [e|] eqn:En; [|discriminate]. replace (S previous - 1) with previous by lia.
    eapply ends_reading with (a := key_less (fst e) key).
    + unfold is_less. eapply reading_bind; [apply reading_get|]. intros w3 H3.
      apply (reading_test o (c_data C o) m w3 (fun e => key_less (fst e) key) previous e); [|exact En].
      eapply readable_quiet; [exact H3|]. eapply readable_quiet; [exact H1|]. eapply holds_read; eauto.
    + intros w2 H2. assert (quiet w w2) as Hq by (eapply quiet_trans; eauto). destruct (key_less (fst e) key); cbn [negb] in Hi; injection Hi as <- <- <-.
      * destruct (element_of same m key) as [e'|] eqn:Ee; [destruct Hcase; discriminate|]. apply Hadd; auto.
      * cbn. split; [reflexivity|]. split; [eapply holds_quiet; eauto|]. split; [apply Hq|]. left. split; [lia|apply stays_refl].
    + intros w2 H2 Ht. split; [reflexivity|]. assert (quiet w w2) as Hq by (eapply quiet_trans; eauto). split; [eapply holds_quiet; eauto|].
      split; [apply Hq|]. left. exact (quiet_throws _ _ H1 Ht).
Qed.
Lemma multi_insert_memory o m w key mapped m' position : holds o m w -> multi_flat key_less m -> multi_lazy_insert key_less m key mapped = Some (m', position) ->
  ends (mem_multi_lazy_insert moved key_less C key mapped o w)
    (fun o' r w' => r = position /\ holds o' m' w' /\ incl (script w') (script w) /\ stored o o' m m')
    (fun o' w' => o' = o /\ holds o m w' /\ incl (script w') (script w) /\ (someone_throws w \/ full o (S (length m)))).
Proof.
  intros H Hm Hi. unfold multi_lazy_insert in Hi. destruct (keyed_upper_bound key_less m key) as [up|] eqn:Eu; [|discriminate]. injection Hi as <- <-.
  assert (Hup : up <= length m).
  { eapply upper_below; eauto. }
  unfold mem_multi_lazy_insert. eapply ends_reading; [eapply upper_reads; eauto| |].
  2:{ intros w1 H1 Ht. split; [reflexivity|]. split; [eapply holds_quiet; eauto|]. split; [apply H1|]. now left. }
  intros w2 Hq. pose proof (insert_holds o (firstn up m) (skipn up m) (key, mapped) w2) as Hins.
  rewrite firstn_skipn, firstn_length_le' in Hins by exact Hup.
  assert (Hl : length (firstn up m ++ (key, mapped) :: skipn up m) = S (length m)).
  { rewrite app_length. cbn [length]. rewrite firstn_length, skipn_length. lia. }
  rewrite Hl in Hins. specialize (Hins (holds_quiet _ _ _ _ H Hq)). unfold ends in *.
  destruct (insert_one moved C up (Supply (key, mapped)) o w2) as [o' r w'|o' w'|]; [| |contradiction].
  - destruct Hins as (-> & Hh & Hs & Hg). split; [reflexivity|]. split; [exact Hh|]. split; [eapply incl_tran; [exact Hs|apply Hq]|].
    right. unfold insert_at. rewrite Hl. split; [reflexivity|exact Hg].
  - destruct Hins as (-> & Hh & Hs & Hc). split; [reflexivity|]. split; [exact Hh|]. split; [eapply incl_tran; [exact Hs|apply Hq]|].
    destruct Hc as [Hc|Hc]; [left; eapply quiet_throws; eauto|right; auto].
Qed.
Lemma erase_memory o m w first last : holds o m w -> first <= last <= length m ->
  ends (Vec.erase moved C first last o w)
    (fun o' r w' => holds o' (FlatMap.erase m first last) w' /\ incl (script w') (script w) /\ stored o o' m (FlatMap.erase m first last)) (fun _ _ => False).
Proof.
  intros H Hb. pose proof (erase_holds o (firstn first m) (firstn (last - first) (skipn first m)) (skipn last m) w) as He.
  assert (Em : firstn first m ++ firstn (last - first) (skipn first m) ++ skipn last m = m).
  { rewrite <- (firstn_skipn first m) at 4. f_equal. rewrite <- (firstn_skipn (last - first) (skipn first m)) at 2. f_equal.
    rewrite skipn_add. f_equal. lia. }
  rewrite Em in He. specialize (He H). rewrite firstn_length_le' in He by lia. rewrite firstn_length, skipn_length in He.
  replace (first + Nat.min (last - first) (length m - first)) with last in He by lia.
  unfold ends in *. destruct (Vec.erase moved C first last o w) as [o' r w'|o' w'|]; auto. destruct He as (Hh & Hs & Hst).
  split; [exact Hh|]. split; [exact Hs|]. left. split; [|exact Hst]. unfold FlatMap.erase. rewrite app_length, firstn_length, skipn_length. lia.
Qed.

Lemma act_memory o m w a : holds o m w -> flat key_less m ->
  ends (mem_act moved key_less C a o w)
    (fun o' r w' => exists m', flat_act key_less m a = Some (m', r) /\ holds o' m' w' /\ incl (script w') (script w) /\ stored o o' m m')
    (fun o' w' => o' = o /\ holds o m w' /\ incl (script w') (script w) /\
       (someone_throws w \/ exists k v, a = Insert k v /\ element_of same m k = None /\ full o (S (length m)))).
Proof.
  intros H Hm. destruct a as [k v|k|k|]; cbn [mem_act flat_act].
  - unfold keyed_insert. destruct (lazy_insert_ok key_less Hlt m k v Hm) as (m' & p & b & Hi & _ & _). rewrite Hi.
    pose proof (insert_memory o m w k v m' p b H Hm Hi) as Hx. unfold bind, ends in *.
    destruct (mem_lazy_insert moved key_less C k v o w) as [o' r w'|o' w'|]; auto.
    + destruct Hx as (-> & Hx). exists m'. split; [reflexivity|exact Hx].
    + destruct Hx as (-> & H1 & H2 & H3). repeat split; auto. destruct H3 as [H3|[H3 H4]]; [now left|right]. exists k, v. auto.
  - unfold keyed_erase, mem_keyed_erase. destruct (find_ok key_less Hlt m k (flat_multi key_less Hlt m Hm)) as (it & Hf & Hle & _). rewrite Hf.
    assert (Hthrow : forall w1, quiet w w1 -> someone_throws w -> o = o /\ holds o m w1 /\ incl (script w1) (script w) /\
      (someone_throws w \/ exists k' v, (Erase k : action K T) = Insert k' v /\ element_of same m k' = None /\ full o (S (length m)))).
    { intros w1 H1 Ht. split; [reflexivity|]. split; [eapply holds_quiet; eauto|]. split; [apply H1|now left]. }
    assert (Hr : forall w1, quiet w w1 -> reading (mem_find key_less C k) o w1 it) by (intros w1 H1; eapply find_reads; eauto).
    destruct (Nat.eqb_spec it (length m)) as [Ei|Ei].
    + unfold bind. specialize (Hr w (quiet_refl w)). unfold reading in Hr. destruct (mem_find key_less C k o w) as [o' r w'|o' w'|]; [| |contradiction].
      * destruct Hr as (-> & Hq & ->). unfold get. rewrite (holds_size _ _ _ H), Ei, Nat.eqb_refl. cbn. exists m.
        split; [reflexivity|]. split; [eapply holds_quiet; eauto|]. split; [apply Hq|]. left. split; [lia|apply stays_refl].
      * destruct Hr as (-> & Hq & Ht). cbn. apply Hthrow; auto.
    + assert (it <? length m = true) as -> by (apply Nat.ltb_lt; lia).
      unfold bind. specialize (Hr w (quiet_refl w)). unfold reading in Hr. destruct (mem_find key_less C k o w) as [o' r w'|o' w'|]; [| |contradiction].
      * destruct Hr as (-> & Hq & ->). unfold get. rewrite (holds_size _ _ _ H), (proj2 (Nat.eqb_neq it (length m)) Ei).
        unfold erase_one, bind, get. rewrite (holds_size _ _ _ H), (proj2 (Nat.eqb_neq it (length m)) Ei). cbn [negb require ret].
        pose proof (erase_memory o m w' it (S it) (holds_quiet _ _ _ _ H Hq)) as He. replace (it + 1) with (S it) by lia. unfold ends, ret in *.
        destruct (Vec.erase moved C it (S it) o w') as [o' r w2|o' w2|]; [|destruct He; lia|apply He; lia].
        destruct He as (Hh & Hs & Hst); [lia|]. eexists. split; [reflexivity|]. split; [exact Hh|]. split; [eapply incl_tran; [exact Hs|apply Hq]|exact Hst].
      * destruct Hr as (-> & Hq & Ht). cbn. apply Hthrow; auto.
  - unfold mem_lookup_value, lookup_value, lookup. destruct (find_ok key_less Hlt m k (flat_multi key_less Hlt m Hm)) as (it & Hf & Hle & _). rewrite Hf.
    assert (Hthrow : forall w1, quiet w w1 -> someone_throws w -> o = o /\ holds o m w1 /\ incl (script w1) (script w) /\
      (someone_throws w \/ exists k' v, (Lookup k : action K T) = Insert k' v /\ element_of same m k' = None /\ full o (S (length m)))).
    { intros w1 H1 Ht. split; [reflexivity|]. split; [eapply holds_quiet; eauto|]. split; [apply H1|now left]. }
    pose proof (find_reads o m w k it H Hf) as Hr. unfold bind. unfold reading in Hr. destruct (mem_find key_less C k o w) as [o' r w'|o' w'|]; [| |contradiction].
    2:{ destruct Hr as (-> & Hq & Ht). cbn. apply Hthrow; auto. }
    destruct Hr as (-> & Hq & ->). unfold get. rewrite (holds_size _ _ _ H). destruct (Nat.eqb_spec it (length m)) as [Ei|Ei].
    + cbn. exists m. split; [reflexivity|]. split; [eapply holds_quiet; eauto|]. split; [apply Hq|]. left. split; [lia|apply stays_refl].
    + destruct (nth_error m it) as [e|] eqn:En; [|apply nth_error_None in En; lia].
      rewrite (readable_quiet o _ m _ _ Hq (holds_read _ _ _ H) it e En). cbn. exists m. split; [reflexivity|]. split; [eapply holds_quiet; eauto|]. split; [apply Hq|].
      left. split; [lia|apply stays_refl].
  - cbn. rewrite (holds_size _ _ _ H). exists m. split; [reflexivity|]. split; [exact H|]. split; [apply incl_refl|]. left. split; [lia|apply stays_refl].
Qed.

Lemma read_range_reads o m n : forall w first, readable o (c_data C o) m w -> first + n <= length m ->
  reading (read_range C first n) o w (map snd (firstn n (skipn first m))).
Proof.
  induction n as [|n IH]; intros w first H Hb; cbn [read_range]. { rewrite firstn_O. apply reading_ret. }
  destruct (nth_error m first) as [e|] eqn:En; [|apply nth_error_None in En; lia].
  eapply reading_bind; [apply reading_get|]. intros w1 H1. pose proof (readable_quiet _ _ _ _ _ H1 H) as R1.
  eapply reading_bind; [eapply reading_load; eauto|]. intros w2 H2. pose proof (readable_quiet _ _ _ _ _ H2 R1) as R2.
  eapply reading_bind; [apply IH; [exact R2|lia]|]. intros w3 H3.
  replace (skipn first m) with (e :: skipn (S first) m); [apply reading_ret|].
  clear -En. revert first En. induction m as [|a m IH]; intros [|first] En; try discriminate; cbn in *. { now injection En as ->. } now apply IH.
Qed.
Lemma multi_act_memory o m w a : holds o m w -> multi_flat key_less m ->
  ends (mem_multi_act moved key_less C a o w)
    (fun o' r w' => exists m', multi_act key_less m a = Some (m', r) /\ holds o' m' w' /\ incl (script w') (script w) /\ stored o o' m m')
    (fun o' w' => o' = o /\ holds o m w' /\ incl (script w') (script w) /\
       (someone_throws w \/ exists k v, a = MultiInsert k v /\ full o (S (length m)))).
Proof.
  intros H Hm. destruct a as [k v|k|k|]; cbn [mem_multi_act multi_act].
  - unfold multi_keyed_insert. destruct (multi_lazy_insert_ok key_less Hlt m k v Hm) as (p & Hi & _). rewrite Hi. set (m1 := firstn p m ++ (k, v) :: skipn p m) in *.
    pose proof (multi_insert_memory o m w k v m1 p H Hm Hi) as Hx. unfold bind, ends in *.
    destruct (mem_multi_lazy_insert moved key_less C k v o w) as [o' r w'|o' w'|]; auto.
    + destruct Hx as (-> & Hx). exists m1. split; [reflexivity|exact Hx].
    + destruct Hx as (-> & H1 & H2 & H3). repeat split; auto. destruct H3 as [H3|H3]; [now left|right]. exists k, v. auto.
  - unfold multi_keyed_erase, mem_multi_keyed_erase. destruct (keyed_equal_range_ok key_less Hlt m k Hm) as (lo & hi & He & Hb & _). rewrite He.
    pose proof (equal_range_reads o m w k (lo, hi) H He) as Hr. unfold bind. unfold reading in Hr.
    destruct (mem_equal_range key_less C k o w) as [o' r w'|o' w'|]; [| |contradiction].
    + destruct Hr as (-> & Hq & ->). cbn [fst snd]. pose proof (erase_memory o m w' lo hi (holds_quiet _ _ _ _ H Hq) Hb) as Hx. unfold ends, ret in *.
      destruct (Vec.erase moved C lo hi o w') as [o' r w2|o' w2|]; [|contradiction|contradiction].
      destruct Hx as (Hh & Hs & Hst). eexists. split; [reflexivity|]. split; [exact Hh|]. split; [eapply incl_tran; [exact Hs|apply Hq]|exact Hst].
    + destruct Hr as (-> & Hq & Ht). cbn. split; [reflexivity|]. split; [eapply holds_quiet; eauto|]. split; [apply Hq|now left].
  - destruct (keyed_equal_range_ok key_less Hlt m k Hm) as (lo & hi & He & Hb & _). rewrite He.
    eapply ends_reading; [eapply equal_range_reads; eauto| |].
    2:{ intros w1 Hq Ht. split; [reflexivity|]. split; [eapply holds_quiet; eauto|]. split; [apply Hq|now left]. }
    intros w1 H1. cbn [fst snd].
    eapply ends_reading; [apply (read_range_reads o m); [eapply readable_quiet; [exact H1|]; eapply holds_read; eauto|lia]| |].
    + intros w2 H2. cbn. exists m. assert (quiet w w2) as Hq by (eapply quiet_trans; eauto).
      split; [reflexivity|]. split; [eapply holds_quiet; eauto|]. split; [apply Hq|]. left. split; [lia|apply stays_refl].
    + intros w2 H2 Ht. assert (quiet w w2) as Hq by (eapply quiet_trans; eauto). split; [reflexivity|]. split; [eapply holds_quiet; eauto|].
      split; [apply Hq|]. left. exact (quiet_throws _ _ H1 Ht).
  - cbn. rewrite (holds_size _ _ _ H). exists m. split; [reflexivity|]. split; [exact H|]. split; [apply incl_refl|]. left. split; [lia|apply stays_refl].
Qed.
End Maps.
