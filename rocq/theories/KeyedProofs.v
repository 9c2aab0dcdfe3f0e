(** * Proofs about inserting, erasing and looking up by key *)

From Coq Require Import List Arith Bool Lia.
From Verif Require Import Mem SpecSort SpecUnique FlatMap LinearMap SpecMap SortLemmas FlatMapProofs FlatMapProofs2 LinearMapProofs Keyed SpecDict.
Import ListNotations.
Local Open Scope nat_scope.

Lemma filter_none {A} (f : A -> bool) l : (forall e, In e l -> f e = false) -> filter f l = [].
Proof. induction l as [|a l IH]; intros H; [reflexivity|]. cbn. rewrite (H a) by now left. apply IH. intros e He. apply H. now right. Qed.
Lemma filter_all {A} (f : A -> bool) l : (forall e, In e l -> f e = true) -> filter f l = l.
Proof. induction l as [|a l IH]; intros H; [reflexivity|]. cbn. rewrite (H a) by now left. f_equal. apply IH. intros e He. apply H. now right. Qed.

(** Elements with a property that are next to each other *)
Lemma filter_cut {A} (f : A -> bool) (m : list A) lo hi : lo <= hi <= length m ->
  (forall i e, nth_error m i = Some e -> (f e = true <-> lo <= i < hi)) ->
  filter (fun e => negb (f e)) m = firstn lo m ++ skipn hi m /\ length (filter f m) = hi - lo /\ filter f m = firstn (hi - lo) (skipn lo m).
Proof.
  intros Hb H. assert (Hm : m = firstn lo m ++ firstn (hi - lo) (skipn lo m) ++ skipn (hi - lo) (skipn lo m)) by now rewrite !firstn_skipn.
  assert (Hs : skipn hi m = skipn (hi - lo) (skipn lo m)).
  { clear -Hb. replace hi with (hi - lo + lo) at 1 by lia. generalize (hi - lo). intros n. clear Hb. revert m n.
    induction lo as [|f IH]; intros m n; [rewrite Nat.add_0_r; reflexivity|].
    destruct m as [|a m]; [now rewrite !skipn_nil|]. replace (n + S f) with (S (n + f)) by lia. cbn [skipn]. apply IH. }
  assert (H1 : forall e, In e (firstn lo m) -> f e = false).
  { intros e He. apply In_nth_error in He as (i & Hi). rewrite firstn_skipn_nth in Hi. destruct (Nat.ltb_spec i lo); [|discriminate].
    destruct (f e) eqn:E; [|reflexivity]. apply (H i e Hi) in E. lia. }
  assert (H2 : forall e, In e (firstn (hi - lo) (skipn lo m)) -> f e = true).
  { intros e He. apply In_nth_error in He as (i & Hi). rewrite firstn_skipn_nth in Hi. destruct (Nat.ltb_spec i (hi - lo)); [|discriminate].
    rewrite nth_skipn in Hi. apply (H _ e Hi). lia. }
  assert (H3 : forall e, In e (skipn hi m) -> f e = false).
  { intros e He. apply In_nth_error in He as (i & Hi). rewrite nth_skipn in Hi.
    destruct (f e) eqn:E; [|reflexivity]. apply (H _ e Hi) in E. lia. }
  rewrite <- Hs in Hm. split.
  - rewrite Hm at 1. rewrite !filter_app. rewrite (filter_all _ (firstn lo m)) by (intros e He; now rewrite H1).
    rewrite (filter_none _ (firstn _ _)) by (intros e He; now rewrite H2). rewrite (filter_all _ (skipn hi m)) by (intros e He; now rewrite H3). reflexivity.
  - assert (filter f m = firstn (hi - lo) (skipn lo m)) as ->.
    { rewrite Hm at 1. rewrite !filter_app. rewrite (filter_none _ (firstn lo m)) by exact H1. rewrite (filter_all _ (firstn (_ - _) _)) by exact H2.
      rewrite (filter_none _ (skipn hi m)) by exact H3. cbn [app]. now rewrite app_nil_r. }
    split; [rewrite firstn_length, skipn_length; lia | reflexivity].
Qed.

(** Erasing one key from a map *)
Section Erase.
Context {K M : Type} (same : K -> K -> bool).
Notation element := (K * M)%type.
Notation element_of := (@element_of K M same).
Lemma no_element_filter (m : list element) k : element_of m k = None -> filter (fun e => negb (same k (fst e))) m = m /\ filter (fun e => same k (fst e)) m = [].
Proof.
  intros H. rewrite linear_element_none in H. split; [apply filter_all; intros e He; now rewrite H | now apply filter_none].
Qed.
Lemma element_at_filter (m : list element) k it e : (forall a b, same a b = same b a) -> (forall a b c, same a b = true -> same b c = true -> same a c = true) ->
  distinct same m -> nth_error m it = Some e -> same k (fst e) = true ->
  filter (fun e => negb (same k (fst e))) m = firstn it m ++ skipn (S it) m /\ length (filter (fun e => same k (fst e)) m) = 1.
Proof.
  intros Hsym Htrans Hd He Hk. assert (it < length m) by (apply nth_error_Some; congruence).
  destruct (filter_cut (fun e => same k (fst e)) m it (S it)) as (H1 & H2 & _); [lia| |split; [exact H1|rewrite H2; lia]].
  intros i a Ha. split.
  - intros Hs. enough (it = i) by lia. apply (Hd it i e a He Ha). apply Htrans with k; [now rewrite Hsym | exact Hs].
  - intros Hi. assert (i = it) as -> by lia. rewrite He in Ha. now injection Ha as <-.
Qed.
Lemma element_of_filter (m : list element) k k' : (forall a b, same a b = same b a) -> (forall a b c, same a b = true -> same b c = true -> same a c = true) ->
  element_of (filter (fun e => negb (same k (fst e))) m) k' = if same k k' then None else element_of m k'.
Proof.
  intros Hsym Htrans. induction m as [|e m IH]; cbn [filter SpecMap.element_of]; [now destruct (same k k')|].
  destruct (same k (fst e)) eqn:Ek; cbn [negb].
  - rewrite IH. destruct (same k k') eqn:E; [reflexivity|]. destruct (same k' (fst e)) eqn:E'; [|reflexivity].
    exfalso. assert (same k k' = true); [|congruence]. apply Htrans with (fst e); [exact Ek | now rewrite Hsym].
  - cbn [SpecMap.element_of]. destruct (same k' (fst e)) eqn:E'; [|exact IH]. destruct (same k k') eqn:E; [|reflexivity].
    exfalso. assert (same k (fst e) = true); [|congruence]. now apply Htrans with k'.
Qed.
End Erase.

Section Flat.
Context {K M : Type} (key_less : K -> K -> bool) (Hlt : strict_weak_order key_less).
Notation element := (K * M)%type.
Notation same := (equivalent key_less).

Lemma flat_is_distinct (m : list element) : flat key_less m -> distinct same m.
Proof. intros H i j a b Ha Hb Hs. eapply flat_distinct; eauto. Qed.
Lemma keyed_erase_ok (m : list element) key : flat key_less m ->
  exists m' n, keyed_erase key_less m key = Some (m', n) /\ flat key_less m' /\
    m' = filter (fun e => negb (same key (fst e))) m /\ n = length (filter (fun e => same key (fst e)) m) /\
    n = match element_of same m key with Some _ => 1 | None => 0 end.
Proof.
  intros Hm. unfold keyed_erase. destruct (find_ok key_less Hlt m key (flat_multi key_less Hlt m Hm)) as (it & -> & Hle & Hit).
  destruct (Nat.eqb_spec it (length m)) as [->|Hne].
  - rewrite (proj2 (nth_error_None m (length m))) in Hit by lia. destruct (no_element_filter same m key (eq_sym Hit)) as (H1 & H2).
    exists m, 0. rewrite H1, H2, <- Hit. auto.
  - destruct (Nat.ltb_spec it (length m)); [|lia]. destruct (nth_error m it) as [e|] eqn:E; [|apply nth_error_None in E; lia].
    symmetry in Hit. destruct (element_in key_less m key e Hit) as (_ & Hs).
    destruct (element_at_filter same m key it e) as (H1 & H2); auto.
    { intros. apply same_sym. } { apply Hlt. } { now apply flat_is_distinct. }
    do 2 eexists. split; [reflexivity|]. rewrite H1, H2, Hit. split; [|auto].
    apply (erase_ok key_less m it (S it) Hm). lia.
Qed.
Lemma keyed_equal_range_ok (m : list element) key : multi_flat key_less m ->
  exists lo hi, keyed_equal_range key_less m key = Some (lo, hi) /\ lo <= hi <= length m /\
    filter (fun e => negb (same key (fst e))) m = firstn lo m ++ skipn hi m /\ length (filter (fun e => same key (fst e)) m) = hi - lo /\
    filter (fun e => same key (fst e)) m = firstn (hi - lo) (skipn lo m).
Proof.
  intros Hm. unfold keyed_equal_range. destruct (lower_ok key_less Hlt m key Hm) as (lo & -> & Hlo & HL).
  destruct (split_point (fun e => negb (key_less key (fst e))) m) as (hi & Hhi & HU).
  { intros i j a b Hij Ha Hb Hk. apply negb_true_iff in Hk. apply negb_true_iff.
    destruct (key_less key (fst a)) eqn:E; [|reflexivity]. pose proof (Hm i j a b Hij Ha Hb) as Hab. unfold by_key in Hab.
    rewrite <- Hk. symmetry. now apply (lt_ge_trans key_less Hlt) with (fst a). }
  assert (Hlh : lo <= hi).
  { destruct (le_lt_dec lo hi) as [|L]; [assumption|exfalso]. destruct (nth_error m hi) as [e|] eqn:E; [|apply nth_error_None in E; lia].
    apply (HL hi e E) in L as L1. assert (negb (key_less key (fst e)) = false) as L2 by (destruct (negb (key_less key (fst e))) eqn:N; [apply (HU hi e E) in N; lia | reflexivity]).
    apply negb_false_iff in L2. pose proof (lt_asym key_less Hlt _ _ L1). congruence. }
  destruct (point_sound (fun e => negb (key_less key (fst e))) m (S (length m)) lo (length m - lo)) as (r & -> & Hr & _ & Hp); [lia|lia|].
  rewrite (Hp hi HU) by lia. exists lo, hi. split; [reflexivity|]. split; [lia|]. apply filter_cut; [lia|].
  intros i e He. unfold equivalent. rewrite andb_true_iff, negb_true_iff. specialize (HL i e He). specialize (HU i e He). split.
  - intros (A & B). apply negb_true_iff in A. split; [|now apply HU; rewrite A].
    destruct (le_lt_dec lo i) as [|L]; [assumption|]. apply HL in L. rewrite L in B. discriminate.
  - intros (A & B). apply HU in B. split; [now apply negb_true_iff|]. destruct (key_less (fst e) key) eqn:E; [|reflexivity]. assert (i < lo) by now apply HL. lia.
Qed.
Lemma multi_keyed_erase_ok (m : list element) key : multi_flat key_less m ->
  exists m' n, multi_keyed_erase key_less m key = Some (m', n) /\ multi_flat key_less m' /\
    m' = filter (fun e => negb (same key (fst e))) m /\ n = length (filter (fun e => same key (fst e)) m) /\ length m' + n = length m.
Proof.
  intros Hm. unfold multi_keyed_erase. destruct (keyed_equal_range_ok m key Hm) as (lo & hi & -> & Hb & F1 & F2 & _).
  do 2 eexists. split; [reflexivity|].
  split; [|rewrite F1, F2; split; [auto|]; split; [auto|]; unfold erase; rewrite app_length, firstn_length, skipn_length; lia]. unfold erase.
  intros i j a b Hij Ha Hb'.
  assert (forall i a, nth_error (firstn lo m ++ skipn hi m) i = Some a -> nth_error m (if i <? lo then i else i - lo + hi) = Some a) as Hn.
  { intros i' a' H. destruct (Nat.ltb_spec i' lo).
    - rewrite nth_error_app1 in H by (rewrite firstn_length; lia). rewrite firstn_skipn_nth in H. now rewrite (proj2 (Nat.ltb_lt _ _)) in H.
    - rewrite nth_error_app2 in H by (rewrite firstn_length; lia). rewrite firstn_length, Nat.min_l, nth_skipn in H by lia. now rewrite Nat.add_comm. }
  apply Hn in Ha, Hb'. refine (Hm _ _ _ _ _ Ha Hb'). destruct (Nat.ltb_spec i lo), (Nat.ltb_spec j lo); lia.
Qed.
Lemma lookup_value_ok (m : list element) key : flat key_less m ->
  lookup_value key_less m key = Some (option_map snd (element_of same m key)).
Proof.
  intros Hm. unfold lookup_value, lookup. destruct (find_ok key_less Hlt m key (flat_multi key_less Hlt m Hm)) as (it & -> & Hle & Hit).
  destruct (Nat.eqb_spec it (length m)) as [->|Hne].
  - rewrite (proj2 (nth_error_None m (length m))) in Hit by lia. now rewrite <- Hit.
  - rewrite <- Hit. destruct (nth_error m it) eqn:E; [reflexivity|]. apply nth_error_None in E. lia.
Qed.

Definition represents same (m : list element) (d : @dictionary K M) : Prop :=
  (forall k, option_map snd (element_of same m k) = value_of d k) /\ length m = keys d.

Lemma flat_act_ok (m : list element) d a : flat key_less m -> represents same m d ->
  exists m', flat_act key_less m a = Some (m', snd (dictionary_act same d a)) /\ flat key_less m' /\ represents same m' (fst (dictionary_act same d a)).
Proof.
  intros Hm (H1 & H2). destruct a as [k v|k|k|]; cbn [flat_act dictionary_act].
  - unfold keyed_insert. destruct (lazy_insert_ok key_less Hlt m k v Hm) as (m' & p & b & -> & Hm' & H). exists m'. specialize (H1 k) as Hk. rewrite <- Hk.
    destruct (element_of same m k) as [e|] eqn:E; cbn [option_map].
    + destruct H as (-> & -> & _). cbn [fst snd]. repeat split; auto.
    + destruct H as (-> & _ & Hp & Em). cbn [fst snd]. split; [reflexivity|]. split; [exact Hm'|]. split; cbn [value_of keys].
      * intros k'. rewrite Em. change (firstn p m ++ (k, v) :: skipn p m) with (insert_at m p (k, v)). rewrite (element_insert key_less Hlt) by exact E. cbn [fst].
        rewrite (same_sym key_less k' k). destruct (same k k'); [reflexivity|]. apply H1.
      * rewrite Em, app_length. cbn [length]. rewrite firstn_length, skipn_length. lia.
  - destruct (keyed_erase_ok m k Hm) as (m' & n & -> & Hm' & Em & _ & En). exists m'. specialize (H1 k) as Hk. rewrite <- Hk.
    destruct (element_of same m k) as [e|] eqn:E; cbn [option_map fst snd]; subst n; (split; [reflexivity|]); (split; [exact Hm'|]).
    + split; cbn [value_of keys].
      * intros k'. rewrite Em, element_of_filter; [|intros; apply same_sym|apply Hlt]. destruct (same k k'); [reflexivity|]. apply H1.
      * destruct (find_ok key_less Hlt m k (flat_multi key_less Hlt m Hm)) as (it & _ & Hle & Hit). rewrite E in Hit.
        destruct (element_in key_less m k e E) as (_ & Hs). assert (it < length m) by (apply nth_error_Some; congruence).
        destruct (element_at_filter same m k it e) as (F1 & _); auto. { intros. apply same_sym. } { apply Hlt. } { now apply flat_is_distinct. }
        rewrite Em, F1, app_length, firstn_length, skipn_length. lia.
    + destruct (no_element_filter same m k E) as (F1 & _). rewrite Em, F1. now split.
  - rewrite lookup_value_ok by exact Hm. rewrite H1. exists m. cbn [fst snd]. repeat split; auto.
  - exists m. cbn [fst snd]. rewrite H2. repeat split; auto.
Qed.
Lemma flat_replies_ok actions : forall (m : list element) d, flat key_less m -> represents same m d ->
  replies (flat_act key_less) m actions = Some (dictionary_replies same d actions).
Proof.
  induction actions as [|a actions IH]; intros m d Hm Hd; [reflexivity|]. cbn [replies dictionary_replies].
  destruct (flat_act_ok m d a Hm Hd) as (m' & -> & Hm' & Hd'). destruct (dictionary_act same d a) as [d' r]. cbn [fst snd] in *.
  now rewrite (IH m' d').
Qed.

Definition multi_represents (m : list element) (d : @multi_dictionary K M) : Prop :=
  (forall k, map snd (filter (fun e => same k (fst e)) m) = values_of d k) /\ length m = entries d.
Lemma filter_and {A} (f g : A -> bool) l : filter f (filter g l) = filter (fun a => g a && f a) l.
Proof. induction l as [|a l IH]; [reflexivity|]. cbn. destruct (g a); cbn; now rewrite IH. Qed.
Lemma multi_act_ok (m : list element) d a : multi_flat key_less m -> multi_represents m d ->
  exists m', multi_act key_less m a = Some (m', snd (multi_dictionary_act same d a)) /\ multi_flat key_less m' /\
    multi_represents m' (fst (multi_dictionary_act same d a)).
Proof.
  intros Hm (H1 & H2). destruct a as [k v|k|k|]; cbn [multi_act multi_dictionary_act fst snd].
  - unfold multi_keyed_insert. destruct (multi_lazy_insert_ok key_less Hlt m k v Hm) as (p & -> & Hp & Hm' & Hi). eexists. split; [reflexivity|].
    split; [exact Hm'|]. split; cbn [values_of entries].
    + intros k'. rewrite filter_app. cbn [filter fst].
      assert (values_of d k' = map snd (filter (fun e => same k' (fst e)) (firstn p m)) ++ map snd (filter (fun e => same k' (fst e)) (skipn p m))) as ->.
      { rewrite <- H1, <- map_app, <- filter_app, firstn_skipn. reflexivity. }
      rewrite (same_sym key_less k' k). destruct (same k k') eqn:E.
      * rewrite (filter_none _ (skipn p m)); [now rewrite map_app, app_nil_r|]. intros e He. apply In_nth_error in He as (i & He). rewrite nth_skipn in He.
        destruct (same k' (fst e)) eqn:E'; [|reflexivity]. assert (p + i < p); [|lia]. apply (Hi _ e He). now rewrite (same_eq key_less Hlt _ _ _ E).
      * apply map_app.
    + rewrite app_length. cbn [length]. rewrite firstn_length, skipn_length. lia.
  - destruct (multi_keyed_erase_ok m k Hm) as (m' & n & -> & Hm' & Em & En & El). exists m'.
    assert (n = length (values_of d k)) as Hn by (rewrite <- H1, map_length; exact En). rewrite <- Hn.
    split; [reflexivity|]. split; [exact Hm'|]. split; cbn [values_of entries]; [|lia].
    intros k'. rewrite Em, filter_and. rewrite <- H1. destruct (same k k') eqn:E.
    + rewrite filter_none; [reflexivity|]. intros e _. rewrite (same_eq key_less Hlt _ _ _ E). now destruct (same k' (fst e)).
    + f_equal. apply filter_ext. intros e. destruct (same k' (fst e)) eqn:E'; [|apply andb_false_r]. rewrite andb_true_r.
      destruct (same k (fst e)) eqn:E2; [|reflexivity]. exfalso. assert (same k k' = true); [|congruence].
      apply (same_trans key_less Hlt) with (fst e); auto. now rewrite (same_sym key_less).
  - destruct (keyed_equal_range_ok m k Hm) as (lo & hi & -> & Hb & F1 & F2 & F3). rewrite <- F3, H1. exists m. repeat split; auto.
  - exists m. rewrite H2. repeat split; auto.
Qed.
Lemma multi_replies_ok actions : forall (m : list element) d, multi_flat key_less m -> multi_represents m d ->
  replies (multi_act key_less) m actions = Some (multi_dictionary_replies same d actions).
Proof.
  induction actions as [|a actions IH]; intros m d Hm Hd; [reflexivity|]. cbn [replies multi_dictionary_replies].
  destruct (multi_act_ok m d a Hm Hd) as (m' & -> & Hm' & Hd'). destruct (multi_dictionary_act same d a) as [d' r]. cbn [fst snd] in *.
  now rewrite (IH m' d').
Qed.
End Flat.

Section Linear.
Context {K M : Type} (equal : K -> K -> bool) (Heq : equivalence equal).
Notation element := (K * M)%type.

Lemma linear_keyed_erase_ok (m : list element) key : distinct equal m ->
  exists m' n, linear_keyed_erase equal m key = Some (m', n) /\ distinct equal m' /\
    m' = filter (fun e => negb (equal key (fst e))) m /\ n = length (filter (fun e => equal key (fst e)) m) /\
    n = match element_of equal m key with Some _ => 1 | None => 0 end /\ length m' + n = length m.
Proof.
  intros Hm. unfold linear_keyed_erase. destruct (linear_find_ok equal m key) as (Hle & Hit). set (it := linear_find equal m key) in *.
  destruct (Nat.eqb_spec it (length m)) as [E|Hne].
  - rewrite (proj2 (nth_error_None m it)) in Hit by lia. destruct (no_element_filter equal m key (eq_sym Hit)) as (H1 & H2).
    exists m, 0. rewrite H1, H2, <- Hit. repeat split; auto.
  - destruct (Nat.ltb_spec it (length m)); [|lia]. destruct (nth_error m it) as [e|] eqn:E; [|apply nth_error_None in E; lia].
    symmetry in Hit. destruct (linear_element_in equal m key e Hit) as (_ & Hs).
    destruct (element_at_filter equal m key it e) as (H1 & H2); auto; try apply Heq.
    do 2 eexists. split; [reflexivity|]. rewrite H1, H2, Hit. unfold linear_erase. split; [|repeat split; auto].
    + apply (linear_erase_ok equal Heq m it (S it) Hm). lia.
    + rewrite app_length, firstn_length, skipn_length. lia.
Qed.
Lemma linear_lookup_value_ok (m : list element) key : linear_lookup_value equal m key = Some (option_map snd (element_of equal m key)).
Proof.
  unfold linear_lookup_value. destruct (linear_find_ok equal m key) as (Hle & Hit). set (it := linear_find equal m key) in *.
  destruct (Nat.eqb_spec it (length m)) as [E|Hne].
  - rewrite (proj2 (nth_error_None m it)) in Hit by lia. now rewrite <- Hit.
  - rewrite <- Hit. destruct (nth_error m it) eqn:E; [reflexivity|]. apply nth_error_None in E. lia.
Qed.
Lemma linear_act_ok (m : list element) d a : distinct equal m -> represents equal m d ->
  exists m', linear_act equal m a = Some (m', snd (dictionary_act equal d a)) /\ distinct equal m' /\ represents equal m' (fst (dictionary_act equal d a)).
Proof.
  intros Hm (H1 & H2). destruct a as [k v|k|k|]; cbn [linear_act dictionary_act].
  - unfold linear_keyed_insert. destruct (linear_lazy_insert_ok equal Heq m k v Hm) as (m' & p & b & -> & Hm' & H). exists m'. specialize (H1 k) as Hk. rewrite <- Hk.
    destruct (element_of equal m k) as [e|] eqn:E; cbn [option_map].
    + destruct H as (-> & -> & _). cbn [fst snd]. repeat split; auto.
    + destruct H as (-> & Em & Hp). cbn [fst snd]. split; [reflexivity|]. split; [exact Hm'|]. split; cbn [value_of keys].
      * intros k'. rewrite Em, linear_app. cbn [element_of fst]. specialize (H1 k') as Hk'. rewrite <- Hk'.
        rewrite (equal_sym equal Heq k' k). destruct (element_of equal m k') as [e|] eqn:E'; [|destruct (equal k k'); reflexivity].
        destruct (equal k k') eqn:Ekk; [|reflexivity]. exfalso. rewrite linear_element_none in E. destruct (linear_element_in equal m k' e E') as (He & Hs).
        specialize (E e He). rewrite (equal_trans equal Heq k k' (fst e)) in E; auto. discriminate.
      * rewrite Em, app_length. cbn [length]. lia.
  - destruct (linear_keyed_erase_ok m k Hm) as (m' & n & -> & Hm' & Em & _ & En & El). exists m'. specialize (H1 k) as Hk. rewrite <- Hk.
    destruct (element_of equal m k) as [e|] eqn:E; cbn [option_map fst snd]; subst n; (split; [reflexivity|]); (split; [exact Hm'|]).
    + split; cbn [value_of keys]; [|lia]. intros k'. rewrite Em, element_of_filter; try apply Heq. destruct (equal k k'); [reflexivity|]. apply H1.
    + destruct (no_element_filter equal m k E) as (F1 & _). rewrite Em, F1. now split.
  - rewrite linear_lookup_value_ok. rewrite H1. exists m. cbn [fst snd]. repeat split; auto.
  - exists m. cbn [fst snd]. rewrite H2. repeat split; auto.
Qed.
Lemma linear_replies_ok actions : forall (m : list element) d, distinct equal m -> represents equal m d ->
  replies (linear_act equal) m actions = Some (dictionary_replies equal d actions).
Proof.
  induction actions as [|a actions IH]; intros m d Hm Hd; [reflexivity|]. cbn [replies dictionary_replies].
  destruct (linear_act_ok m d a Hm Hd) as (m' & -> & Hm' & Hd'). destruct (dictionary_act equal d a) as [d' r]. cbn [fst snd] in *.
  now rewrite (IH m' d').
Qed.
End Linear.
