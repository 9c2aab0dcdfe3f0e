(** * Proofs about flat maps *)

From Coq Require Import List Arith Bool Lia Permutation.
From Verif Require Import SpecSort SortLemmas Unique SpecUnique UniqueProofs UniqueProofs2 UniqueProofs3 FlatMap SpecMap.
Import ListNotations.
Local Open Scope nat_scope.

(** ** Binary search *)
Lemma point_sound {E} (test : E -> bool) l fuel : forall first count, count < fuel -> first + count <= length l ->
  exists r, partition_point_list fuel test l first count = Some r /\ first <= r <= first + count /\
    (r < first + count -> forall e, nth_error l r = Some e -> test e = false) /\
    (forall p, (forall i e, nth_error l i = Some e -> (test e = true <-> i < p)) -> first <= p <= first + count -> r = p).
Proof.
  induction fuel as [|fuel IH]; intros first count Hf Hl; [lia|]. cbn [partition_point_list].
  destruct (Nat.eqb_spec count 0) as [->|Hc].
  - exists first. split; [reflexivity|]. split; [lia|]. split; [lia|]. intros p _ Hp. lia.
  - assert (Hh : count / 2 < count) by (apply Nat.div_lt; lia).
    destruct (nth_error l (first + count / 2)) as [e|] eqn:E1; [|apply nth_error_None in E1; lia].
    destruct (test e) eqn:Et.
    + destruct (IH (S (first + count / 2)) (count - (count / 2 + 1))) as (r & -> & H1 & H2 & H3); [lia|lia|].
      exists r. split; [reflexivity|]. split; [lia|]. split; [intros H; apply H2; lia|].
      intros p Hp Hb. apply H3; [exact Hp|]. pose proof (proj1 (Hp _ _ E1) Et). lia.
    + destruct (IH first (count / 2)) as (r & -> & H1 & H2 & H3); [lia|lia|].
      exists r. split; [reflexivity|]. split; [lia|]. split.
      * intros H e' He'. destruct (Nat.eq_dec r (first + count / 2)) as [->|Hr]; [congruence | apply H2; [lia | exact He']].
      * intros p Hp Hb. apply H3; [exact Hp|]. assert (~ (first + count / 2 < p)); [|lia]. intros H. apply (Hp _ _ E1) in H. congruence.
Qed.
(** In a range with those that pass the test first *)
Lemma split_point {E} (test : E -> bool) l : (forall i j a b, i < j -> nth_error l i = Some a -> nth_error l j = Some b -> test b = true -> test a = true) ->
  exists p, p <= length l /\ forall i e, nth_error l i = Some e -> (test e = true <-> i < p).
Proof.
  induction l as [|a l IH]; intros H.
  - exists 0. split; [auto|]. intros i e Hi. destruct i; discriminate.
  - destruct (test a) eqn:Ea.
    + destruct IH as (p & Hp & Hi).
      * intros i j x y Hij Hx Hy. apply (H (S i) (S j) x y); auto. lia.
      * exists (S p). split; [cbn; lia|]. intros [|i] e He; [injection He as <-; split; [lia | auto]|]. rewrite (Hi i e He). lia.
    + exists 0. split; [lia|]. intros i e He. split; [|lia]. intros Ht. exfalso.
      destruct i as [|i]; [injection He as <-; congruence|].
      assert (test a = true); [|congruence]. apply (H 0 (S i) a e); auto. lia.
Qed.

Section Maps.
Context {K M : Type} (key_less : K -> K -> bool) (Hlt : strict_weak_order key_less).
Notation element := (K * M)%type.
Notation less := (@less K M key_less).
Notation same := (equivalent key_less).
Notation element_of := (@element_of K M same).

Lemma less_order : strict_weak_order less.
Proof.
  destruct Hlt as (H1 & H2 & H3). unfold FlatMap.less. split; [|split].
  - intros a. apply H1.
  - intros a b c. apply H2.
  - intros a b c. apply (H3 (fst a) (fst b) (fst c)).
Qed.
Lemma same_refl k : same k k = true.
Proof. unfold equivalent. now rewrite (proj1 Hlt). Qed.
Lemma same_sym a b : same a b = same b a.
Proof. unfold equivalent. apply andb_comm. Qed.
Lemma same_trans a b c : same a b = true -> same b c = true -> same a c = true.
Proof. apply Hlt. Qed.
Lemma same_eq a b c : same a b = true -> same a c = same b c.
Proof.
  intros H. destruct (same b c) eqn:E; [eapply same_trans; eauto|]. destruct (same a c) eqn:E'; [|reflexivity].
  rewrite <- E. symmetry. eapply same_trans; [|exact E']. now rewrite same_sym.
Qed.
Lemma same_elements (a b : element) : equivalent less a b = same (fst a) (fst b).
Proof. reflexivity. Qed.

Lemma element_filter m k : element_of m k = hd_error (filter (fun e => same k (fst e)) m).
Proof. induction m as [|e m IH]; cbn; [reflexivity|]. destruct (same k (fst e)); auto. Qed.
Lemma element_app m m' k : element_of (m ++ m') k = match element_of m k with Some e => Some e | None => element_of m' k end.
Proof. induction m as [|e m IH]; cbn; [reflexivity|]. destruct (same k (fst e)); auto. Qed.
Lemma element_in m k e : element_of m k = Some e -> In e m /\ same k (fst e) = true.
Proof.
  induction m as [|a m IH]; cbn; [discriminate|]. destruct (same k (fst a)) eqn:E.
  - intros H. injection H as <-. auto.
  - intros H. destruct (IH H). auto.
Qed.
Lemma element_none m k : element_of m k = None <-> forall e, In e m -> same k (fst e) = false.
Proof.
  split.
  - intros H e He. destruct (same k (fst e)) eqn:E; [|reflexivity]. exfalso.
    induction m as [|a m IH]; cbn in *; [exact He|]. destruct (same k (fst a)) eqn:Ea; [discriminate|].
    destruct He as [->|He]; [congruence | auto].
  - induction m as [|a m IH]; intros H; cbn; [reflexivity|]. rewrite (H a) by now left. apply IH. intros e He. apply H. now right.
Qed.
Lemma element_some m k : (exists e, In e m /\ same k (fst e) = true) -> exists e, element_of m k = Some e.
Proof.
  intros (e & He & Hs). destruct (element_of m k) as [e'|] eqn:E; [eauto|]. rewrite element_none in E. rewrite E in Hs; [discriminate | exact He].
Qed.
Lemma element_same m k k' : same k k' = true -> element_of m k = element_of m k'.
Proof. intros H. induction m as [|a m IH]; cbn; [reflexivity|]. now rewrite (same_eq _ _ _ H), IH. Qed.

Lemma uniques_elements l r k : uniques less l r -> element_of r k = element_of l k.
Proof.
  intros HU. destruct (element_of l k) as [e|] eqn:E.
  - destruct (element_in _ _ _ E) as (_ & Hke).
    assert (Hf : In e r).
    { apply HU, first_iff; [apply less_order|]. rewrite element_filter in E.
      rewrite <- E. f_equal. apply filter_ext. intros a. rewrite same_elements. symmetry. apply same_eq, Hke. }
    destruct (element_some r k) as (e' & He'); [eauto|]. rewrite He'. f_equal.
    destruct (element_in _ _ _ He') as (Hin & Hke'). destruct HU as (Hi & _).
    destruct (In_nth_error _ _ Hf) as (i & Hni). destruct (In_nth_error _ _ Hin) as (j & Hnj).
    assert (Hee : same (fst e) (fst e') = true) by (rewrite <- (same_eq k); auto).
    unfold equivalent in Hee. apply andb_true_iff in Hee as (H1 & H2). apply negb_true_iff in H1, H2.
    destruct (lt_eq_lt_dec i j) as [[H|H]|H].
    + pose proof (Hi _ _ _ _ H Hni Hnj) as H'. unfold FlatMap.less in H'. congruence.
    + congruence.
    + pose proof (Hi _ _ _ _ H Hnj Hni) as H'. unfold FlatMap.less in H'. congruence.
  - rewrite element_none in E. apply element_none. intros e He. apply E. eapply uniques_in; eauto.
Qed.

Lemma flat_distinct (m : list element) i j a b : flat key_less m -> nth_error m i = Some a -> nth_error m j = Some b -> same (fst a) (fst b) = true -> i = j.
Proof.
  intros Hi Ha Hb Hs. unfold equivalent in Hs. apply andb_true_iff in Hs as (H1 & H2). apply negb_true_iff in H1, H2.
  destruct (lt_eq_lt_dec i j) as [[H|H]|H]; auto; exfalso.
  - pose proof (Hi _ _ _ _ H Ha Hb) as H'. unfold by_key in H'. congruence.
  - pose proof (Hi _ _ _ _ H Hb Ha) as H'. unfold by_key in H'. congruence.
Qed.

(** ** lower_bound, upper_bound *)
Lemma lower_ok (m : list element) key : multi_flat key_less m ->
  exists p, keyed_lower_bound key_less m key = Some p /\ p <= length m /\ forall i e, nth_error m i = Some e -> (key_less (fst e) key = true <-> i < p).
Proof.
  intros Ho. unfold keyed_lower_bound.
  destruct (split_point (fun e => key_less (fst e) key) m) as (p & Hp & Hi).
  { intros i j a b Hij Ha Hb Hk. apply (ge_lt_trans key_less Hlt) with (fst b); auto. apply (Ho i j a b); auto. }
  destruct (point_sound (fun e => key_less (fst e) key) m (S (length m)) 0 (length m)) as (r & -> & H1 & H2 & H3); [lia|lia|].
  rewrite (H3 p Hi) by lia. eauto.
Qed.
Lemma upper_ok (m : list element) key : multi_flat key_less m ->
  exists p, keyed_upper_bound key_less m key = Some p /\ p <= length m /\ forall i e, nth_error m i = Some e -> (key_less key (fst e) = false <-> i < p).
Proof.
  intros Ho. unfold keyed_upper_bound.
  destruct (split_point (fun e => negb (key_less key (fst e))) m) as (p & Hp & Hi).
  { intros i j a b Hij Ha Hb Hk. apply negb_true_iff in Hk. apply negb_true_iff.
    destruct (key_less key (fst a)) eqn:E; [|reflexivity]. rewrite <- Hk. symmetry.
    apply (lt_ge_trans key_less Hlt) with (fst a); auto. apply (Ho i j a b); auto. }
  destruct (point_sound (fun e => negb (key_less key (fst e))) m (S (length m)) 0 (length m)) as (r & -> & H1 & H2 & H3); [lia|lia|].
  rewrite (H3 p Hi) by lia. exists p. split; [reflexivity|]. split; [exact Hp|]. intros i e He. rewrite <- (Hi i e He). rewrite negb_true_iff. tauto.
Qed.
Lemma flat_multi (m : list element) : flat key_less m -> multi_flat key_less m.
Proof. intros H i j a b Hij Ha Hb. apply (lt_asym key_less Hlt). apply (H i j a b); auto. Qed.

(** find never finds another key, in whatever order the elements are *)
Lemma find_sound (m : list element) key : exists r, find key_less m key = Some r /\ r <= length m /\
  forall e, nth_error m r = Some e -> same key (fst e) = true.
Proof.
  unfold find, keyed_lower_bound.
  destruct (point_sound (fun e => key_less (fst e) key) m (S (length m)) 0 (length m)) as (r & -> & H1 & H2 & _); [lia|lia|].
  destruct (Nat.eqb_spec r (length m)) as [->|Hr].
  - exists (length m). split; [reflexivity|]. split; [lia|]. intros e He. exfalso. assert (length m < length m) by (apply nth_error_Some; congruence). lia.
  - destruct (nth_error m r) as [e|] eqn:E; [|apply nth_error_None in E; lia]. eexists. split; [reflexivity|].
    destruct (key_less key (fst e)) eqn:Ek.
    + split; [lia|]. intros e' He'. exfalso. assert (length m < length m) by (apply nth_error_Some; congruence). lia.
    + split; [lia|]. intros e' He'. rewrite E in He'. injection He' as <-. unfold equivalent.
      rewrite Ek. rewrite (H2 ltac:(lia) e eq_refl). reflexivity.
Qed.
Lemma find_ok (m : list element) key : multi_flat key_less m ->
  exists r, find key_less m key = Some r /\ r <= length m /\ nth_error m r = element_of m key.
Proof.
  intros Ho. destruct (find_sound m key) as (r & Hr & Hle & Hs). exists r. split; [exact Hr|]. split; [exact Hle|].
  destruct (lower_ok m key Ho) as (p & Hp & Hpl & Hi). unfold find in Hr. rewrite Hp in Hr.
  destruct (element_of m key) as [e|] eqn:E.
  - destruct (element_in _ _ _ E) as (Hin & Hke).
    assert (Hs' : key_less key (fst e) = false /\ key_less (fst e) key = false).
    { unfold equivalent in Hke. apply andb_true_iff in Hke as (H1 & H2). now apply negb_true_iff in H1, H2. }
    destruct (In_nth_error _ _ Hin) as (j & Hj).
    assert (Hpj : p <= j). { destruct (Nat.lt_ge_cases j p) as [H|H]; [|exact H]. apply (Hi j e Hj) in H. destruct Hs'; congruence. }
    assert (j < length m) by (apply nth_error_Some; congruence).
    destruct (Nat.eqb_spec p (length m)) as [Heq|Hne]; [lia|].
    destruct (nth_error m p) as [x|] eqn:Ex; [|discriminate].
    assert (Hx1 : key_less (fst x) key = false). { destruct (key_less (fst x) key) eqn:Hx; [|reflexivity]. apply (Hi p x Ex) in Hx. lia. }
    assert (Hx2 : key_less key (fst x) = false).
    { destruct (Nat.eq_dec p j) as [->|Hpj']; [rewrite Ex in Hj; injection Hj as ->; tauto|].
      assert (Hex : key_less (fst e) (fst x) = false) by (apply (Ho p j x e); auto; lia).
      destruct (key_less key (fst x)) eqn:Hx; [|reflexivity].
      rewrite <- Hex. symmetry. eapply (ge_lt_trans key_less Hlt); [|exact Hx]. tauto. }
    rewrite Hx2 in Hr. injection Hr as Hr. subst r.
    (* the first element with the key is at [p] *)
    rewrite Ex. clear - E Ex Hx1 Hx2 Hi. revert p Ex Hi. induction m as [|a m IH]; intros p Ex Hi; [destruct p; discriminate|].
    cbn in E. destruct p as [|p].
    + injection Ex as ->. unfold equivalent in E. rewrite Hx1, Hx2 in E. injection E as ->. reflexivity.
    + assert (Ha : key_less (fst a) key = true) by (apply (Hi 0 a eq_refl); lia).
      unfold equivalent in E. rewrite Ha, andb_false_r in E. apply (IH E p Ex).
      intros i e' He'. rewrite (Hi (S i) e' He'). lia.
  - destruct (nth_error m r) as [e|] eqn:Er; [|reflexivity]. specialize (Hs e eq_refl). rewrite element_none in E.
    rewrite (E e) in Hs; [discriminate | eapply nth_error_In; eauto].
Qed.

(** ** lazy_insert *)
Lemma firstn_skipn_nth {A} (m : list A) p i : nth_error (firstn p m) i = if i <? p then nth_error m i else None.
Proof.
  revert p i. induction m as [|a m IH]; intros p i; [rewrite firstn_nil; destruct i, (_ <? p); reflexivity|].
  destruct p as [|p], i as [|i]; cbn [firstn nth_error]; auto. rewrite IH. reflexivity.
Qed.
Lemma nth_skipn {A} (m : list A) p i : nth_error (skipn p m) i = nth_error m (p + i).
Proof. revert p. induction m as [|a m IH]; intros [|p]; cbn; auto. destruct i; reflexivity. Qed.
Lemma insert_nth (m : list element) p e i : p <= length m ->
  nth_error (insert_at m p e) i = if i <? p then nth_error m i else if i =? p then Some e else nth_error m (i - 1).
Proof.
  intros Hp. unfold insert_at. destruct (Nat.ltb_spec i p) as [H|H].
  - rewrite nth_error_app1 by (rewrite firstn_length; lia). rewrite firstn_skipn_nth. now rewrite (proj2 (Nat.ltb_lt _ _) H).
  - rewrite nth_error_app2 by (rewrite firstn_length; lia). rewrite firstn_length, Nat.min_l by lia.
    destruct (Nat.eqb_spec i p) as [->|Hne]; [now rewrite Nat.sub_diag|].
    destruct (i - p) as [|n] eqn:E; [lia|]. cbn. rewrite nth_skipn. f_equal. lia.
Qed.
Lemma insert_increasing (lt : element -> element -> bool) m p e : p <= length m -> increasing lt m ->
  (forall i a, nth_error m i = Some a -> i < p -> lt a e = true) -> (forall i a, nth_error m i = Some a -> p <= i -> lt e a = true) ->
  increasing lt (insert_at m p e).
Proof.
  intros Hp Hi H1 H2 i j a b Hij. rewrite !insert_nth by exact Hp.
  destruct (Nat.ltb_spec i p), (Nat.ltb_spec j p); try lia.
  - intros Ha Hb. exact (Hi i j a b Hij Ha Hb).
  - destruct (Nat.eqb_spec j p).
    + intros Ha Hb. injection Hb as <-. eauto.
    + intros Ha Hb. apply (Hi i (j - 1) a b); auto. lia.
  - destruct (Nat.eqb_spec i p), (Nat.eqb_spec j p); try lia.
    + intros Ha Hb. injection Ha as <-. eapply H2; [exact Hb | lia].
    + intros Ha Hb. apply (Hi (i - 1) (j - 1) a b); auto. lia.
Qed.
Lemma insert_ordered (lt : element -> element -> bool) m p e : p <= length m -> ordered lt m ->
  (forall i a, nth_error m i = Some a -> i < p -> lt e a = false) -> (forall i a, nth_error m i = Some a -> p <= i -> lt a e = false) ->
  ordered lt (insert_at m p e).
Proof.
  intros Hp Hi H1 H2 i j a b Hij. rewrite !insert_nth by exact Hp.
  destruct (Nat.ltb_spec i p), (Nat.ltb_spec j p); try lia.
  - intros Ha Hb. exact (Hi i j a b Hij Ha Hb).
  - destruct (Nat.eqb_spec j p).
    + intros Ha Hb. injection Hb as <-. eauto.
    + intros Ha Hb. apply (Hi i (j - 1) a b); auto. lia.
  - destruct (Nat.eqb_spec i p), (Nat.eqb_spec j p); try lia.
    + intros Ha Hb. injection Ha as <-. eapply H2; [exact Hb | lia].
    + intros Ha Hb. apply (Hi (i - 1) (j - 1) a b); auto. lia.
Qed.
Lemma element_insert m p e k : element_of m (fst e) = None ->
  element_of (insert_at m p e) k = if same k (fst e) then Some e else element_of m k.
Proof.
  intros Hn. unfold insert_at. rewrite element_app. cbn [SpecMap.element_of].
  destruct (same k (fst e)) eqn:E.
  - rewrite (proj2 (element_none (firstn p m) k)); [reflexivity|]. intros a Ha. rewrite (same_eq _ _ _ E).
    rewrite element_none in Hn. apply Hn. rewrite <- (firstn_skipn p m). apply in_or_app. auto.
  - rewrite <- element_app, firstn_skipn. reflexivity.
Qed.

Lemma lazy_insert_ok (m : list element) key mapped : flat key_less m ->
  exists m' p inserted, lazy_insert key_less m key mapped = Some (m', p, inserted) /\ flat key_less m' /\
    match element_of m key with
    | Some e => inserted = false /\ m' = m /\ nth_error m p = Some e
    | None => inserted = true /\ nth_error m' p = Some (key, mapped) /\ p <= length m /\ m' = firstn p m ++ (key, mapped) :: skipn p m
    end.
Proof.
  intros Hm. unfold lazy_insert. destruct (upper_ok m key (flat_multi m Hm)) as (p & -> & Hp & Hi).
  assert (Habs : (forall i a, nth_error m i = Some a -> i < p -> key_less (fst a) key = true) ->
    element_of m key = None /\ flat key_less (insert_at m p (key, mapped)) /\ nth_error (insert_at m p (key, mapped)) p = Some (key, mapped)).
  { intros H. split; [|split].
    - apply element_none. intros e He. destruct (In_nth_error _ _ He) as (i & Hie). unfold equivalent.
      destruct (Nat.lt_ge_cases i p) as [Hip|Hip]; [rewrite (H i e Hie Hip); apply andb_false_r|].
      destruct (key_less key (fst e)) eqn:E; [reflexivity|]. apply (Hi i e Hie) in E. lia.
    - apply insert_increasing; [exact Hp | exact Hm | |]; unfold by_key; cbn.
      + intros i a Ha Hip. apply (H i a Ha Hip).
      + intros i a Ha Hip. destruct (key_less key (fst a)) eqn:E; [reflexivity|]. apply (Hi i a Ha) in E. lia.
    - rewrite insert_nth by exact Hp. rewrite Nat.ltb_irrefl, Nat.eqb_refl. reflexivity. }
  destruct p as [|q].
  - destruct Habs as (H1 & H2 & H3); [intros; lia|]. eexists. exists 0, true. split; [reflexivity|]. split; [exact H2|]. rewrite H1. auto.
  - destruct (nth_error m q) as [e|] eqn:Eq; [|apply nth_error_None in Eq; lia].
    destruct (key_less (fst e) key) eqn:Ek; cbn [negb].
    + destruct Habs as (H1 & H2 & H3).
      * intros i a Ha Hiq. destruct (Nat.eq_dec i q) as [->|Hne]; [congruence|].
        eapply (lt_trans key_less Hlt); [|exact Ek]. apply (Hm i q a e); auto. lia.
      * eexists. exists (S q), true. split; [reflexivity|]. split; [exact H2|]. rewrite H1. auto.
    + exists m, q, false. split; [reflexivity|]. split; [exact Hm|].
      assert (Hke : same key (fst e) = true). { unfold equivalent. rewrite Ek, (proj2 (Hi q e Eq)) by lia. reflexivity. }
      destruct (element_some m key) as (e' & He'); [exists e; split; [eapply nth_error_In; eauto | exact Hke]|].
      rewrite He'. split; [reflexivity|]. split; [reflexivity|]. rewrite Eq. f_equal.
      destruct (element_in _ _ _ He') as (Hin & Hke'). destruct (In_nth_error _ _ Hin) as (j & Hj).
      assert (q = j); [|congruence]. eapply flat_distinct; eauto. rewrite <- (same_eq key); auto.
Qed.
Lemma multi_lazy_insert_ok (m : list element) key mapped : multi_flat key_less m ->
  exists p, multi_lazy_insert key_less m key mapped = Some (firstn p m ++ (key, mapped) :: skipn p m, p) /\ p <= length m /\
    multi_flat key_less (firstn p m ++ (key, mapped) :: skipn p m) /\
    forall i e, nth_error m i = Some e -> same key (fst e) = true -> i < p.
Proof.
  intros Hm. unfold multi_lazy_insert. destruct (upper_ok m key Hm) as (p & -> & Hp & Hi). exists p. split; [reflexivity|]. split; [exact Hp|]. split.
  - apply insert_ordered; [exact Hp | exact Hm | |]; unfold by_key; cbn.
    + intros i a Ha Hip. apply (Hi i a Ha), Hip.
    + intros i a Ha Hip. destruct (key_less key (fst a)) eqn:E; [apply (lt_asym key_less Hlt), E|]. apply (Hi i a Ha) in E. lia.
  - intros i e He Hs. apply (Hi i e He). unfold equivalent in Hs. apply andb_true_iff in Hs as (H & _). now apply negb_true_iff in H.
Qed.
End Maps.
