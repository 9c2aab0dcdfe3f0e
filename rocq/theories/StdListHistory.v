(** * Histories of calls on a list with a count *)

From Coq Require Import List Arith Bool ZArith Lia.
From Verif Require Import LinkedList SpecList StdList SpecStdList LinkedListProofs LinkedListProofs2 LinkedListProofs3 LinkedListProofs4 LinkedListProofs5 StdListProofs.
Import ListNotations.
Local Open Scope nat_scope.

Section History.
Context {V : Type}.
Local Notation memory := (memory (nat * nat) V).

Lemma only_refl s z (m : memory) l : only_the_list s z m l z m l.
Proof. intros q Hq. split; [tauto|]. split; [tauto|]. auto. Qed.
Lemma only_trans s z (m : memory) l z1 m1 l1 z2 m2 l2 : only_the_list s z m l z1 m1 l1 -> only_the_list s z1 m1 l1 z2 m2 l2 -> only_the_list s z m l z2 m2 l2.
Proof.
  intros H1 H2 q Hq. specialize (H1 q Hq) as (A1 & B1 & C1). specialize (H2 q Hq) as (A2 & B2 & C2). split; [|split]; intros H3 H4; destruct (in_dec Nat.eq_dec q (names_of l1)) as [Hi|Hi].
  - auto.
  - rewrite (proj1 (C2 Hi H4)). auto.
  - auto.
  - rewrite <- (proj1 (C1 H3 Hi)). auto.
  - specialize (B1 H3 Hi). rewrite (A2 Hi H4), B1. split; [reflexivity|congruence].
  - destruct (C1 H3 Hi) as (C3 & C4). destruct (C2 Hi H4) as (C5 & C6). split; [congruence|]. intros H5. rewrite C6, C4; auto. congruence.
Qed.
Lemma only_from s z (m : memory) l z' m' k ps : valid m -> same_except (s :: ps) m m' -> (forall q, In q ps -> In q (names_of l) \/ In q (names_of k)) ->
  (forall q, In q (names_of l) -> ~ In q (names_of k) -> object_at m' q = None) -> (forall q, In q (names_of k) -> ~ In q (names_of l) -> object_at m q = None) -> below [s] m z z' ->
  only_the_list s z m l z' m' k.
Proof.
  intros Hv Hs Hp Ho Hn Hz q Hq. split; [auto|]. split; [auto|]. intros H1 H2. split.
  - apply Hs. intros [->|Hi]; [congruence|]. destruct (Hp q Hi); tauto.
  - intros H3. apply Hz; [intros [|[]]; congruence|]. now apply Hv.
Qed.
Lemma only_same s z (m : memory) l z' m' : valid m -> (forall q, object_at m' q = object_at m q) -> below [] m z z' -> only_the_list s z m l z' m' l.
Proof. intros Hv Hs Hz q Hq. split; [tauto|]. split; [tauto|]. intros _ _. split; [apply Hs|]. intros H. apply Hz; [intros []|]. now apply Hv. Qed.
Lemma same_sized z (m : memory) z' m' s l : valid m -> sized_at z m s l -> (forall q, object_at m' q = object_at m q) -> below [] m z z' -> sized_at z' m' s l.
Proof.
  intros Hv Hl Hs Hz. split; [eapply list_at_same; [apply Hl|]; auto|]. rewrite Hz; [apply Hl|intros []|]. eapply names_below; [exact Hv|apply Hl|now left].
Qed.

Lemma next_place_ok (m : memory) s l2 l1 : forall l0, list_at m s (l0 ++ l1 ++ l2) -> next_place (length l1) (first_of (l1 ++ l2) s) m = Returned (first_of l2 s) m.
Proof.
  induction l1 as [|(p, v) l1 IH]; intros l0 Hl; cbn [next_place length app]; [reflexivity|]. cbn [app first_of fst] in *. rewrite (bind_returned _ _ _ _ _ (next_ok m s l0 p v (l1 ++ l2) Hl)).
  apply (IH (l0 ++ [(p, v)])). rewrite <- app_assoc. exact Hl.
Qed.
Lemma place_ok z (m : memory) s l1 l2 : list_at m s (l1 ++ l2) -> place s (length l1) z m = SReturned (first_of l2 s) z m.
Proof. intros Hl. apply lift_returned. rewrite (bind_returned _ _ _ _ _ (begin_ok m s _ Hl)). exact (next_place_ok m s l2 l1 [] Hl). Qed.

(** The parts of a list without repetition *)
Lemma names_in_sub (l1 l2 l3 : list (nat * V)) q : In q (names_of (l1 ++ l2 ++ l3)) -> ~ In q (names_of (l1 ++ l3)) -> In q (names_of l2).
Proof. rewrite !names_app, !in_app_iff. tauto. Qed.
Lemma map_filter_values (f : V -> bool) (l : list (nat * V)) : map snd (filter (fun e => f (snd e)) l) = filter f (map snd l).
Proof. induction l as [|(p, v) l IH]; cbn; [reflexivity|]. destruct (f v); cbn; now rewrite IH. Qed.
Lemma names_filter (f : nat * V -> bool) l q : In q (names_of (filter f l)) -> In q (names_of l).
Proof. unfold SpecList.names_of. intros H. apply in_map_iff in H as (e & <- & He). apply filter_In in He. apply in_map. tauto. Qed.

Definition steps (s : nat) z m l z' (m' : memory) k := valid m' /\ sized_at z' m' s k /\ only_the_list s z m l z' m' k.
Lemma call_ok c z (m : memory) s l : valid m -> sized_at z m s l -> permitted c (map snd l) ->
  match call s c z m with
  | SReturned _ z' m' => exists k, map snd k = values_after c (map snd l) /\ steps s z m l z' m' k
  | SThrew z' m' => exists k, values_after_throw c (map snd l) (map snd k) /\ steps s z m l z' m' k
  | SUndefined => False
  end.
Proof.
  intros Hv Hl Hp. destruct c as [v|v| | |i vs|i n|f| |n v]; cbn [call permitted values_after values_after_throw] in *.
  - pose proof (sized_push_back_ok z m s l v Hv Hl) as H. destruct (sized_push_back s v z m) as [p z' m'|z' m'|] eqn:E; [| |contradiction].
    + rewrite (sbind_returned _ _ _ _ _ _ _ E). destruct H as (-> & H1 & H2 & H3 & H4 & _). exists (l ++ [(names m, v)]). rewrite map_app. split; [reflexivity|]. split; [exact H1|]. split; [exact H2|].
      apply (only_from s z m l z' m' _ (names m :: names_of l)); [exact Hv|eapply same_weaken; [exact H4|]| | | |apply others_below, H3].
      * intros q. cbn. tauto.
      * intros q [<-|Hq]; [right|auto]. rewrite names_app. apply in_or_app. right. now left.
      * intros q Hq Hn. destruct Hn. rewrite names_app. apply in_or_app. auto.
      * intros q Hq Hn. rewrite names_app in Hq. apply in_app_or in Hq as [Hq|[<-|[]]]; [tauto|]. apply fresh, Hv.
    + rewrite (sbind_threw _ _ _ _ _ _ E). destruct H as (H1 & H2 & _ & ->). exists l. split; [reflexivity|]. assert (Hs : forall q, object_at m' q = object_at m q) by (intros q; apply H1; intros []).
      split; [exact H2|]. split; [exact (same_sized _ _ _ _ _ _ Hv Hl Hs (below_refl _ _ _))|]. apply only_same; auto using below_refl.
  - pose proof (sized_push_front_ok z m s l v Hv Hl) as H. destruct (sized_push_front s v z m) as [p z' m'|z' m'|] eqn:E; [| |contradiction].
    + rewrite (sbind_returned _ _ _ _ _ _ _ E). destruct H as (H0 & H1 & H2 & H3 & H4). exists ((p, v) :: l). split; [reflexivity|]. split; [exact H1|]. split; [exact H2|].
      eapply only_from; [exact Hv|exact H4| | | |exact H3].
      * auto.
      * intros q Hq Hn. destruct Hn. now right.
      * intros q [<-|Hq] Hn; [exact H0|tauto].
    + rewrite (sbind_threw _ _ _ _ _ _ E). destruct H as (H1 & H2 & H3). exists l. split; [reflexivity|].
      split; [exact H1|]. split; [exact (same_sized _ _ _ _ _ _ Hv Hl H2 H3)|]. apply only_same; auto.
  - destruct (@exists_last _ l) as (l0 & (p, v) & ->); [intros ->; now apply Hp|]. rename l0 into l. destruct (sized_pop_back_ok z m s l p v Hv Hl) as (z' & m' & E & _ & H1 & H2 & H3 & H4 & H5 & _). rewrite E.
    exists l. split; [rewrite map_app, app_length; cbn [map length]; replace (length (map snd l) + 1 - 1) with (length (map snd l)) by lia; rewrite firstn_app, firstn_all, Nat.sub_diag; cbn; now rewrite app_nil_r|].
    split; [exact H1|]. split; [exact H2|]. apply (only_from s z m _ z' m' _ (p :: names_of l)); [exact Hv|eapply same_weaken; [exact H5|]| | | |apply others_below, H3].
    + intros q. cbn. tauto.
    + intros q [<-|Hq]; [left|auto]. rewrite names_app. apply in_or_app. right. now left.
    + intros q Hq Hn. rewrite names_app in Hq. apply in_app_or in Hq as [Hq|[<-|[]]]; [tauto|exact H4].
    + intros q Hq Hn. destruct Hn. rewrite names_app. apply in_or_app. auto.
  - destruct l as [|(p, v) l]; [now contradiction Hp|]. destruct (sized_pop_front_ok z m s p v l Hv Hl) as (z' & m' & E & H1 & H2 & H3 & H4 & H5). rewrite E.
    exists l. split; [reflexivity|]. split; [exact H1|]. split; [exact H2|]. eapply only_from; [exact Hv|exact H5| | | |exact H3].
    + auto.
    + intros q [<-|Hq] Hn; [exact H4|tauto].
    + intros q Hq Hn. destruct Hn. now right.
  - rewrite map_length in Hp. set (l1 := firstn i l). set (l2 := skipn i l). assert (El : l = l1 ++ l2) by (symmetry; apply firstn_skipn). assert (Li : length l1 = i) by (unfold l1; rewrite firstn_length; lia).
    rewrite firstn_map, skipn_map. fold l1 l2. clearbody l1 l2. subst l i. rewrite (sbind_returned _ _ _ _ _ _ _ (place_ok z m s l1 l2 (proj1 Hl))).
    pose proof (sized_insert_ok z m s l1 l2 vs Hv Hl) as H. destruct (sized_insert s (first_of l2 s) vs z m) as [r z' m'|z' m'|] eqn:E; [| |contradiction].
    + rewrite (sbind_returned _ _ _ _ _ _ _ E). destruct H as (_ & k & Ek & H1 & H2 & H3 & H4 & H5). exists (l1 ++ k ++ l2). rewrite !map_app, Ek. split; [reflexivity|]. split; [exact H2|]. split; [exact H3|].
      eapply only_from; [exact Hv|exact H5| | | |exact H4].
      * auto.
      * intros q Hq Hn. destruct Hn. rewrite !names_app, !in_app_iff in *. tauto.
      * intros q Hq Hn. apply H1. eapply names_in_sub; eassumption.
    + rewrite (sbind_threw _ _ _ _ _ _ E). destruct H as (H1 & H2 & H3). exists (l1 ++ l2). split; [reflexivity|]. split; [exact H1|]. split; [exact (same_sized _ _ _ _ _ _ Hv Hl H2 H3)|]. apply only_same; auto.
  - rewrite map_length in Hp. rewrite firstn_map, skipn_map.
    assert (El : l = firstn i l ++ firstn n (skipn i l) ++ skipn (i + n) l).
    { rewrite <- (firstn_skipn i l) at 1. f_equal. rewrite <- (firstn_skipn n (skipn i l)) at 1. f_equal. clear. revert l. induction i as [|i IH]; intros l; [reflexivity|]. destruct l; cbn; [apply skipn_nil|apply IH]. }
    assert (Li : length (firstn i l) = i) by (rewrite firstn_length; lia). assert (Ln : length (firstn n (skipn i l)) = n) by (rewrite firstn_length, skipn_length; lia).
    revert El Li Ln. generalize (firstn i l) (firstn n (skipn i l)) (skipn (i + n) l). intros l1 l2 l3 -> <- <-. rewrite (sbind_returned _ _ _ _ _ _ _ (place_ok z m s l1 (l2 ++ l3) (proj1 Hl))).
    rewrite <- app_length. rewrite (sbind_returned _ _ z m (first_of l3 s) z m) by (apply place_ok; rewrite <- app_assoc; apply Hl).
    destruct (sized_erase_ok z m s l1 l2 l3 Hv Hl) as (z' & m' & E & H1 & H2 & H3 & H4 & H5 & _). rewrite (sbind_returned _ _ _ _ _ _ _ E). unfold sret. exists (l1 ++ l3). rewrite map_app. split; [reflexivity|]. split; [exact H1|]. split; [exact H2|].
    eapply only_from; [exact Hv|exact H5| | | |exact H3].
    + auto.
    + intros q Hq Hn. apply H4. eapply names_in_sub; eassumption.
    + intros q Hq Hn. destruct Hn. rewrite !names_app, !in_app_iff in *. tauto.
  - destruct (sized_remove_if_ok f z m s l Hv Hl) as (z' & m' & E & H1 & H2 & H3 & H4 & H5 & _). rewrite (sbind_returned _ _ _ _ _ _ _ E). unfold sret. eexists. split; [exact (map_filter_values (fun v => negb (f v)) l)|]. split; [exact H1|]. split; [exact H2|].
    eapply only_from; [exact Hv|exact H5| | | |exact H3].
    + auto.
    + intros q Hq Hn. apply in_map_iff in Hq as (e & <- & He). apply H4; [exact He|]. destruct (f (snd e)) eqn:Ef; [reflexivity|]. destruct Hn. apply in_map, filter_In. rewrite Ef. auto.
    + intros q Hq Hn. destruct Hn. eapply names_filter, Hq.
  - destruct (sized_clear_ok z m s l Hv Hl) as (z' & m' & E & H1 & H2 & H3 & H4 & H5). rewrite E. exists []. split; [reflexivity|]. split; [exact H1|]. split; [exact H2|].
    eapply only_from; [exact Hv|exact H5| | | |apply others_below, H3].
    + auto.
    + auto.
    + intros q [].
  - rewrite map_length in *. pose proof (sized_resize_ok z m s l n v Hv Hl Hp) as H. destruct (sized_resize s (Z.of_nat n) v z m) as [u z' m'|z' m'|]; [| |contradiction].
    + destruct H as (k & Ek & Hk & H1 & H2 & H3 & H4 & H5). exists (firstn n l ++ k). rewrite map_app, Ek, firstn_map. split; [reflexivity|]. split; [exact H1|]. split; [exact H2|].
      eapply only_from; [exact Hv|exact H5| | | |apply others_below, H3].
      * intros q Hq. rewrite names_app, in_app_iff in *. tauto.
      * intros q Hq Hn. apply H4. rewrite <- (firstn_skipn n l) in Hq. rewrite !names_app, !in_app_iff in *. tauto.
      * intros q Hq Hn. apply Hk. rewrite !names_app, !in_app_iff in *. destruct Hq as [Hq|Hq]; [|exact Hq]. destruct Hn. rewrite <- (firstn_skipn n l), names_app. apply in_or_app. auto.
    + destruct H as (k & Hn & Hk & H1 & H2 & H3 & H4). exists (l ++ k). split; [|split; [exact H1|split; [exact H2|]]].
      * exists (length k). split; [exact Hn|]. rewrite map_app. f_equal. clear -Hk. induction k as [|e k IH]; cbn; [reflexivity|]. rewrite (proj1 (Hk e (or_introl eq_refl))). f_equal. apply IH. intros e' He'. apply Hk. now right.
      * eapply only_from; [exact Hv|exact H4| | | |apply others_below, H3].
        -- auto.
        -- intros q Hq Hn'. destruct Hn'. rewrite names_app. apply in_or_app. auto.
        -- intros q Hq Hn'. rewrite names_app in Hq. apply in_app_or in Hq as [Hq|Hq]; [tauto|]. apply in_map_iff in Hq as (e & <- & He). now apply Hk.
Qed.
Lemma calls_ok cs : forall z (m : memory) s l, valid m -> sized_at z m s l -> all_permitted cs (map snd l) ->
  exists z' m' k, calls s cs z m = SReturned tt z' m' /\ history_ends cs (map snd l) (map snd k) /\ steps s z m l z' m' k.
Proof.
  induction cs as [|c cs IH]; intros z m s l Hv Hl Hp; cbn [calls all_permitted history_ends] in *.
  - exists z, m, l. split; [reflexivity|]. split; [reflexivity|]. split; [exact Hv|]. split; [exact Hl|]. apply only_refl.
  - destruct Hp as (Hp & Hr & Ht). pose proof (call_ok c z m s l Hv Hl Hp) as H. destruct (call s c z m) as [u z1 m1|z1 m1|]; [| |contradiction].
    + destruct H as (k & Ek & H1 & H2 & H3). rewrite <- Ek in Hr. destruct (IH z1 m1 s k H1 H2 Hr) as (z2 & m2 & k2 & E & H4 & H5 & H6 & H7). exists z2, m2, k2. split; [exact E|].
      split; [left; now rewrite <- Ek|]. split; [exact H5|]. split; [exact H6|]. eapply only_trans; eassumption.
    + destruct H as (k & Ek & H1 & H2 & H3). destruct (IH z1 m1 s k H1 H2 (Ht _ Ek)) as (z2 & m2 & k2 & E & H4 & H5 & H6 & H7). exists z2, m2, k2. split; [exact E|].
      split; [right; eauto|]. split; [exact H5|]. split; [exact H6|]. eapply only_trans; eassumption.
Qed.
End History.
