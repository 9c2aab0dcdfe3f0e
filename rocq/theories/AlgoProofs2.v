(** * Introsort: proofs *)

From Coq Require Import List Arith Bool Lia Permutation.
From Verif Require Import Mem MemLemmas SpecVec VecLemmas Sort SpecSort SortLemmas SortProofs SortProofs2 Algo AlgoProofs SpecAlgo.
Import ListNotations.
Local Open Scope nat_scope.

Lemma back_in_range {V} (pre post : list (option V)) l refs cs c :
  frame refs (pre ++ map Some l ++ post) cs -> holds cs refs (map Some c) ->
  (forall r, In r refs -> length pre <= r < length pre + length l) ->
  exists l', cs = pre ++ map Some l' ++ post /\ length l' = length l.
Proof.
  intros [L F] H B. destruct l as [|d l0].
  { exists []. split; auto. apply nth_error_ext. intros i. symmetry. rewrite <- F; auto. intros K. apply B in K. cbn in K. lia. }
  set (l := d :: l0) in *.
  set (l' := map (fun i => match nth_error cs (length pre + i) with Some (Some v) => v | _ => d end) (seq 0 (length l))).
  assert (Ll : length l' = length l) by (unfold l'; rewrite map_length, seq_length; reflexivity).
  exists l'. split; auto. apply nth_error_ext. intros i.
  destruct (le_lt_dec (length pre) i) as [G1|G1].
  2:{ rewrite F. { rewrite !nth_error_app1 by lia. reflexivity. } intros K. apply B in K. lia. }
  destruct (le_lt_dec (length pre + length l) i) as [G2|G2].
  { rewrite F. { rewrite !(nth_error_app2 pre) by lia. rewrite !nth_error_app2 by (rewrite map_length; lia). rewrite !map_length. now rewrite Ll. }
    intros K. apply B in K. lia. }
  replace i with (length pre + (i - length pre)) by lia. set (k := i - length pre). assert (Hk : k < length l) by (unfold k; lia).
  rewrite nth_error_middle by (rewrite map_length; lia).
  rewrite nth_error_map. unfold l'. rewrite nth_error_map. rewrite (nth_error_nth' _ 0) by (rewrite seq_length; lia).
  rewrite seq_nth by lia. cbn [option_map plus].
  assert (Hs : exists v, nth_error cs (length pre + k) = Some (Some v)).
  { destruct (in_refs (length pre + k) refs) as [K|K].
    - apply In_nth_error in K as [j Hj]. rewrite (holds_nth _ _ _ _ _ H Hj). rewrite nth_error_map.
      assert (j < length c). { pose proof (Forall2_len _ _ _ H) as E. rewrite map_length in E. rewrite <- E. eapply nth_lt; eauto. }
      destruct (nth_error c j) eqn:E; [cbn; eauto|]. apply nth_error_None in E. lia.
    - rewrite F by auto. rewrite nth_error_middle by (rewrite map_length; lia). rewrite nth_error_map.
      destruct (nth_error l k) eqn:E; [cbn; eauto|]. apply nth_error_None in E. lia. }
  destruct Hs as [v ->]. reflexivity.
Qed.
Lemma perm_of_cells {V} (pre post : list (option V)) l l' :
  Permutation (pre ++ map Some l ++ post) (pre ++ map Some l' ++ post) -> Permutation l l'.
Proof.
  intros P. apply Permutation_app_inv_l in P. apply Permutation_app_inv_r in P.
  destruct l as [|d l]. { apply Permutation_nil in P. destruct l'; [auto|discriminate]. }
  apply (Permutation_map (fun c => match c with Some v => v | None => d end)) in P. rewrite !map_map, !map_id in P. exact P.
Qed.

Section Proofs.
Context {V : Type} (moved : V -> V) (quiet : Prop) (lt : V -> V -> bool) (Hlt : strict_weak_order lt).
Local Notation M := (M V).
Local Notation world := (world V).
Local Notation R := (@R V quiet).

Lemma wp_median {Y} (y : Y) h b pre post l rs t w (Q : Y -> unit -> world -> Prop) (E : Y -> world -> Prop) :
  in_place_tree (length rs) = Some t -> NoDup rs -> (forall r, In r rs -> r < length l) -> R h b pre post w l ->
  (forall l' w', Permutation l l' -> R h b pre post w' l' -> Q y tt w') ->
  (forall l' w', ~ quiet -> Permutation l l' -> R h b pre post w' l' -> E y w') ->
  wp (run moved lt (Some b) (map (Nat.add (length pre)) rs) None 0 t) y w Q E.
Proof.
  intros Ht N B H HQ HE. pose proof (in_place_checked _ _ Ht) as C.
  destruct l as [|d l0]. { destruct rs as [|r rs]; [discriminate|]. specialize (B r (or_introl eq_refl)). cbn in B. lia. }
  set (l := d :: l0) in *. set (refs := map (Nat.add (length pre)) rs).
  assert (N' : NoDup refs) by (apply FinFun.Injective_map_NoDup; auto; intros i j K; lia).
  assert (B' : forall r, In r refs -> length pre <= r < length pre + length l).
  { intros r Hr. apply in_map_iff in Hr as (k & <- & Hk). specialize (B k Hk). lia. }
  set (x := fun i => nth (nth i rs 0) l d). set (n := length rs) in *.
  assert (Hh : holds (pre ++ map Some l ++ post) refs (map Some (map x (seq 0 n)))).
  { unfold x. rewrite <- (map_map (fun i => nth i rs 0) (fun j => nth j l d)). unfold n. rewrite (map_nth_seq rs 0). unfold refs.
    clear - B. induction rs as [|r rs IH]; cbn [map]; constructor.
    - apply R_cell. apply nth_error_nth'. apply B. now left.
    - apply IH. intros k Hk. apply B. now right. }
  assert (Hv : view quiet h b refs (pre ++ map Some l ++ post) w (map Some (map x (seq 0 n)))).
  { exists (pre ++ map Some l ++ post). split; [exact H|]. split; [exact Hh|apply frame_refl]. }
  assert (Hback : forall p w', Permutation p (seq 0 n) -> view quiet h b refs (pre ++ map Some l ++ post) w' (map Some (map x p)) ->
    exists l', Permutation l l' /\ R h b pre post w' l').
  { intros p w' P (cs & H' & Hc & F). destruct (back_in_range _ _ _ _ _ _ F Hc B') as (l' & -> & _). exists l'. split; [|exact H'].
    eapply perm_of_cells. eapply frame_perm; [exact N'|exact Hh|exact Hc|exact F|]. apply Permutation_map, Permutation_map, Permutation_sym, P. }
  destruct (check_decide lt Hlt x true true 0 n t [] (Forall_nil _) C) as (p & Lp & Pp & Kp).
  eapply view_run_in_place with (x := x) (n := n); [exact N'|eapply check_in_range; eauto|exact Hv| |].
  - exists p. split; [exact Lp|]. intros w' W'. destruct (Hback p w') as (l' & P & H'); eauto.
  - intros w' Hq W'. destruct (Hback (seq 0 n) w') as (l' & P & H'); eauto.
Qed.

(** The contract of [heap_sort], for [at_]. *)
Definition sorts {Y} (hs : ptr -> nat -> nat -> M Y unit) : Prop :=
  forall (y : Y) h b pre post l w (Q : Y -> unit -> world -> Prop) (E : Y -> world -> Prop), R h b pre post w l ->
  (forall l' w', sorting lt l l' -> R h b pre post w' l' -> Q y tt w') ->
  (forall l' w', ~ quiet -> Permutation l l' -> R h b pre post w' l' -> E y w') ->
  wp (hs (Some b) (length pre) (length l)) y w Q E.
Lemma sorts_from {Y} (hs : ptr -> nat -> nat -> M Y unit) : sorts_ranges lt hs -> sorts hs.
Proof.
  intros S y h b pre post l w Q E H HQ HE.
  assert (Hu : unused_names w). { destruct H as (H1 & H2 & _). intros b' Hb'. rewrite H1. now apply H2. }
  assert (Hr : range_is w b pre l post). { destruct H as (H1 & _). unfold range_is. rewrite H1. apply upd_same. }
  specialize (S y w b pre l post Hu Hr).
  assert (K : forall w' l', unused_names w' -> only_in b w w' -> range_is w' b pre l' post -> (quiet -> ~ In true (script w')) ->
    R h b pre post w' l').
  { intros w' l' Hu' Ho Hr' Hq. destruct H as (H1 & H2 & _).
    assert (Eq : eqh (heap w') (upd h b (Some (pre ++ map Some l' ++ post)))).
    { intros b'. unfold upd. destruct (Nat.eqb_spec b' b) as [->|Db]; [exact Hr'|]. rewrite Ho by auto. rewrite H1. now apply upd_other. }
    split; [exact Eq|]. split; auto. intros b' Hb'. rewrite <- Eq. now apply Hu'. }
  unfold wp. unfold ends in S. destruct (hs (Some b) (length pre) (length l) y w) as [y' [] w'|y' w'|f]; [| |exact S].
  - destruct S as (-> & Hu' & Ho & Hq & l' & Hr' & Hs). apply (HQ l'); auto. apply K; auto. intros q. apply Hq. intros T. destruct H as (_ & _ & H3). exact (H3 q T).
  - destruct S as (-> & Hu' & Ho & Ht & l' & Hr' & Hp). destruct H as (_ & _ & H3). apply (HE l'); auto.
    + intros q. exact (H3 q Ht).
    + apply K; auto. intros q. elim (H3 q Ht).
Qed.

Lemma R_split_left h b pre post w l1 l2 : R h b pre post w (l1 ++ l2) <-> R h b pre (map Some l2 ++ post) w l1.
Proof. unfold AlgoProofs.R. now rewrite map_app, <- app_assoc. Qed.
Lemma R_split_right h b pre post w l1 l2 : R h b pre post w (l1 ++ l2) <-> R h b (pre ++ map Some l1) post w l2.
Proof. unfold AlgoProofs.R. now rewrite map_app, <- !app_assoc. Qed.

Lemma on_firstn_skipn pr (l : list V) r : split_at pr l r ->
  exists l1 l2, l = l1 ++ l2 /\ length l1 = r /\ (forall a, In a l1 -> pr a = true) /\ (forall a, In a l2 -> pr a = false).
Proof.
  intros (L & F1 & F2). exists (firstn r l), (skipn r l). split; [now rewrite firstn_skipn|]. split; [now apply firstn_length_le|]. split.
  - intros a Ha. apply In_nth_error in Ha as [k Hk].
    assert (Hk' : k < r). { assert (k < length (firstn r l)) by (eapply nth_lt; eauto). rewrite firstn_length in *. lia. }
    specialize (F1 k Hk'). unfold on in F1. rewrite <- (firstn_skipn r l) in F1. rewrite nth_error_app1, Hk in F1; auto. eapply nth_lt; eauto.
  - intros a Ha. apply In_nth_error in Ha as [k Hk]. specialize (F2 (r + k)). unfold on in F2.
    rewrite <- (firstn_skipn r l) in F2. rewrite nth_error_app2 in F2 by (rewrite firstn_length; lia).
    rewrite firstn_length_le in F2 by lia. replace (r + k - r) with k in F2 by lia. rewrite Hk in F2. apply F2. lia.
Qed.
Lemma sorting_join v l1 l2 l1' l2' : sorting lt l1 l1' -> sorting lt l2 l2' ->
  (forall a, In a l1 -> lt a v = true) -> (forall a, In a l2 -> lt a v = false) -> sorting lt (l1 ++ l2) (l1' ++ l2').
Proof.
  intros [P1 O1] [P2 O2] F1 F2. split; [now apply Permutation_app|].
  intros i j a c Hij Ha Hc.
  destruct (le_lt_dec (length l1') i) as [G|G].
  - rewrite nth_error_app2 in Ha, Hc by lia. eapply (O2 (i - length l1') (j - length l1')); eauto. lia.
  - rewrite nth_error_app1 in Ha by auto. destruct (le_lt_dec (length l1') j) as [G'|G'].
    + rewrite nth_error_app2 in Hc by auto.
      assert (A : lt a v = true). { apply F1. apply (Permutation_in _ (Permutation_sym P1)). eapply nth_error_In; eauto. }
      assert (C : lt c v = false). { apply F2. apply (Permutation_in _ (Permutation_sym P2)). eapply nth_error_In; eauto. }
      destruct (lt c a) eqn:K; auto. destruct Hlt as (_ & T & _). rewrite (T _ _ _ K A) in C. discriminate.
    + rewrite nth_error_app1 in Hc by auto. eapply (O1 i j); eauto.
Qed.
Lemma sorting_perm l l1 l' : Permutation l l1 -> sorting lt l1 l' -> sorting lt l l'.
Proof. intros P [P1 O]. split; auto. etransitivity; eauto. Qed.

Lemma thousand n : 1000 <= n -> 8 <= n.
Proof. intros H. eapply Nat.le_trans; [|exact H]. repeat apply le_n_S. apply Nat.le_0_l. Qed.

Lemma wp_introsort {Y} (hs : ptr -> nat -> nat -> M Y unit) cheap depth : sorts hs ->
  forall (y : Y) h b pre post l n w (Q : Y -> unit -> world -> Prop) (E : Y -> world -> Prop), R h b pre post w l -> n = length l ->
  (forall l' w', sorting lt l l' -> R h b pre post w' l' -> Q y tt w') ->
  (forall l' w', ~ quiet -> Permutation l l' -> R h b pre post w' l' -> E y w') ->
  wp (introsort moved hs lt cheap depth (Some b) (length pre) n) y w Q E.
Proof.
  intros Hs. induction depth as [|depth IH]; intros y h b pre post l n w Q E H -> HQ HE.
  - cbn [introsort]. eapply wp_small_size; [exact Hlt|reflexivity|exact H|apply upd_same| | |].
    + intros l' w' S H'. apply (HQ l'); [eapply sorting_as_sorting; eauto|]. eapply at_ext; [exact H'|apply upd_upd].
    + intros w' Hq H'. apply (HE l); auto.
    + intros _. eapply Hs; eauto.
  - cbn [introsort]. eapply wp_small_size; [exact Hlt|reflexivity|exact H|apply upd_same| | |].
    + intros l' w' S H'. apply (HQ l'); [eapply sorting_as_sorting; eauto|]. eapply at_ext; [exact H'|apply upd_upd].
    + intros w' Hq H'. apply (HE l); auto.
    + intros Hn. set (n := length l) in *. assert (Hd2 : 0 < n / 2 < n - 1).
      { pose proof (Nat.div_mod n 2 ltac:(lia)). pose proof (Nat.mod_upper_bound n 2 ltac:(lia)). lia. }
      apply wp_bind.
      assert (G : forall l1 w1, Permutation l l1 -> R h b pre post w1 l1 ->
        wp (bind (iterator_partition lt (Some b) (length pre) (length pre + n / 2) (length pre + n)) (fun median =>
            bind (distance (length pre) median) (fun n1 =>
            bind (distance median (length pre + n)) (fun n2 =>
            bind (introsort moved hs lt cheap depth (Some b) (length pre) n1) (fun _ =>
            introsort moved hs lt cheap depth (Some b) median n2))))) y w1 Q E).
      { intros l1 w1 P1 H1. assert (L1 : length l1 = n) by (unfold n; now rewrite (Permutation_length P1)).
        assert (Hv : exists v, nth_error l1 (n / 2) = Some v).
        { destruct (nth_error l1 (n / 2)) eqn:K; eauto. apply nth_error_None in K. lia. }
        destruct Hv as [v Hv]. apply wp_bind. eapply wp_iterator_partition; [exact Hlt|exact H1|now symmetry|exact Hv| |].
        2:{ intros l2 w2 Hq P2 H2. apply (HE l2); auto. etransitivity; eauto. }
        intros l2 r w2 P2 Sp H2. assert (L2 : length l2 = n) by (now rewrite <- (Permutation_length P2)).
        assert (Lr : r <= n) by (destruct Sp; lia).
        destruct (on_firstn_skipn _ _ _ Sp) as (u & u' & -> & Lu & F1 & F2). rewrite app_length in L2.
        apply wp_bind, wp_distance; [lia|]. apply wp_bind, wp_distance; [lia|].
        apply wp_bind. eapply IH; [apply (proj1 (R_split_left h b pre post w2 u u')), H2|lia| |].
        2:{ intros s w3 Hq P3 H3. apply R_split_left in H3. apply (HE (s ++ u')); auto.
            rewrite P1, P2. now apply Permutation_app_tail. }
        intros s w3 S3 H3. apply R_split_left in H3. apply R_split_right in H3.
        assert (Ls : length s = r) by (rewrite <- Lu; symmetry; apply Permutation_length; apply S3).
        replace (length pre + r) with (length (pre ++ map Some s)) by (rewrite app_length, map_length; lia).
        eapply IH; [exact H3|rewrite app_length, map_length; lia| |].
        2:{ intros s' w4 Hq P4 H4. apply R_split_right in H4. apply (HE (s ++ s')); auto.
            rewrite P1, P2. apply Permutation_app; [apply S3|exact P4]. }
        intros s' w4 S4 H4. apply R_split_right in H4. apply (HQ (s ++ s')); auto.
        eapply sorting_perm; [etransitivity; [exact P1|exact P2]|]. eapply (sorting_join v); eauto. }
      assert (G' : forall l1 w1, Permutation l l1 -> R h b pre post w1 l1 -> ~ quiet -> E y w1) by (intros; eapply HE; eauto).
      destruct (1000 <=? n) eqn:K.
      * apply Nat.leb_le, thousand in K.
        assert (D4 : n = 4 * (n / 4) + n mod 4 /\ n mod 4 < 4) by (split; [apply Nat.div_mod; lia|apply Nat.mod_upper_bound; lia]).
        assert (D2 : n = 2 * (n / 2) + n mod 2 /\ n mod 2 < 2) by (split; [apply Nat.div_mod; lia|apply Nat.mod_upper_bound; lia]).
        revert D4 D2 G Hd2. generalize (n mod 4) (n mod 2) (n / 4) (n / 2). intros m4 m2 q4 q2 D4 D2 G Hd2.
        replace [length pre; length pre + q4; length pre + q2; length pre + q2 + q4; length pre + n - 1]
          with (map (Nat.add (length pre)) [0; q4; q2; q2 + q4; n - 1]).
        2:{ cbn [map]. repeat (apply f_equal2; [lia|]). reflexivity. }
        eapply wp_median; [reflexivity| | |exact H| |]; eauto.
        -- repeat constructor; cbn; lia.
        -- cbn. intros r [<-|[<-|[<-|[<-|[<-|[]]]]]]; fold n; lia.
      * clear K. revert G Hd2. generalize (n / 2). intros q2 G Hd2.
        replace [length pre; length pre + q2; length pre + n - 1]
          with (map (Nat.add (length pre)) [0; q2; n - 1]).
        2:{ cbn [map]. repeat (apply f_equal2; [lia|]). reflexivity. }
        eapply wp_median; [reflexivity| | |exact H| |]; eauto.
        -- repeat constructor; cbn; lia.
        -- cbn. intros r [<-|[<-|[<-|[]]]]; fold n; lia.
Qed.
End Proofs.
