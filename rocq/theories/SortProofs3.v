(** * chunked_insertion_sort: when it goes wrong; is_sorted *)

From Coq Require Import List Arith Bool Lia Permutation.
From Verif Require Import Mem MemLemmas SpecVec VecLemmas Sort SpecSort SortLemmas SortProofs SortProofs2.
Import ListNotations.
Local Open Scope nat_scope.

Section Survives.
Context {V : Type} (moved : V -> V) (lt : V -> V -> bool).
Local Notation M := (M V).
Local Notation world := (world V).

(** If the call does not end in a fault, it returns and then [Q]. *)
Definition survives {X A} (m : M X A) (x : X) (w : world) (Q : X -> A -> world -> Prop) : Prop :=
  match m x w with Ret x a w => Q x a w | Exc _ _ => False | Bad _ => True end.
Lemma wp_survives {X A} (m : M X A) x w Q : wp m x w Q (fun _ _ => False) -> survives m x w Q.
Proof. unfold wp, survives. now destruct (m x w). Qed.
Lemma survives_bind {X A B} (m : M X A) (k : A -> M X B) x w Q :
  survives m x w (fun x a w => survives (k a) x w Q) -> survives (bind m k) x w Q.
Proof. unfold survives, bind. now destruct (m x w). Qed.
Lemma survives_conseq {X A} (m : M X A) x w (Q Q' : X -> A -> world -> Prop) :
  survives m x w Q -> (forall x a w, Q x a w -> Q' x a w) -> survives m x w Q'.
Proof. unfold survives. destruct (m x w); auto. Qed.

(** An object is alive at index [j] of block [b], and nothing throws. *)
Definition clogged (b j : nat) (w : world) : Prop :=
  ~ In true (script w) /\ exists cells v, heap w b = Some cells /\ nth_error cells j = Some (Some v).

Lemma survives_load {X} p i (x : X) w (Q : X -> V -> world -> Prop) : (forall v, Q x v w) -> survives (load p i) x w Q.
Proof. intros H. unfold survives, load. destruct (find_cell w p i) as [[[b cs] [v|]]|]; auto. Qed.
Lemma survives_less b j {X} p i q i' (x : X) w (Q : X -> bool -> world -> Prop) :
  clogged b j w -> (forall c w, clogged b j w -> Q x c w) -> survives (less_at lt p i q i') x w Q.
Proof.
  intros [Hs Hc] HQ. unfold less_at. apply survives_bind, survives_load. intros u.
  apply survives_bind, survives_load. intros v. apply survives_bind. unfold survives, may_throw.
  destruct (script w) as [|[|] s] eqn:E.
  - apply HQ. split; auto. now rewrite E.
  - destruct Hs. now left.
  - apply HQ. split; [|exact Hc]. intros K. apply Hs. now right.
Qed.
(** Relocating into the place of a living object is a fault, and relocating to another place leaves it there. *)
Lemma survives_relocate b j {X} i b' i' (x : X) w (Q : X -> unit -> world -> Prop) :
  b' <> b -> clogged b j w ->
  (i <> j -> forall w, clogged b j w -> Q x tt w) ->
  survives (construct_at moved (Some b) i (Relocate (Some b') i')) x w Q.
Proof.
  intros D [Hs (cells & v & Hb & Hj)] HQ. unfold construct_at. apply survives_bind. unfold survives at 1, require_raw, find_cell.
  rewrite Hb. destruct (nth_error cells i) as [[c|]|] eqn:Ei; auto.
  assert (Dij : i <> j) by (intros ->; rewrite Hj in Ei; discriminate).
  apply survives_bind. cbn [make]. unfold relocate. apply survives_bind, survives_load. intros u.
  apply survives_bind. unfold survives at 1, destroy, find_cell.
  destruct (heap w b') as [cs'|] eqn:Eb'; auto. destruct (nth_error cs' i') as [[c'|]|] eqn:Ei'; auto.
  unfold survives at 1, ret. unfold survives, begin_life, find_cell. cbn [heap set_block].
  destruct (Nat.eqb_spec b b'); [congruence|]. rewrite Hb, Ei. apply HQ; auto. split; [exact Hs|].
  exists (set_nth cells i (Some u)), v. cbn [heap set_block]. rewrite Nat.eqb_refl. split; auto.
  rewrite nth_error_set_nth. destruct (Nat.eqb_spec j i); [congruence|]. exact Hj.
Qed.
Lemma survives_in_order b j {X} i b' xs (x : X) w (Q : X -> unit -> world -> Prop) :
  b' <> b -> clogged b j w -> i <= j < i + length xs -> survives (relocate_in_order moved (Some b) i (Some b') xs) x w Q.
Proof.
  intros D. revert i x w. induction xs as [|x0 xs IH]; intros i x w H L; cbn [length] in L; [lia|].
  cbn [relocate_in_order]. apply survives_bind. eapply survives_relocate; eauto.
  intros Dij w' H'. apply IH; auto. lia.
Qed.
(** Every path of the tree relocates [n] objects. *)
Fixpoint relocates (n : nat) (t : tree) : bool :=
  match t with If _ _ yes no => relocates n yes && relocates n no | Do _ => false | Out js => length js =? n end.
Lemma survives_run b j n {X} b' refs t (x : X) w (Q : X -> unit -> world -> Prop) :
  b' <> b -> clogged b j w -> j < n -> relocates n t = true -> survives (run moved lt (Some b') refs (Some b) 0 t) x w Q.
Proof.
  intros D H L. revert w H. induction t as [i i' yes IHy no IHn|ops|js]; intros w H Ht; cbn in *; try discriminate.
  - apply andb_prop in Ht as [Hy Hn]. apply survives_bind. eapply survives_less; eauto. intros c w' H'. destruct c; auto.
  - apply Nat.eqb_eq in Ht. eapply survives_in_order; eauto. rewrite map_length. lia.
Qed.
Lemma survives_chunks b j {X} cheap p first it k (x : X) w :
  p <> b -> clogged b j w -> j < 4 ->
  survives (chunk_loop moved lt cheap (Some p) first it (Some b) k) x w (fun _ _ w => clogged b j w).
Proof.
  intros D H L. destruct k as [|k]; [exact H|]. cbn [chunk_loop]. apply survives_bind. unfold sort_exactly_n_relocate.
  assert (Ht : exists t, relocate_tree cheap 4 = Some t /\ relocates 4 t = true) by (destruct cheap; eexists; split; reflexivity).
  destruct Ht as (t & -> & Ht). apply survives_bind. eapply survives_run; eauto.
Qed.
End Survives.

Section Fails.
Context {V : Type} (moved : V -> V) (lt : V -> V -> bool) (quiet : Prop) (Hlt : strict_weak_order lt).
Local Notation M := (M V).
Local Notation world := (world V).
Local Notation at_ := (@at_ V quiet).
Local Notation least_in := (least_in lt).

Lemma at_clogged w h b cells j v :
  quiet -> at_ w h -> h b = Some cells -> nth_error cells j = Some (Some v) -> clogged b j w.
Proof.
  intros Hq (H1 & _ & H3) Hb Hj. split; auto. exists cells, v. split; auto. rewrite H1. exact Hb.
Qed.

(** The merge leaves an object in the buffer when the first range has no smallest element. *)
Lemma wp_merge_leaves {Y} (y : Y) fuel b pre l1 n2 post b' r1 l2 r2 h w :
  length l1 + n2 <= fuel -> b <> b' -> l1 <> [] -> l2 <> [] -> n2 = length l2 ->
  ordered lt l1 -> ordered lt l2 -> ~ least_in l1 l2 -> quiet ->
  at_ w h ->
  h b = Some (pre ++ map Some l1 ++ repeat None n2 ++ post) ->
  h b' = Some (r1 ++ map Some l2 ++ r2) ->
  wp (merge_loop moved lt fuel (Some b) (length pre) (length l1) (Some b') (length r1) n2 (length pre + length l1 + n2)) y w
    (fun _ _ w' => exists j, j < length r1 + n2 /\ clogged b' j w') (fun _ _ => False).
Proof.
  intros Hf Db. revert l1 n2 post l2 r2 h w Hf.
  induction fuel as [|fuel IH]; intros l1 n2 post l2 r2 h w Hf N1 N2 Hn2 O1 O2 Hmin Hq H Hb Hb'.
  { destruct l1; [congruence|]. cbn in Hf. lia. }
  destruct (exists_last N1) as (l1' & a & ->). destruct (exists_last N2) as (l2' & c & ->).
  rewrite !app_length in *. cbn [length] in *. subst n2. cbn [merge_loop].
  replace (length l1' + 1 - 1) with (length l1') by lia. replace (length l2' + 1 - 1) with (length l2') by lia.
  rewrite !map_app in Hb, Hb'. cbn [map] in Hb, Hb'. rewrite <- !app_assoc in Hb, Hb'. cbn [app] in Hb, Hb'.
  apply wp_bind. eapply wp_less_at; [exact H|exact Hb'| |exact Hb| | |].
  { rewrite app_assoc. apply nth_error_mid. now rewrite app_length, map_length. }
  { rewrite app_assoc. apply nth_error_mid. now rewrite app_length, map_length. }
  2:{ intros w' K. destruct (K Hq). }
  intros w1 H1. destruct (lt c a) eqn:C.
  - apply wp_bind.
    eapply wp_relocate_up with (l1 := pre ++ map Some l1') (l2 := repeat None (length l2')) (l3 := post) (v := a).
    { exact H1. }
    { rewrite Hb, Nat.add_1_r, repeat_tail, <- app_assoc. reflexivity. }
    { now rewrite app_length, map_length. }
    { rewrite app_length, map_length, repeat_length. lia. }
    intros w2 H2.
    destruct l1' as [|a0 l1''] eqn:El1.
    { replace (length pre =? length pre + length (@nil V)) with true by (symmetry; apply Nat.eqb_eq; cbn; lia).
      replace (length r1 + length l2' - length r1) with (length l2') by lia.
      cbn [map app] in H2. rewrite app_nil_r in H2. rewrite <- repeat_app_cons in H2.
      eapply wp_uninitialized_relocate with (vs := l2') (l1 := r1) (l2 := Some c :: r2) (r1 := pre) (r2 := None :: Some a :: post);
        [exact H2|congruence| |reflexivity|reflexivity| |reflexivity|].
      - rewrite upd_other by auto. exact Hb'.
      - now rewrite upd_same.
      - intros w3 H3. exists (length r1 + length l2'). split; [lia|].
        eapply at_clogged; [exact Hq|exact H3| |].
        + rewrite upd_other, upd_same by auto. reflexivity.
        + rewrite app_assoc. apply nth_error_mid. now rewrite app_length, repeat_length. }
    rewrite <- El1 in *. assert (L0 : 0 < length l1') by (rewrite El1; cbn; lia).
    assert (N1' : l1' <> []) by (rewrite El1; discriminate).
    replace (length pre =? length pre + length l1') with false by (symmetry; apply Nat.eqb_neq; lia).
    replace (length pre + (length l1' + 1) + (length l2' + 1) - 1) with (length pre + length l1' + (length l2' + 1)) by lia.
    eapply IH with (l2 := l2' ++ [c]) (post := Some a :: post); [lia|exact N1'|exact N2|rewrite app_length; reflexivity| |exact O2| |exact Hq|exact H2| |].
    + apply (ordered_snoc lt) in O1. apply O1.
    + intros K. apply Hmin. eapply least_in_sub; [|apply incl_refl|exact K]. apply incl_appl, incl_refl.
    + rewrite upd_same. rewrite Nat.add_1_r, repeat_tail. rewrite <- !app_assoc. cbn [map app].
      f_equal. f_equal. f_equal. cbn [repeat]. now rewrite repeat_app_cons.
    + rewrite upd_other by auto. rewrite Hb', map_app, <- app_assoc. reflexivity.
  - apply wp_bind.
    assert (Ea : forall z, In z (l1' ++ [a]) -> lt c z = false).
    { intros z Hz. apply in_app_or in Hz as [Hz|[<-|[]]]; auto.
      apply (ordered_snoc lt) in O1. apply (ge_trans lt Hlt _ a); [|exact C]. now apply O1. }
    eapply wp_relocate_to with (l1 := r1 ++ map Some l2') (l2 := r2) (v := c)
      (r1 := pre ++ map Some l1' ++ Some a :: repeat None (length l2')) (r2 := post).
    { exact H1. } { congruence. }
    { rewrite Hb', <- app_assoc. reflexivity. }
    { now rewrite app_length, map_length. }
    { rewrite Hb, Nat.add_1_r, repeat_tail. repeat (rewrite <- ?app_assoc; cbn [app]). reflexivity. }
    { rewrite !app_length, map_length. cbn [length]. rewrite repeat_length. lia. }
    intros w2 H2.
    assert (Hmin' : ~ least_in (l1' ++ [a]) l2').
    { intros (z & Hz & Ha). apply Hmin. exists z. split; auto.
      intros v Hv. apply in_app_or in Hv as [Hv|[<-|[]]]; auto. }
    destruct l2' as [|c0 l2''] eqn:El2.
    { destruct Hmin'. exists a. split; [apply in_or_app; right; now left|contradiction]. }
    rewrite <- El2 in *. assert (L0 : 0 < length l2') by (rewrite El2; cbn; lia).
    assert (N2' : l2' <> []) by (rewrite El2; discriminate).
    replace (length r1 =? length r1 + length l2') with false by (symmetry; apply Nat.eqb_neq; lia).
    replace (length pre + (length l1' + 1) + (length l2' + 1) - 1) with (length pre + (length l1' + 1) + length l2') by lia.
    replace (length l1' + 1) with (length (l1' ++ [a])) by (rewrite app_length; reflexivity).
    eapply wp_conseq; [eapply IH with (l2 := l2') (r2 := None :: r2) (post := Some c :: post); [rewrite app_length; cbn; lia|exact N1|exact N2'|reflexivity|exact O1| |exact Hmin'|exact Hq|exact H2| |]|cbv beta|auto].
    + apply (ordered_snoc lt) in O2. apply O2.
    + rewrite upd_same, map_app. cbn [map]. repeat (rewrite <- ?app_assoc; cbn [app]). reflexivity.
    + rewrite upd_other, upd_same, <- app_assoc by congruence. reflexivity.
    + intros _ _ w3 (j & L & K). exists j. split; [lia|exact K].
Qed.

Lemma chunks_fail {Y} (y : Y) cheap k b pre s rest post b' h w :
  b <> b' -> quiet -> length rest = 4 * k -> ordered lt s ->
  (s <> [] -> ~ least_in s rest) -> (s = [] -> rest <> [] /\ ~ least_in (firstn 4 rest) rest) ->
  at_ w h -> h b = Some (pre ++ map Some (s ++ rest) ++ post) -> h b' = Some (repeat None 4) ->
  survives (chunk_loop moved lt cheap (Some b) (length pre) (length pre + length s) (Some b') k) y w
    (fun _ _ w => exists j, clogged b' j w).
Proof.
  intros Db Hq. revert s rest h w. induction k as [|k IH]; intros s rest h w Hl Os Hs Hn H Hb Hb'.
  { apply length_zero_iff_nil in Hl. subst rest. exfalso. destruct s as [|s0 s]; [now destruct (Hn eq_refl)|].
    apply Hs; [discriminate|]. exists s0. split; [now left|contradiction]. }
  cbn [chunk_loop].
  destruct rest as [|x1 [|x2 [|x3 [|x4 rest]]]]; cbn in Hl; try lia. assert (Hl' : length rest = 4 * k) by lia.
  set (c := [x1; x2; x3; x4]). change (x1 :: x2 :: x3 :: x4 :: rest) with (c ++ rest) in *.
  assert (Ht : exists t', relocate_tree cheap 4 = Some t') by (destruct cheap; eexists; reflexivity).
  destruct Ht as [t' Ht'].
  apply survives_bind. replace (length pre + length s) with (length (pre ++ map Some s)) by (now rewrite app_length, map_length).
  change 0 with (length (@nil (option V))). apply wp_survives.
  eapply wp_relocate_sort with (l := c) (post := map Some rest ++ post) (r1 := []) (r2 := []);
    [exact Hlt|exact Ht'|reflexivity|exact Db|exact H| | | |].
  { rewrite Hb, !map_app, <- !app_assoc. reflexivity. }
  { exact Hb'. }
  2:{ intros w' K. destruct (K Hq). }
  intros c' w1 Hc' H1.
  pose proof (sorting_as_sorting lt _ _ _ Hc') as [Pc Oc].
  assert (Lc : length c' = 4) by (rewrite <- (Permutation_length Pc); reflexivity).
  rewrite app_length, map_length. replace (length pre + length s - length pre) with (length s) by lia.
  assert (Next : forall m w2, stable_sorting lt (s ++ c') m -> ~ least_in m rest ->
    at_ w2 (upd (upd h b (Some (pre ++ map Some m ++ map Some rest ++ post))) b' (Some (repeat None 4))) ->
    survives (chunk_loop moved lt cheap (Some b) (length pre) (length pre + length s + 4) (Some b') k) y w2
      (fun _ _ w => exists j, clogged b' j w)).
  { intros m w2 Hm Hnot H2. pose proof Hm as [[Pm Om] _].
    assert (Lm : length m = length s + 4) by (rewrite <- (Permutation_length Pm), app_length; lia).
    replace (length pre + length s + 4) with (length pre + length m) by lia.
    eapply IH with (rest := rest) (s := m); [exact Hl'|exact Om| | |exact H2| |].
    - intros _. exact Hnot.
    - intros ->. cbn in Lm. lia.
    - rewrite upd_other, upd_same by auto. now rewrite map_app, <- app_assoc.
    - now rewrite upd_same. }
  apply survives_bind. unfold merge_relocate_second_range. cbn [app] in H1. rewrite app_nil_r in H1.
  destruct (length s =? 0) eqn:L0.
  - apply Nat.eqb_eq, length_zero_iff_nil in L0. subst s. apply wp_survives.
    eapply wp_uninitialized_relocate with (l1 := []) (l2 := []) (vs := c') (r1 := pre) (r2 := map Some rest ++ post);
      [exact H1|congruence| |reflexivity|now rewrite Lc| |reflexivity|].
    + rewrite upd_same, app_nil_r. reflexivity.
    + rewrite upd_other, upd_same by auto. cbn [map]. rewrite app_nil_r. reflexivity.
    + intros w2 H2. eapply (Next c').
      * cbn [app]. now apply stable_same.
      * intros (z & Hz & Ha). apply (proj2 (Hn eq_refl)).
        destruct c' as [|z0 c'']; [discriminate|].
        exists z0. split; [apply (Permutation_in _ (Permutation_sym Pc)); now left|].
        assert (Oz : forall v, In v (z0 :: c'') -> lt v z0 = false).
        { intros v [<-|Hv]; [apply Hlt|]. apply ordered_cons in Oc. now apply Oc. }
        intros v Hv. apply in_app_or in Hv as [Hv|Hv].
        -- apply Oz. now apply (Permutation_in _ Pc).
        -- apply (ge_trans lt Hlt z0 z v); auto.
      * eapply at_ext; [exact H2|]. cbn [app map]. rewrite app_nil_r. intros j. unfold upd.
        destruct (j =? b) eqn:K1; destruct (j =? b') eqn:K2; auto. apply Nat.eqb_eq in K1, K2. congruence.
  - assert (Ns : s <> []) by (destruct s; [discriminate|congruence]).
    assert (Hdec : least_in s c' \/ ~ least_in s c').
    { destruct (existsb (fun z => forallb (fun v => negb (lt v z)) c') s) eqn:K.
      - left. apply existsb_exists in K as (z & Hz & Ka). exists z. split; auto.
        rewrite forallb_forall in Ka. intros v Hv. specialize (Ka v Hv). now destruct (lt v z).
      - right. intros (z & Hz & Ha). apply not_true_iff_false in K. apply K. apply existsb_exists. exists z. split; auto.
        apply forallb_forall. intros v Hv. now rewrite Ha. }
    destruct Hdec as [Hleast|Hnot].
    + apply wp_survives.
      eapply wp_merge_loop with (l2 := c') (r1 := []) (r2 := []) (dn := []) (post := map Some rest ++ post);
        [exact Hlt|lia|exact Db|exact Ns|destruct c'; [discriminate|congruence]|now symmetry|exact Os|exact Oc|exact Hleast|exact Hq|exact H1| | |].
      * rewrite upd_other, upd_same by auto. cbn [map app]. now rewrite <- app_assoc.
      * rewrite upd_same. cbn [app]. now rewrite app_nil_r.
      * intros m w2 Hm H2. eapply Next; [exact Hm| |].
        -- intros (z & Hz & Ha). destruct Hleast as (z0 & Hz0 & Ha0). apply (Hs Ns).
           destruct Hm as [[Pm _] _]. apply (Permutation_in _ (Permutation_sym Pm)) in Hz.
           destruct (lt z z0) eqn:Lz.
           ++ (* z is less than z0, so it is in s and a smallest element of everything *)
              assert (Hzs : In z s). { apply in_app_or in Hz as [Hz|Hz]; auto. rewrite Ha0 in Lz by auto. discriminate. }
              exists z. split; auto. intros v Hv. apply in_app_or in Hv as [Hv|Hv]; auto.
              apply (ge_trans lt Hlt z z0 v).
              ** now apply (lt_asym lt Hlt).
              ** apply Ha0. now apply (Permutation_in _ Pc).
           ++ exists z0. split; auto. intros v Hv. apply in_app_or in Hv as [Hv|Hv].
              ** apply Ha0. now apply (Permutation_in _ Pc).
              ** apply (ge_trans lt Hlt z0 z v); auto.
        -- eapply at_ext; [exact H2|]. cbn [app map]. rewrite app_nil_r.
           intros j. unfold upd. destruct (j =? b) eqn:K1; destruct (j =? b') eqn:K2; auto.
    + apply wp_survives. eapply wp_conseq; [eapply wp_merge_leaves with (l2 := c') (r1 := []) (r2 := []) (post := map Some rest ++ post);
        [lia|exact Db|exact Ns|destruct c'; [discriminate|congruence]|now symmetry|exact Os|exact Oc|exact Hnot|exact Hq|exact H1| |]|cbv beta|auto].
      * rewrite upd_other, upd_same by auto. now rewrite <- app_assoc.
      * rewrite upd_same. cbn [app]. now rewrite app_nil_r.
      * intros y2 _ w2 (j & L & K). cbn in L. eapply survives_conseq; [eapply survives_chunks; eauto|].
        intros y3 a3 w3 K3. now exists j.
Qed.

(** A buffer that is left with an object in it. *)
Lemma with_buffer_fails {Y A} n (body : ptr -> M Y A) (y : Y) h w :
  at_ w h ->
  (forall b w', h b = None -> at_ w' (upd h b (Some (repeat None n))) ->
     survives (body (Some b)) y w' (fun _ _ w => exists j, clogged b j w)) ->
  exists f, with_buffer n body y w = Bad f.
Proof.
  intros H Hbody. unfold with_buffer, with_local. cbn [new_block]. cbn [fst snd].
  set (b := next w). set (w1 := World _ _ _).
  assert (Hb : h b = None) by (apply (proj1 (proj2 H)); unfold b; lia).
  assert (H1 : at_ w1 (upd h b (Some (repeat None n)))).
  { destruct H as (E & U & S). split; [|split].
    - intros k. unfold w1, upd. cbn. fold b. destruct (k =? b); auto.
    - intros k Hk. unfold w1 in Hk. cbn in Hk. unfold upd. destruct (Nat.eqb_spec k b); [unfold b in *; lia|]. apply U. lia.
    - exact S. }
  specialize (Hbody b w1 Hb H1). unfold survives in Hbody.
  destruct (body (Some b) y w1) as [y2 a w2|y2 w2|f]; [|contradiction|eauto].
  destruct Hbody as (j & _ & cells & v & Hc & Hj). cbn [fst snd]. unfold deallocate. rewrite Hc.
  destruct (negb (length cells =? n)); eauto.
  match goal with |- context [forallb ?f cells] => destruct (forallb f cells) eqn:F; eauto end. rewrite forallb_forall in F.
  apply nth_error_In in Hj. specialize (F _ Hj). discriminate.
Qed.

Lemma chunked_fails {Y} (y : Y) cheap b pre l post n h w :
  quiet -> n = length l -> 4 <= n -> ~ least_in (firstn (if n mod 4 =? 0 then 4 else n mod 4) l) l ->
  at_ w h -> h b = Some (pre ++ map Some l ++ post) ->
  exists f, chunked_insertion_sort moved lt cheap (Some b) (length pre) n y w = Bad f.
Proof.
  intros Hq Hn H4 Hmin H Hb. unfold chunked_insertion_sort.
  assert (D : n = 4 * (n / 4) + n mod 4) by (apply Nat.div_mod; lia).
  assert (M4 : n mod 4 < 4) by (apply Nat.mod_upper_bound; lia).
  remember (n mod 4) as k eqn:Ek. set (u := firstn k l). set (v := skipn k l).
  assert (El : l = u ++ v) by (symmetry; apply firstn_skipn).
  assert (Lu : length u = k) by (unfold u; rewrite firstn_length; lia).
  assert (Lv : length v = 4 * (n / 4)) by (unfold v; rewrite skipn_length; lia).
  assert (Goal : wp (small_size_optimized_sort moved lt cheap (Some b) (length pre) k (bad Broken)) y w
    (fun y _ w => exists f, with_buffer 4 (fun buffer => chunk_loop moved lt cheap (Some b) (length pre) (length pre + k) buffer (n / 4)) y w = Bad f)
    (fun _ _ => False)).
  { eapply wp_small_size with (l := u) (post := map Some v ++ post); [exact Hlt|now symmetry|exact H| | | |].
    { rewrite Hb. rewrite El at 1. now rewrite map_app, <- app_assoc. }
    2:{ intros w' K. destruct (K Hq). }
    2:{ intros K. lia. }
    intros s w1 Hs H1.
    pose proof (sorting_as_sorting lt _ _ _ Hs) as [Ps Os].
    assert (Ls : length s = k) by (rewrite <- (Permutation_length Ps); exact Lu).
    eapply with_buffer_fails; [exact H1|]. intros b' w2 Hb' H2.
    assert (Db : b <> b'). { intros ->. rewrite upd_same in Hb'. discriminate. }
    rewrite <- Ls. eapply chunks_fail with (rest := v) (s := s); [exact Db|exact Hq|exact Lv|exact Os| | |exact H2| |].
    - intros Ns. destruct (Nat.eq_dec k 0) as [K0|K0]. { destruct s; [congruence|]. cbn in Ls. lia. }
      destruct (Nat.eqb_spec k 0) as [|_]; [congruence|].
      intros (z & Hz & Ha). apply Hmin.
      (* the first element of s is smallest *)
      destruct s as [|s0 s']; [congruence|].
      assert (Oz : forall v, In v (s0 :: s') -> lt v s0 = false).
      { intros z1 [<-|Hv]; [apply Hlt|]. apply ordered_cons in Os. now apply Os. }
      exists s0. split; [apply (Permutation_in _ (Permutation_sym Ps)); now left|].
      intros z1 Hz1. rewrite El in Hz1. apply in_app_or in Hz1 as [Hz1|Hz1].
      + apply Oz. now apply (Permutation_in _ Ps).
      + apply (ge_trans lt Hlt s0 z z1); auto.
    - intros ->. cbn in Ls.
      assert (v = l) as Ev by (unfold v; now rewrite <- Ls). rewrite <- Ls in Hmin. cbn [Nat.eqb] in Hmin.
      rewrite Ev. split; [|exact Hmin]. intros ->. cbn in Hn. lia.
    - rewrite upd_other, upd_same by auto. now rewrite map_app, <- app_assoc.
    - now rewrite upd_same. }
  unfold wp in Goal. unfold bind at 1.
  destruct (small_size_optimized_sort moved lt cheap (Some b) (length pre) k (bad Broken) y w) as [y' a w'|y' w'|f];
    [exact Goal|contradiction|eauto].
Qed.

(** ** is_sorted *)
Lemma wp_is_sorted_loop {Y} (y : Y) b pre a l post h w (Q : Y -> bool -> world -> Prop) (E : Y -> world -> Prop) :
  at_ w h -> h b = Some (pre ++ map Some (a :: l) ++ post) ->
  (forall r w', (r = true <-> ordered lt (a :: l)) -> at_ w' h -> Q y r w') -> (forall w', ~ quiet -> at_ w' h -> E y w') ->
  wp (is_sorted_loop lt (Some b) (length pre) (S (length pre)) (length l)) y w Q E.
Proof.
  intros H Hb HQ HE. revert pre a w H Hb HQ. induction l as [|c l IH]; intros pre a w H Hb HQ.
  - apply wp_ret. apply HQ; auto. split; auto. intros _. apply (ordered_one lt).
  - cbn [length is_sorted_loop]. cbn [map app] in Hb. apply wp_bind.
    eapply wp_less_at; [exact H|exact Hb| |exact Hb| | |exact (fun w' Hn H' => HE w' Hn H')].
    { rewrite nth_error_app2 by lia. replace (S (length pre) - length pre) with 1 by lia. reflexivity. }
    { now apply nth_error_mid. }
    intros w1 H1. destruct (lt c a) eqn:C.
    + apply wp_ret. apply HQ; auto. split; [discriminate|]. intros O. apply ordered_cons in O as [O _].
      rewrite O in C by now left. discriminate.
    + replace (S (length pre)) with (length (pre ++ [Some a])) by (rewrite app_length; cbn; lia).
      apply IH with (a := c); auto.
      { rewrite <- app_assoc. exact Hb. }
      intros r w' Hr H'. apply HQ; auto. rewrite Hr. split.
      * intros O. apply ordered_cons. split; auto. intros z [<-|Hz]; auto.
        apply ordered_cons in O as [O _]. apply (ge_trans lt Hlt a c z); auto.
      * intros O. apply ordered_cons in O. apply O.
Qed.
Lemma wp_is_sorted {Y} (y : Y) b pre l post n h w (Q : Y -> bool -> world -> Prop) (E : Y -> world -> Prop) :
  n = length l -> at_ w h -> h b = Some (pre ++ map Some l ++ post) ->
  (forall r w', (r = true <-> ordered lt l) -> at_ w' h -> Q y r w') -> (forall w', ~ quiet -> at_ w' h -> E y w') ->
  wp (is_sorted lt (Some b) (length pre) n) y w Q E.
Proof.
  intros -> H Hb HQ HE. destruct l as [|a l]; cbn [length is_sorted].
  - apply wp_ret. apply HQ; auto. split; auto. intros _. apply ordered_nil.
  - eapply wp_is_sorted_loop; eauto.
Qed.
End Fails.
