(** * Proofs about append (Append.v) *)

From Coq Require Import List Arith Lia Bool.
From Verif Require Import Append SpecAppend.
Import ListNotations.

(** Room for the elements in a std::vector. *)
Definition fits {V} (k : kind) (n : nat) (t : target V) : Prop := k = StdVector /\ length (items t) + n <= room t.
Definition same_block {V} (t t' : target V) : Prop := room t' = room t /\ epoch t' = epoch t /\ allocations t' = allocations t.

Lemma push_ok {V} k grow copying (v : V) s :
  match push_back k grow copying v s with
  | Finished s' =>
      items (the_target s') = items (the_target s) ++ [v] /\ the_source s' = the_source s /\ incl (script s') (script s) /\
      (fits k 1 (the_target s) -> same_block (the_target s) (the_target s'))
  | Threw s' =>
      the_target s' = the_target s /\ the_source s' = the_source s /\ In true (script s) /\ (fits k 1 (the_target s) -> copying = true)
  | _ => False
  end.
Proof.
  unfold push_back, attempt, fits, same_block. destruct s as [t src sc]; cbn [the_target the_source script].
  destruct (Nat.leb_spec (room t) (length (items t))) as [L|L]; destruct k, copying; cbn [is_vector negb andb orb];
    (destruct sc as [|[] sc]; cbn; repeat match goal with |- _ /\ _ => split end; auto using incl_refl, incl_tl, in_eq; intros (E & F); (discriminate E || lia)).
Qed.

Lemma firstn_more {A} : forall i (us : list A) v, nth_error us i = Some v -> firstn (S i) us = firstn i us ++ [v].
Proof.
  induction i as [|i IH]; intros [|u us] v E; cbn in *; try discriminate; [injection E as ->; reflexivity |].
  rewrite <- (IH us v E). reflexivity.
Qed.

Lemma skipn_less {A} : forall i (us : list A) v, nth_error us i = Some v -> skipn i us = v :: skipn (S i) us.
Proof.
  induction i as [|i IH]; intros [|u us] v E; cbn in *; try discriminate; [injection E as ->; reflexivity |].
  exact (IH us v E).
Qed.

Lemma nth_error_in {A} : forall i (us : list A), i < length us -> exists v, nth_error us i = Some v.
Proof. intros i us L. destruct (nth_error us i) eqn:E; [eauto | apply nth_error_None in E; lia]. Qed.

Lemma loop_lasting {V} k grow trivial start (us : list V) : forall fuel i s vs,
  the_source s = Lasting us -> items (the_target s) = vs ++ firstn i us -> i <= length us -> length us - i < fuel ->
  match loop k grow fuel trivial start (length us) i s with
  | Finished s' =>
      items (the_target s') = vs ++ us /\ the_source s' = Lasting us /\ incl (script s') (script s) /\
      (fits k (length us - i) (the_target s) -> same_block (the_target s) (the_target s'))
  | Threw s' =>
      In true (script s) /\ the_source s' = Lasting us /\ (exists n, n < length us /\ items (the_target s') = vs ++ firstn n us) /\
      (fits k (length us - i) (the_target s) -> same_block (the_target s) (the_target s'))
  | _ => False
  end.
Proof.
  induction fuel as [|fuel IH]; intros i s vs Hs Hi L F; [lia|]. cbn [loop]. rewrite Hs.
  destruct (Nat.eqb_spec i (length us)) as [->|N].
  { rewrite Hi, firstn_all, Hs. unfold same_block. repeat split; auto using incl_refl. }
  destruct (nth_error_in i us ltac:(lia)) as [v E]. rewrite E.
  pose proof (push_ok k grow true v s) as H. destruct (push_back k grow true v s) as [s1|s1| |]; cbn [and_then]; [| |contradiction..].
  - destruct H as (H1 & H2 & H3 & H4).
    specialize (IH (S i) s1 vs). rewrite H2, H1, Hi, <- app_assoc, <- (firstn_more _ _ _ E) in IH. specialize (IH Hs eq_refl ltac:(lia) ltac:(lia)).
    assert (G : fits k (length us - i) (the_target s) -> same_block (the_target s) (the_target s1) /\ fits k (length us - S i) (the_target s1)).
    { intros (-> & Q). assert (B : same_block (the_target s) (the_target s1)) by (apply H4; split; [reflexivity | lia]).
      split; [exact B|]. destruct B as (B & _). split; [reflexivity|]. rewrite B, H1, app_length. cbn. lia. }
    destruct (loop k grow fuel trivial start (length us) (S i) s1) as [s2|s2| |]; try contradiction.
    + destruct IH as (I1 & I2 & I3 & I4). repeat split; auto; [eapply incl_tran; eauto | | |];
        destruct (G H) as ((G1 & G2 & G3) & G4); destruct (I4 G4) as (J1 & J2 & J3); congruence.
    + destruct IH as (I1 & I2 & I3 & I4). repeat split; auto; destruct (G H) as ((G1 & G2 & G3) & G4); destruct (I4 G4) as (J1 & J2 & J3); congruence.
  - destruct H as (H1 & H2 & H3 & _). repeat split; auto; try (now rewrite H1); [congruence|]. exists i. split; [lia|]. now rewrite H1.
Qed.

(** What is left of an element that was taken. *)
Definition used {V} (relocate : bool) (v : V) : cell V := if relocate then Gone else MovedFrom v.
Definition partly {V} (relocate : bool) (n : nat) (us : list V) : list (cell V) := map (used relocate) (firstn n us) ++ map Alive (skipn n us).

Lemma partly_nth {V} relocate (us : list V) i v : nth_error us i = Some v -> nth_error (partly relocate i us) i = Some (Alive v).
Proof.
  intros E. assert (L : i < length us) by (apply nth_error_Some; congruence). unfold partly.
  rewrite nth_error_app2; rewrite map_length, firstn_length_le; try lia. now rewrite Nat.sub_diag, (skipn_less _ _ _ E).
Qed.

Lemma partly_set {V} relocate (us : list V) i v : nth_error us i = Some v ->
  set_cell (partly relocate i us) i (used relocate v) = partly relocate (S i) us.
Proof.
  intros E. assert (L : i < length us) by (apply nth_error_Some; congruence).
  assert (L' : length (map (used relocate) (firstn i us)) = i) by (rewrite map_length, firstn_length_le; lia).
  unfold set_cell, partly. rewrite firstn_app, L', Nat.sub_diag, firstn_O, app_nil_r, firstn_all2 by lia.
  rewrite skipn_app, L', (skipn_all2 (n := S i)) by lia. replace (S i - i) with 1 by lia. cbn [app].
  rewrite (firstn_more _ _ _ E), map_app, <- app_assoc. cbn [map app]. now rewrite (skipn_less _ _ _ E).
Qed.

Lemma partly_none {V} relocate (us : list V) : partly relocate 0 us = map Alive us.
Proof. reflexivity. Qed.
Lemma partly_all {V} relocate (us : list V) : partly relocate (length us) us = map (used relocate) us.
Proof. unfold partly. now rewrite firstn_all, skipn_all, app_nil_r. Qed.

Lemma loop_expiring {V} k grow trivial start c (us : list V) : forall fuel i s vs,
  the_source s = Expiring c (partly (use_relocate trivial c) i us) -> items (the_target s) = vs ++ firstn i us ->
  i <= length us -> length us - i < fuel ->
  match loop k grow fuel trivial start (length us) i s with
  | Finished s' =>
      items (the_target s') = vs ++ us /\
      the_source s' = Expiring c (if use_relocate trivial c then [] else map MovedFrom us) /\ incl (script s') (script s) /\
      (fits k (length us - i) (the_target s) -> same_block (the_target s) (the_target s'))
  | Threw s' =>
      In true (script s) /\ ~ fits k (length us - i) (the_target s) /\
      (exists n, n < length us /\ items (the_target s') = vs ++ firstn n us /\
         (use_relocate trivial c = false -> the_source s' = Expiring c (partly false n us)))
  | _ => False
  end.
Proof.
  induction fuel as [|fuel IH]; intros i s vs Hs Hi L F; [lia|]. cbn [loop]. rewrite Hs.
  destruct (Nat.eqb_spec i (length us)) as [->|N].
  { unfold same_block. rewrite firstn_all in Hi. destruct (use_relocate trivial c); cbn [set_source the_target the_source script]; repeat split; auto using incl_refl.
    rewrite Hs, partly_all. reflexivity. }
  destruct (nth_error_in i us ltac:(lia)) as [v E]. unfold push_cell. rewrite (partly_nth _ _ _ _ E).
  pose proof (partly_set (use_relocate trivial c) us i v E) as P.
  assert (STEP : forall s1, the_source s1 = Expiring c (partly (use_relocate trivial c) (S i) us) ->
    items (the_target s1) = items (the_target s) ++ [v] -> incl (script s1) (script s) ->
    (fits k 1 (the_target s) -> same_block (the_target s) (the_target s1)) ->
    match loop k grow fuel trivial start (length us) (S i) s1 with
    | Finished s' =>
        items (the_target s') = vs ++ us /\
        the_source s' = Expiring c (if use_relocate trivial c then [] else map MovedFrom us) /\ incl (script s') (script s) /\
        (fits k (length us - i) (the_target s) -> same_block (the_target s) (the_target s'))
    | Threw s' =>
        In true (script s) /\ ~ fits k (length us - i) (the_target s) /\
        (exists n, n < length us /\ items (the_target s') = vs ++ firstn n us /\
           (use_relocate trivial c = false -> the_source s' = Expiring c (partly false n us)))
    | _ => False
    end).
  { intros s1 H2 H1 H3 H4. specialize (IH (S i) s1 vs H2). rewrite H1, Hi, <- app_assoc, <- (firstn_more _ _ _ E) in IH. specialize (IH eq_refl ltac:(lia) ltac:(lia)).
    assert (G : fits k (length us - i) (the_target s) -> same_block (the_target s) (the_target s1) /\ fits k (length us - S i) (the_target s1)).
    { intros (-> & Q). assert (B : same_block (the_target s) (the_target s1)) by (apply H4; split; [reflexivity | lia]).
      split; [exact B|]. destruct B as (B & _). split; [reflexivity|]. rewrite B, H1, app_length. cbn. lia. }
    destruct (loop k grow fuel trivial start (length us) (S i) s1) as [s2|s2| |]; try contradiction.
    + destruct IH as (I1 & I2 & I3 & I4). repeat split; auto; [eapply incl_tran; eauto | | |];
        destruct (G H) as ((G1 & G2 & G3) & G4); destruct (I4 G4) as (J1 & J2 & J3); congruence.
    + destruct IH as (I1 & I2 & I3). repeat split; auto. intros Q. exact (I2 (proj2 (G Q))). }
  assert (FIT : fits k (length us - i) (the_target s) -> fits k 1 (the_target s)) by (intros (K & Q); split; [exact K | lia]).
  destruct (use_relocate trivial c) eqn:U; cbn [used] in P.
  - assert (OTHER : forall k', k' = k -> k' <> OwnList ->
      match and_then (push_back k' grow false v (set_source s (Expiring c (set_cell (partly true i us) i Gone)))) (loop k grow fuel trivial start (length us) (S i)) with
      | Finished s' =>
          items (the_target s') = vs ++ us /\
          the_source s' = Expiring c [] /\ incl (script s') (script s) /\
          (fits k (length us - i) (the_target s) -> same_block (the_target s) (the_target s'))
      | Threw s' =>
          In true (script s) /\ ~ fits k (length us - i) (the_target s) /\
          (exists n, n < length us /\ items (the_target s') = vs ++ firstn n us /\
             (true = false -> the_source s' = Expiring c (partly false n us)))
      | _ => False
      end).
    { intros k' -> _. rewrite P. pose proof (push_ok k grow false v (set_source s (Expiring c (partly true (S i) us)))) as H.
      destruct (push_back k grow false v _) as [s1|s1| |]; cbn [and_then]; [| |contradiction..]; cbn [set_source the_target the_source script] in H.
      - destruct H as (H1 & H2 & H3 & H4). apply STEP; auto.
      - destruct H as (H1 & _ & H3 & H4). split; [exact H3|]. split; [intros Q; specialize (H4 (FIT Q)); discriminate|].
        exists i. split; [lia|]. split; [now rewrite H1 | discriminate]. }
    destruct k; try (apply OTHER; [reflexivity | discriminate]).
    pose proof (push_ok OwnList grow false v s) as H. destruct (push_back OwnList grow false v s) as [s1|s1| |]; cbn [and_then]; [| |contradiction..].
    + destruct H as (H1 & H2 & H3 & H4). apply STEP; cbn [set_source the_target the_source script]; auto. now rewrite P.
    + destruct H as (H1 & _ & H3 & H4). split; [exact H3|]. split; [intros Q; specialize (H4 (FIT Q)); discriminate|].
      exists i. split; [lia|]. split; [now rewrite H1 | discriminate].
  - pose proof (push_ok k grow false v s) as H. destruct (push_back k grow false v s) as [s1|s1| |]; cbn [and_then]; [| |contradiction..].
    + destruct H as (H1 & H2 & H3 & H4). apply STEP; cbn [set_source the_target the_source script]; auto. now rewrite P.
    + destruct H as (H1 & H2 & H3 & H4). split; [exact H3|]. split; [intros Q; specialize (H4 (FIT Q)); discriminate|].
      exists i. split; [lia|]. split; [now rewrite H1 | intros _; congruence].
Qed.

Lemma loop_itself {V} grow trivial (us : list V) : forall fuel i s,
  the_source s = Itself -> items (the_target s) = us ++ firstn i us -> i <= length us -> length us - i < fuel ->
  length us + length us <= room (the_target s) ->
  match loop StdVector grow fuel trivial (epoch (the_target s)) (length us) i s with
  | Finished s' => items (the_target s') = us ++ us /\ same_block (the_target s) (the_target s')
  | Threw s' =>
      In true (script s) /\ (exists n, n < length us /\ items (the_target s') = us ++ firstn n us) /\ same_block (the_target s) (the_target s')
  | _ => False
  end.
Proof.
  induction fuel as [|fuel IH]; intros i s Hs Hi L F R; [lia|]. cbn [loop]. rewrite Hs, Nat.eqb_refl. cbn [negb].
  destruct (Nat.eqb_spec i (length us)) as [->|N].
  { rewrite Hi, firstn_all. unfold same_block. repeat split; auto. }
  destruct (nth_error_in i us ltac:(lia)) as [v E]. rewrite Hi, nth_error_app1, E by lia.
  assert (FF : fits StdVector 1 (the_target s)) by (split; [reflexivity|]; rewrite Hi, app_length, firstn_length_le; lia).
  pose proof (push_ok StdVector grow true v s) as H. destruct (push_back StdVector grow true v s) as [s1|s1| |]; cbn [and_then]; [| |contradiction..].
  - destruct H as (H1 & H2 & H3 & H4). destruct (H4 FF) as (B1 & B2 & B3).
    specialize (IH (S i) s1). rewrite H2, H1, Hi, <- app_assoc, <- (firstn_more _ _ _ E), B1, B2 in IH. specialize (IH Hs eq_refl ltac:(lia) ltac:(lia) R).
    destruct (loop StdVector grow fuel trivial _ (length us) (S i) s1) as [s2|s2| |]; try contradiction.
    + destruct IH as (I1 & J1 & J2 & J3). repeat split; congruence.
    + destruct IH as (I1 & I2 & J1 & J2 & J3). repeat split; auto; congruence.
  - destruct H as (H1 & H2 & H3 & _). unfold same_block. rewrite H1. repeat split; auto. exists i. split; [lia | exact Hi].
Qed.

Lemma reserve_ok {V} k sized (s : state V) :
  match maybe_reserve k sized s with
  | Finished s' =>
      items (the_target s') = items (the_target s) /\ the_source s' = the_source s /\ incl (script s') (script s) /\
      allocations (the_target s') <= S (allocations (the_target s)) /\
      (fits k (source_size s) (the_target s) -> the_target s' = the_target s) /\
      (k = StdVector -> sized = true -> fits k (source_size s) (the_target s')) /\
      (k = StdVector -> sized = true -> room (the_target s) < length (items (the_target s)) + source_size s ->
       2 * room (the_target s) <= room (the_target s'))
  | Threw s' =>
      the_target s' = the_target s /\ the_source s' = the_source s /\ In true (script s) /\ k = StdVector /\ room (the_target s) < length (items (the_target s)) + source_size s
  | _ => False
  end.
Proof.
  unfold maybe_reserve, attempt, fits. destruct s as [t src sc]; cbn [the_target the_source script].
  destruct sized, k; cbn [is_vector andb]; try (repeat match goal with |- _ /\ _ => split end; auto using incl_refl; intros; congruence).
  destruct (Nat.ltb_spec (room t) (length (items t) + source_size (State t src sc))) as [L|L].
  - destruct sc as [|[] sc]; cbn [the_target the_source script source_size items room epoch allocations] in *;
      repeat match goal with |- _ /\ _ => split end; auto using incl_refl, incl_tl, in_eq; intros; repeat match goal with |- _ /\ _ => split end; cbn; auto; try (destruct H as (? & ?)); try lia.
  - cbn [the_target the_source script source_size items room epoch allocations] in *; repeat match goal with |- _ /\ _ => split end; auto using incl_refl; intros; repeat match goal with |- _ /\ _ => split end; auto; lia.
Qed.

Lemma alive_all {V} (us : list V) :
  fold_right (fun c r => match c, r with Alive v, Some vs => Some (v :: vs) | _, _ => None end) (Some []) (map Alive us) = Some us.
Proof. induction us as [|u us IH]; cbn; [reflexivity | now rewrite IH]. Qed.

Lemma append_all {V} k grow fuel ranges sized trivial trivial_move unspecified t src script (us : list V) :
  offers src us -> length us < fuel ->
  match append k grow fuel ranges sized trivial trivial_move unspecified (State t src script) with
  | Finished s =>
      items (the_target s) = items t ++ us /\ used_up src (the_source s) us /\
      (k = StdVector -> ranges = false -> trivial_move = false -> sized = true ->
       allocations (the_target s) <= S (allocations t) /\
       (fits k (length us) t -> same_block t (the_target s)) /\
       (allocations (the_target s) <> allocations t -> 2 * room t <= room (the_target s)))
  | Threw s =>
      In true script /\ (src = Lasting us -> the_source s = src) /\
      (k = StdVector -> ranges = false -> trivial_move = false -> sized = true ->
       allocations (the_target s) <= S (allocations t) /\
       (fits k (length us) t -> same_block t (the_target s)) /\
       (allocations (the_target s) <> allocations t -> 2 * room t <= room (the_target s)) /\
       can_be_destroyed (the_source s) = true) /\
      (one_by_one k ranges trivial_move ->
       exists n, (usable k t -> n < length us) /\ items (the_target s) = items t ++ firstn n us /\
        (forall c, src = Expiring c (map Alive us) -> c = false \/ trivial = true -> the_source s = Expiring c (moved_up_to n us))) /\
      (~ one_by_one k ranges trivial_move -> can_be_destroyed (the_source s) = true)
  | Undefined | Unfinished => False
  end.
Proof.
  intros O F.
  assert (SZ : forall t' sc, source_size (State t' src sc) = length us) by (intros; destruct O as [-> | (c & ->)]; cbn; [|rewrite map_length]; reflexivity).
  assert (ALIVE : forall c, can_be_destroyed (Expiring c (map (@Alive V) us)) = true) by (intros c; cbn; apply forallb_forall; intros x I; apply in_map_iff in I; destruct I as (u & <- & _); reflexivity).
  assert (MOVED : forall c, can_be_destroyed (Expiring c (map (@MovedFrom V) us)) = true) by (intros c; cbn; apply forallb_forall; intros x I; apply in_map_iff in I; destruct I as (u & <- & _); reflexivity).
  (* the loop *)
  assert (LOOP : forall s, the_source s = src -> items (the_target s) = items t ->
    match copy_or_relocate_from k grow fuel trivial s with
    | Finished s' =>
        items (the_target s') = items t ++ us /\ used_up src (the_source s') us /\
        (fits k (length us) (the_target s) -> same_block (the_target s) (the_target s'))
    | Threw s' =>
        In true (Append.script s) /\ (src = Lasting us -> the_source s' = src) /\
        (fits k (length us) (the_target s) -> same_block (the_target s) (the_target s') /\ can_be_destroyed (the_source s') = true) /\
        exists n, n < length us /\ items (the_target s') = items t ++ firstn n us /\
          (forall c, src = Expiring c (map Alive us) -> c = false \/ trivial = true -> the_source s' = Expiring c (moved_up_to n us))
    | Undefined | Unfinished => False
    end).
  { intros s Hs Hi. unfold copy_or_relocate_from.
    assert (E : source_size s = length us) by (destruct s as [t1 src1 sc1]; cbn [the_source] in Hs; subst; apply SZ). rewrite E.
    destruct O as [-> | (c & ->)].
    - pose proof (loop_lasting k grow trivial (epoch (the_target s)) us fuel 0 s (items t) Hs) as H. cbn [firstn] in H. rewrite app_nil_r, Nat.sub_0_r in H. specialize (H Hi ltac:(lia) F).
      destruct (loop k grow fuel trivial _ (length us) 0 s) as [s'|s'| |]; try contradiction.
      + destruct H as (H1 & H2 & H3 & H4). cbn [used_up]. auto.
      + destruct H as (H1 & H2 & (n & H3 & H4) & H5). repeat match goal with |- _ /\ _ => split end; auto.
        * intros Q. split; [auto|]. rewrite H2. reflexivity.
        * exists n. repeat split; auto. intros c A; discriminate A.
    - pose proof (loop_expiring k grow trivial (epoch (the_target s)) c us fuel 0 s (items t) Hs) as H. cbn [firstn] in H. rewrite app_nil_r, Nat.sub_0_r in H. specialize (H Hi ltac:(lia) F).
      destruct (loop k grow fuel trivial _ (length us) 0 s) as [s'|s'| |]; try contradiction.
      + destruct H as (H1 & H2 & H3 & H4). cbn [used_up]. repeat match goal with |- _ /\ _ => split end; auto. rewrite H2. destruct (use_relocate trivial c); auto.
      + destruct H as (H1 & H2 & n & H3 & H4 & H5). repeat match goal with |- _ /\ _ => split end; auto; [intros A; discriminate A | contradiction |].
        exists n. repeat split; auto. intros c' A B. injection A as ->. apply H5. unfold use_relocate. destruct B as [-> | ->]; [reflexivity | apply andb_false_r]. }
  (* the standard's range functions *)
  assert (RANGE : match insert_range unspecified (State t src script) with
    | Finished s => items (the_target s) = items t ++ us /\ used_up src (the_source s) us
    | Threw s => In true script /\ (src = Lasting us -> the_source s = src) /\ can_be_destroyed (the_source s) = true
    | Undefined | Unfinished => False
    end).
  { unfold insert_range. destruct O as [-> | (c & ->)]; cbn [the_source]; [|rewrite alive_all];
      (destruct script as [|[] rest]; cbn [Append.script the_target the_source items used_up]; repeat match goal with |- _ /\ _ => split end; auto using in_eq).
    intros A; discriminate A. }
  assert (CASES : append k grow fuel ranges sized trivial trivial_move unspecified (State t src script) =
      copy_or_relocate_from k grow fuel trivial (State t src script) /\ k = OwnList \/
    append k grow fuel ranges sized trivial trivial_move unspecified (State t src script) = insert_range unspecified (State t src script) /\
      ~ one_by_one k ranges trivial_move \/
    append k grow fuel ranges sized trivial trivial_move unspecified (State t src script) =
      and_then (maybe_reserve k sized (State t src script)) (copy_or_relocate_from k grow fuel trivial) /\ k <> OwnList /\ ranges = false /\ trivial_move = false).
  { unfold append, one_by_one. destruct k; auto; destruct ranges, trivial_move; cbn [orb]; right;
      ((left; split; [reflexivity|]; intros [A | (A & B)]; discriminate) || (right; repeat split; discriminate)). }
  destruct CASES as [(-> & ->) | [(-> & N) | (-> & N & -> & ->)]].
  - specialize (LOOP (State t src script) eq_refl eq_refl). destruct (copy_or_relocate_from _ _ _ _ _) as [s|s| |]; auto.
    + destruct LOOP as (L1 & L2 & _). repeat match goal with |- _ /\ _ => split end; auto. intros A; discriminate A.
    + destruct LOOP as (L1 & L2 & _ & n & L3 & L4 & L5). repeat match goal with |- _ /\ _ => split end; auto; [intros A; discriminate A | |].
      * intros _. exists n. auto.
      * intros N. exfalso. apply N. now left.
  - destruct (insert_range unspecified (State t src script)) as [s|s| |]; auto.
    + destruct RANGE as (L1 & L2). repeat match goal with |- _ /\ _ => split end; auto. intros -> -> -> _. exfalso. apply N. right. auto.
    + destruct RANGE as (L1 & L2 & L3). repeat match goal with |- _ /\ _ => split end; auto; [|contradiction].
      intros -> -> -> _. exfalso. apply N. right. auto.
  - pose proof (reserve_ok k sized (State t src script)) as R.
    destruct (maybe_reserve k sized (State t src script)) as [s0|s0| |]; try contradiction; cbn [and_then]; cbn [the_target the_source Append.script] in R; rewrite SZ in R.
    + destruct R as (R1 & R2 & R3 & R4 & R5 & R6 & R7). specialize (LOOP s0 R2 R1).
      assert (BLOCK : forall t', same_block (the_target s0) t' -> k = StdVector -> sized = true ->
        allocations t' <= S (allocations t) /\ (fits k (length us) t -> same_block t t') /\ (allocations t' <> allocations t -> 2 * room t <= room t')).
      { intros t' (B1 & B2 & B3) K Z. rewrite B1, B3. repeat match goal with |- _ /\ _ => split end; auto.
        - intros Q. specialize (R5 Q). unfold same_block. rewrite B1, B2, B3, R5. auto.
        - intros D. apply R7; auto. destruct (Nat.lt_ge_cases (room t) (length (items t) + length us)) as [Q|Q]; [exact Q|].
          exfalso. apply D. now rewrite (R5 (conj K Q)). }
      destruct (copy_or_relocate_from k grow fuel trivial s0) as [s|s| |]; auto.
      * destruct LOOP as (L1 & L2 & L3). repeat match goal with |- _ /\ _ => split end; auto.
      * destruct LOOP as (L1 & L2 & L3 & n & L4 & L5 & L6). repeat match goal with |- _ /\ _ => split end; auto.
        -- intros K _ _ Z. destruct (L3 (R6 K Z)) as (B & D). destruct (BLOCK _ B K Z) as (B1 & B2 & B3). auto.
        -- intros _. exists n. auto.
        -- intros A. exfalso. apply A. right. auto.
    + destruct R as (R1 & R2 & R3 & R4 & R5). subst k.
      assert (D : can_be_destroyed (the_source s0) = true) by (rewrite R2; destruct O as [-> | (c & ->)]; [reflexivity | apply ALIVE]).
      rewrite R1. repeat match goal with |- _ /\ _ => split end; auto.
      * intros _ _ _ _. unfold same_block. repeat match goal with |- _ /\ _ => split end; auto; intros A; exfalso; auto.
      * intros _. exists 0. cbn [firstn]. rewrite app_nil_r. split; [intros U; specialize (U eq_refl); lia|]. split; [reflexivity|].
        intros c A _. rewrite R2. exact A.
Qed.

Lemma append_ok : forall V k grow fuel ranges sized trivial trivial_move unspecified t src script (us : list V),
  offers src us -> usable k t -> length us < fuel ->
  match append k grow fuel ranges sized trivial trivial_move unspecified (State t src script) with
  | Finished s => items (the_target s) = items t ++ us /\ used_up src (the_source s) us
  | Threw s => In true script /\ (src = Lasting us -> the_source s = src)
  | Undefined | Unfinished => False
  end.
Proof.
  intros V k grow fuel ranges sized trivial trivial_move unspecified t src script us O U F.
  pose proof (append_all k grow fuel ranges sized trivial trivial_move unspecified t src script us O F) as H.
  destruct (append _ _ _ _ _ _ _ _ _); tauto.
Qed.

Lemma append_one_by_one : forall V k grow fuel ranges sized trivial trivial_move unspecified t src script (us : list V),
  offers src us -> usable k t -> length us < fuel -> one_by_one k ranges trivial_move ->
  match append k grow fuel ranges sized trivial trivial_move unspecified (State t src script) with
  | Threw s =>
      exists n, n < length us /\ items (the_target s) = items t ++ firstn n us /\
        (forall c, src = Expiring c (map Alive us) -> c = false \/ trivial = true -> the_source s = Expiring c (moved_up_to n us))
  | _ => True
  end.
Proof.
  intros V k grow fuel ranges sized trivial trivial_move unspecified t src script us O U F B.
  pose proof (append_all k grow fuel ranges sized trivial trivial_move unspecified t src script us O F) as H.
  destruct (append _ _ _ _ _ _ _ _ _); auto. destruct H as (_ & _ & _ & H & _). destruct (H B) as (n & H1 & H2 & H3). exists n. auto.
Qed.

Lemma moved_up_to_lives {V} c n (us : list V) : can_be_destroyed (Expiring c (moved_up_to n us)) = true.
Proof.
  cbn. unfold moved_up_to. apply forallb_forall. intros x I. apply in_app_or in I. destruct I as [I | I]; apply in_map_iff in I; destruct I as (u & <- & _); reflexivity.
Qed.

Lemma append_survives : forall V k grow fuel ranges sized trivial trivial_move unspecified t src script (us : list V),
  offers src us -> usable k t -> length us < fuel ->
  (forall c, src = Expiring c (map Alive us) -> c = false \/ trivial = true) \/ k = StdVector /\ sized = true \/ ~ one_by_one k ranges trivial_move ->
  match append k grow fuel ranges sized trivial trivial_move unspecified (State t src script) with
  | Threw s => can_be_destroyed (the_source s) = true
  | _ => True
  end.
Proof.
  intros V k grow fuel ranges sized trivial trivial_move unspecified t src script us O U F B.
  pose proof (append_all k grow fuel ranges sized trivial trivial_move unspecified t src script us O F) as H.
  destruct (append _ _ _ _ _ _ _ _ _); auto. destruct H as (_ & H1 & H2 & H3 & H4).
  assert (D : one_by_one k ranges trivial_move \/ ~ one_by_one k ranges trivial_move).
  { unfold one_by_one. destruct k, ranges, trivial_move; (now left; auto) || (right; intros [A | (A & C)]; discriminate) || (left; auto). }
  destruct D as [D | D]; [|auto]. destruct B as [B | [(K & Z) | B]]; [|subst; destruct D as [D | (-> & ->)]; [discriminate D | now apply H2] | contradiction].
  destruct O as [E | (c & E)]; [now rewrite (H1 E), E|].
  destruct (H3 D) as (n & _ & _ & G). rewrite (G c E (B c E)). apply moved_up_to_lives.
Qed.

Lemma append_allocates_once : forall V grow fuel trivial unspecified t src script (us : list V),
  offers src us -> length us < fuel ->
  match append StdVector grow fuel false true trivial false unspecified (State t src script) with
  | Finished s | Threw s =>
      allocations (the_target s) <= S (allocations t) /\
      (length (items t) + length us <= room t ->
       room (the_target s) = room t /\ epoch (the_target s) = epoch t /\ allocations (the_target s) = allocations t) /\
      (allocations (the_target s) <> allocations t -> 2 * room t <= room (the_target s))
  | Undefined | Unfinished => False
  end.
Proof.
  intros V grow fuel trivial unspecified t src script us O F.
  pose proof (append_all StdVector grow fuel false true trivial false unspecified t src script us O F) as H.
  unfold fits, same_block in H. destruct (append _ _ _ _ _ _ _ _ _) as [s|s| |]; auto.
  - destruct H as (_ & _ & H). destruct (H eq_refl eq_refl eq_refl eq_refl) as (H1 & H2 & H3). auto.
  - destruct H as (_ & _ & H & _). destruct (H eq_refl eq_refl eq_refl eq_refl) as (H1 & H2 & H3 & _). auto.
Qed.

Lemma append_itself : forall V grow fuel trivial unspecified t script (us : list V),
  items t = us -> length us < fuel ->
  match append StdVector grow fuel false true trivial false unspecified (State t Itself script) with
  | Finished s => items (the_target s) = us ++ us
  | Threw s => In true script /\ exists n, n <= length us /\ items (the_target s) = us ++ firstn n us
  | Undefined | Unfinished => False
  end.
Proof.
  intros V grow fuel trivial unspecified t script us E F. unfold append. cbn [orb].
  pose proof (reserve_ok StdVector true (State t Itself script)) as R.
  destruct (maybe_reserve StdVector true (State t Itself script)) as [s0|s0| |]; try contradiction; cbn [and_then]; cbn [the_target the_source Append.script source_size] in R.
  - destruct R as (R1 & R2 & R3 & _ & _ & R6 & _). destruct (R6 eq_refl eq_refl) as (_ & R). rewrite R1, E in *.
    unfold copy_or_relocate_from, source_size. rewrite R2, R1.
    pose proof (loop_itself grow trivial us fuel 0 s0 R2) as H. cbn [firstn] in H. rewrite app_nil_r, Nat.sub_0_r in H. specialize (H R1 ltac:(lia) F R).
    destruct (loop _ _ _ _ _ _ _ _) as [s|s| |]; auto; [tauto|]. destruct H as (H1 & (n & H2 & H3) & _). split; [auto|]. exists n. split; [lia | exact H3].
  - destruct R as (R1 & _ & R3 & _). split; [exact R3|]. exists 0. rewrite R1, E. cbn [firstn]. split; [lia | now rewrite app_nil_r].
Qed.

Lemma loop_endless {V} k grow trivial start last : k = StdList \/ k = OwnList -> forall fuel i (s : state V),
  the_source s = Itself -> script s = [] -> epoch (the_target s) = start -> i < length (items (the_target s)) ->
  loop k grow fuel trivial start last i s = Unfinished.
Proof.
  intros K. induction fuel as [|fuel IH]; intros i s Hs Hc He Hi; [reflexivity|]. cbn [loop]. rewrite Hs, He, Nat.eqb_refl. cbn [negb].
  assert (L : (i =? match k with StdVector | StdDeque => last | _ => length (items (the_target s)) end) = false) by (apply Nat.eqb_neq; destruct K as [-> | ->]; lia).
  rewrite L. destruct (nth_error_in i (items (the_target s)) Hi) as [v E]. rewrite E. unfold push_back, attempt. rewrite Hc.
  destruct K as [-> | ->]; cbn [is_vector negb andb orb and_then]; apply IH; cbn [the_source script the_target epoch items]; auto; rewrite app_length; cbn; lia.
Qed.

Lemma append_itself_never :
  (forall V k grow fuel ranges sized trivial trivial_move unspecified (t : target V) script,
     ~ one_by_one k ranges trivial_move ->
     append k grow fuel ranges sized trivial trivial_move unspecified (State t Itself script) = Undefined) /\
  (forall V grow fuel sized trivial unspecified v (vs : list V) rm ep al,
     append StdDeque grow (S (S fuel)) false sized trivial false unspecified (State (Target (v :: vs) rm ep al) Itself []) = Undefined) /\
  (forall V k grow fuel sized trivial unspecified v (vs : list V) rm ep al,
     k = StdList \/ k = OwnList ->
     append k grow fuel false sized trivial false unspecified (State (Target (v :: vs) rm ep al) Itself []) = Unfinished).
Proof.
  repeat split.
  - intros V k grow fuel ranges sized trivial trivial_move unspecified t script N. unfold append.
    destruct k; [| | |exfalso; apply N; now left]; (destruct ranges, trivial_move; cbn [orb]; [reflexivity..|]; exfalso; apply N; right; auto).
  - intros. unfold append. cbn [orb]. destruct sized; cbn [maybe_reserve is_vector andb and_then]; unfold copy_or_relocate_from; cbn [loop the_source the_target epoch items source_size length];
      rewrite Nat.eqb_refl; cbn; (replace (match ep with 0 => false | S m => ep =? m end) with false; [reflexivity|]);
      (destruct ep as [|e]; [reflexivity|]; symmetry; apply Nat.eqb_neq; lia).
  - intros V k grow fuel sized trivial unspecified v vs rm ep al K.
    assert (E : append k grow fuel false sized trivial false unspecified (State (Target (v :: vs) rm ep al) Itself []) =
      copy_or_relocate_from k grow fuel trivial (State (Target (v :: vs) rm ep al) Itself [])).
    { unfold append, maybe_reserve. destruct K as [-> | ->]; cbn [orb is_vector andb and_then]; [rewrite andb_false_r|]; reflexivity. }
    rewrite E. unfold copy_or_relocate_from. apply loop_endless; auto. cbn. lia.
Qed.
