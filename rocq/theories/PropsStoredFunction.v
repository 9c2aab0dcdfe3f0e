(** * Property C157: how long an iterator of a transformed range can be used *)

From Coq Require Import List Arith Bool Lia.
From Verif Require Import StoredFunction.
Import ListNotations.

(** ** What is meant *)

(** The event moves from the range object at this place, or ends its life. *)
Definition moves_from {F} (place : nat) (e : event (F := F)) : bool := match e with Moved from _ => from =? place | _ => false end.
Definition ends_life {F} (place : nat) (e : event (F := F)) : bool := match e with Destroyed p => p =? place | _ => false end.
(** The event begins the life of a range object at this place. *)
Definition begins_life {F} (place : nat) (e : event (F := F)) : bool :=
  match e with Made p _ => p =? place | Copied _ to => to =? place | Moved _ to => to =? place | Destroyed _ => false end.
(** Five traits and a size decide. *)
Definition copied_into_iterators (t : function_type) : Prop :=
  trivial_move_construct t = true /\ trivial_copy_construct t = true /\ trivial_move_assign t = true /\ trivial_copy_assign t = true /\
  trivial_destroy t = true /\ size_of t <= 8.
(** Iterators made from an iterator: [fold_left advance ns it] is it + n1 + n2 + ... for the numbers [ns], and list_sum is their sum. *)
Definition times {A} (n : nat) (f : A -> A) (x : A) : A := Nat.iter n f x.

Lemma copied_iff t : can_store_copy t = true <-> copied_into_iterators t.
Proof. unfold can_store_copy, mostly_trivial, copied_into_iterators. rewrite !andb_true_iff, Nat.leb_le. tauto. Qed.
Lemma advance_all {F} ns : forall it : iterator (F := F), fold_left advance ns it = Iterator (base it + list_sum ns) (traits it).
Proof.
  induction ns as [|n ns IH]; intros it; cbn [fold_left].
  - destruct it. cbn. now rewrite Nat.add_0_r.
  - rewrite IH. cbn [advance base traits]. f_equal. change (list_sum (n :: ns)) with (n + list_sum ns). lia.
Qed.
Lemma put_same {F} p (f : option F) s : put p f s p = f. Proof. unfold put. now rewrite Nat.eqb_refl. Qed.
Lemma put_other {F} p q (f : option F) s : q <> p -> put p f s q = s q. Proof. intros H. unfold put. now rewrite (proj2 (Nat.eqb_neq q p) H). Qed.

(** ** A function that is copied: the iterator and all iterators made from it can be used as long as the elements, whatever happens to the
    range objects, and apply the function the range had when the iterator was made. *)
Theorem C157_copied : forall A B F (apply : F -> A -> B) moved t elements s place f it es s' ns,
  copied_into_iterators t -> s place = Some f -> transform_begin t s place = Some it -> run moved es s = Some s' ->
  dereference apply elements s' (fold_left advance ns it) = option_map (apply f) (nth_error elements (list_sum ns)).
Proof.
  intros A B F apply moved t elements s place f it es s' ns Ht Hs Hb _. unfold transform_begin, reference_or_value in Hb. rewrite Hs, (proj2 (copied_iff t) Ht) in Hb.
  injection Hb as <-. rewrite advance_all. unfold dereference. cbn [base traits stored_get Nat.add]. destruct (nth_error elements (list_sum ns)); reflexivity.
Qed.
Print Assumptions C157_copied.

(** ** Any other function: the iterators can be used until the range object is destroyed; while it lives they apply its function, which is
    the one left by the moves from it. *)
Lemma iter_swap {A} (f : A -> A) x : forall n, Nat.iter n f (f x) = Nat.iter (S n) f x.
Proof. induction n as [|n IH]; [reflexivity|]. change (f (Nat.iter n f (f x)) = f (Nat.iter (S n) f x)). now rewrite IH. Qed.
Lemma still_there {F} (moved : F -> F) place : forall es s f s', run moved es s = Some s' -> s place = Some f ->
  existsb (ends_life place) es = false -> s' place = Some (times (length (filter (moves_from place) es)) moved f).
Proof.
  induction es as [|e es IH]; intros s f s' H Hs He; cbn in H, He.
  - injection H as <-. exact Hs.
  - apply orb_false_iff in He. destruct He as [E1 E2]. destruct (step moved e s) as [s1|] eqn:S; [|discriminate].
    destruct e as [p g|from to|from to|p]; cbn in S, E1; cbn [filter moves_from].
    + unfold free in S. destruct (s p) as [h|] eqn:P; [discriminate|]. injection S as <-. eapply IH; [exact H|rewrite put_other; [exact Hs|congruence]|exact E2].
    + destruct (s from) as [g|]; [|discriminate]. unfold free in S. destruct (s to) as [h|] eqn:P; [discriminate|]. injection S as <-.
      eapply IH; [exact H|rewrite put_other; [exact Hs|congruence]|exact E2].
    + destruct (s from) as [g|] eqn:G; [|discriminate]. unfold free in S. destruct (s to) as [h|] eqn:P; [discriminate|]. injection S as <-.
      destruct (Nat.eqb_spec from place) as [->|N].
      * assert (g = f) as -> by congruence.
        rewrite (IH _ (moved f) s' H); [|rewrite put_other by congruence; apply put_same|exact E2].
        cbn [length]. f_equal. unfold times. apply iter_swap.
      * eapply IH; [exact H|rewrite !put_other by congruence; exact Hs|exact E2].
    + unfold free in S. destruct (s p) as [g|] eqn:G; [|discriminate]. injection S as <-. apply Nat.eqb_neq in E1.
      eapply IH; [exact H|rewrite put_other by congruence; exact Hs|exact E2].
Qed.
Lemma stays_gone {F} (moved : F -> F) place : forall es s s', run moved es s = Some s' -> s place = None ->
  existsb (begins_life place) es = false -> s' place = None.
Proof.
  induction es as [|e es IH]; intros s s' H Hs He; cbn in H, He.
  - injection H as <-. exact Hs.
  - apply orb_false_iff in He. destruct He as [E1 E2]. destruct (step moved e s) as [s1|] eqn:S; [|discriminate].
    apply (IH _ _ H); [|exact E2].
    destruct e as [p g|from to|from to|p]; cbn in S, E1.
    + apply Nat.eqb_neq in E1. destruct (free s p); [|discriminate]. injection S as <-. rewrite put_other; [exact Hs|congruence].
    + apply Nat.eqb_neq in E1. destruct (s from) as [g|]; [|discriminate]. destruct (free s to); [|discriminate]. injection S as <-. rewrite put_other; [exact Hs|congruence].
    + apply Nat.eqb_neq in E1. destruct (s from) as [g|] eqn:G; [|discriminate]. destruct (free s to); [|discriminate]. injection S as <-.
      rewrite !put_other; [exact Hs|congruence|congruence].
    + destruct (free s p); [discriminate|]. injection S as <-. unfold put. destruct (place =? p); [reflexivity|exact Hs].
Qed.
Lemma by_reference {A B F} (apply : F -> A -> B) t elements (s s' : ranges (F := F)) place f it ns :
  can_store_copy t = false -> s place = Some f -> transform_begin t s place = Some it ->
  dereference apply elements s' (fold_left advance ns it) = match s' place with Some g => option_map (apply g) (nth_error elements (list_sum ns)) | None => None end.
Proof.
  intros Ht Hs Hb. unfold transform_begin, reference_or_value in Hb. rewrite Hs, Ht in Hb. injection Hb as <-.
  rewrite advance_all. unfold dereference. cbn [base traits stored_get Nat.add]. destruct (nth_error elements (list_sum ns)), (s' place); reflexivity.
Qed.
Lemma begin_const {F} t (s : ranges (F := F)) place : non_idempotent_begin t s place = transform_begin (const_ t) s place.
Proof. reflexivity. Qed.

Theorem C157_referenced : forall A B F (apply : F -> A -> B) moved t elements s place f it es s' ns,
  ~ copied_into_iterators t -> s place = Some f -> transform_begin t s place = Some it -> run moved es s = Some s' ->
  (existsb (ends_life place) es = false ->
     dereference apply elements s' (fold_left advance ns it) =
     option_map (apply (times (length (filter (moves_from place) es)) moved f)) (nth_error elements (list_sum ns))) /\
  (forall before after, es = before ++ Destroyed place :: after -> existsb (begins_life place) after = false ->
     dereference apply elements s' (fold_left advance ns it) = None).
Proof.
  intros A B F apply moved t elements s place f it es s' ns Ht Hs Hb Hr.
  assert (can_store_copy t = false) as Hc by (apply not_true_iff_false; rewrite copied_iff; exact Ht).
  split.
  - intros He. rewrite (by_reference apply t elements s s' place f it ns Hc Hs Hb), (still_there moved place es s f s' Hr Hs He). reflexivity.
  - intros before after -> Ha. rewrite (by_reference apply t elements s s' place f it ns Hc Hs Hb).
    assert (s' place = None) as ->; [|reflexivity].
    clear Hs Hb. revert s Hr. induction before as [|e before IH]; intros s Hr; cbn in Hr.
    + destruct (free s place); [discriminate|]. eapply stays_gone; [exact Hr|apply put_same|exact Ha].
    + destruct (step moved e s) as [s1|]; [|discriminate]. eapply IH; exact Hr.
Qed.
Print Assumptions C157_referenced.

(** ** transform_non_idempotent and generate_n_idempotent: no function at all is copied, because nothing can be assigned to a const type. *)
Theorem C157_non_idempotent : forall A B F (apply : F -> A -> B) moved t elements s place f it es s' ns,
  s place = Some f -> non_idempotent_begin t s place = Some it -> run moved es s = Some s' ->
  (existsb (ends_life place) es = false ->
     dereference apply elements s' (fold_left advance ns it) =
     option_map (apply (times (length (filter (moves_from place) es)) moved f)) (nth_error elements (list_sum ns))) /\
  (forall before after, es = before ++ Destroyed place :: after -> existsb (begins_life place) after = false ->
     dereference apply elements s' (fold_left advance ns it) = None).
Proof.
  intros A B F apply moved t elements s place f it es s' ns Hs Hb Hr. rewrite begin_const in Hb. eapply C157_referenced; eauto.
  intros (_ & _ & H & _). discriminate H.
Qed.
Print Assumptions C157_non_idempotent.

(** A function pointer, a lambda without captures, one that captures a reference (it has no assignment operator) and a std::function. *)
Definition function_pointer := Function_type 8 true true true true true.
Definition no_captures := Function_type 1 true true true true true.
Definition captures_reference := Function_type 8 true true false false true.
Definition std_function := Function_type 32 false false false false false.

(** So the claim that the iterators of ranges with small trivial functions survive the range is false there. *)
Theorem C157_non_idempotent_refuted : exists (f : nat -> nat) it s',
  copied_into_iterators no_captures /\
  non_idempotent_begin no_captures (put 0 (Some f) (fun _ => None)) 0 = Some it /\
  run (fun f => f) [Destroyed 0] (put 0 (Some f) (fun _ => None)) = Some s' /\
  dereference (fun f => f) [1; 2; 3] s' it = None.
Proof.
  exists S. eexists. eexists. split; [unfold copied_into_iterators; cbn; repeat split; lia|]. split; [reflexivity|]. split; reflexivity.
Qed.
Print Assumptions C157_non_idempotent_refuted.

Example C157_example :
  copied_into_iterators function_pointer /\ copied_into_iterators no_captures /\ ~ copied_into_iterators captures_reference /\ ~ copied_into_iterators std_function /\
  let s := put 0 (Some S) (fun _ => None) in
  let gone := [Copied 0 1; Moved 0 2; Destroyed 0] in
  (exists s' it, run (fun f => f) gone s = Some s' /\ transform_begin function_pointer s 0 = Some it /\ dereference (fun f => f) [1; 2; 3] s' (advance it 2) = Some 4) /\
  (exists s' it, run (fun f => f) gone s = Some s' /\ transform_begin captures_reference s 0 = Some it /\ dereference (fun f => f) [1; 2; 3] s' (advance it 2) = None) /\
  (exists s' it, run (fun _ x => x) [Moved 0 2] s = Some s' /\ transform_begin std_function s 0 = Some it /\ dereference (fun f => f) [1; 2; 3] s' (advance it 2) = Some 3).
Proof.
  unfold copied_into_iterators. split; [cbn; repeat split; lia|]. split; [cbn; repeat split; lia|]. split; [cbn; intuition discriminate|]. split; [cbn; intuition discriminate|].
  cbv zeta. split; [|split]; eexists; eexists; (split; [reflexivity|]); (split; [reflexivity|]); reflexivity.
Qed.
