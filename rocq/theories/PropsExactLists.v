(** * Exactly what the constructors of the lists lose when they throw (C85) *)

From Coq Require Import List Arith Lia.
From Verif Require Import LinkedList SpecList LinkedListProofs LinkedListProofs2 LinkedListProofs3 LinkedListProofs5 ForwardListProofs PropsList.
Import ListNotations.
Local Open Scope nat_scope.
Local Notation bmemory := (memory (nat * nat)).
Local Notation fmemory := (memory (option nat)).

(** What is there in [m'] but was not in [m] are the nodes [lost], which nothing leads to any more: one for each of the elements before the one for which it threw, which is one of [vs]. All else is as it was. *)
Definition loses {L V} (m m' : memory L V) (lost : list (nat * V)) (vs : list V) : Prop :=
  valid m' /\
  (exists at_least_one, at_least_one <> [] /\ vs = map snd lost ++ at_least_one) /\
  NoDup (map fst lost) /\
  (forall p v, In (p, v) lost -> object_at m p = None /\ exists link, object_at m' p = Some (Node link v)) /\
  same_except (map fst lost) m m'.

Section Constructors.
Context {V : Type}.
Lemma from_loses (m : memory (nat * nat) V) vs m' : valid m -> list_from vs m = Threw m' -> exists lost, loses m m' lost vs.
Proof.
  intros Hv. unfold list_from. destruct (default_ok m Hv) as (m1 & H1 & Hn1 & Hv1 & Hs1 & Ht1). rewrite (bind_returned _ _ _ _ _ H1).
  pose proof (append_ok vs m1 (names m) [] Hv1 Ht1) as H. unfold rethrow_after, bind. destruct (list_append (names m) vs m1) as [u m2|m2|] eqn:E; [discriminate| |contradiction].
  destruct H as (k & (r & Hr & Er) & Hk & Hv2 & (Hb & Ho & N & _) & Hs2 & Hn2). cbn [app] in *. unfold end_sentinel. destruct Hb as (j & ->). intros [= <-].
  inversion N as [|a b N1 N2]. subst a b.
  assert (Hfree : forall p, In p (names_of k) -> object_at m p = None).
  { intros p Hp. destruct (object_at m p) eqn:Eo; [|reflexivity]. specialize (Hk p Hp). specialize (Hv p ltac:(congruence)). lia. }
  exists k. split; [|split; [|split; [exact N2|split]]].
  - intros q. cbn. destruct (Nat.eqb_spec q (names m)) as [->|]; [congruence|]. apply Hv2.
  - exists r. auto.
  - intros p v Hp. assert (Hi : In p (names_of k)) by (apply in_map_iff; exists (p, v); auto). split; [now apply Hfree|]. destruct (Ho p v Hp) as (l & El). exists l. cbn.
    destruct (Nat.eqb_spec p (names m)) as [->|]; [contradiction | exact El].
  - intros q Hq. cbn. destruct (Nat.eqb_spec q (names m)) as [->|Hne]; [symmetry; now apply fresh|]. rewrite Hs2, Hs1; [reflexivity| |].
    + cbn. intros [Hi|[]]. congruence.
    + cbn. intros [Hi|Hi]; [congruence | exact (Hq Hi)].
Qed.
Lemma ffrom_loses (m : memory (option nat) V) vs m' : valid m -> forward_from vs m = Threw m' -> exists lost, loses m m' lost vs.
Proof.
  intros Hv. unfold forward_from. destruct (fdefault_ok m Hv) as (m1 & H1 & Hn1 & Hv1 & Hs1 & Ht1). rewrite (f_returned _ _ _ _ _ H1).
  pose proof (fappend_ok vs m1 (names m) [] Hv1 Ht1) as H. change (last_place [] (names m)) with (names m) in H. unfold before_begin.
  unfold rethrow_after, bind. destruct (append_after (names m) vs m1) as [u m2|m2|] eqn:E; [discriminate| |contradiction].
  destruct H as (k & (r & Hr & Er) & Hk & Hv2 & (Hb & Ho & N & _) & Hs2 & Hn2). cbn [app] in *. unfold end_sentinel. destruct Hb as (j & ->). intros [= <-].
  inversion N as [|a b N1 N2]. subst a b.
  assert (Hfree : forall p, In p (names_of k) -> object_at m p = None).
  { intros p Hp. destruct (object_at m p) eqn:Eo; [|reflexivity]. specialize (Hk p Hp). specialize (Hv p ltac:(congruence)). lia. }
  exists k. split; [|split; [|split; [exact N2|split]]].
  - intros q. cbn. destruct (Nat.eqb_spec q (names m)) as [->|]; [congruence|]. apply Hv2.
  - exists r. auto.
  - intros p v Hp. assert (Hi : In p (names_of k)) by (apply in_map_iff; exists (p, v); auto). split; [now apply Hfree|]. destruct (Ho p v Hp) as (l & El). exists l. cbn.
    destruct (Nat.eqb_spec p (names m)) as [->|]; [contradiction | exact El].
  - intros q Hq. cbn. destruct (Nat.eqb_spec q (names m)) as [->|Hne]; [symmetry; destruct (object_at m (names m)) eqn:Eo; [specialize (Hv (names m) ltac:(congruence)); lia | reflexivity]|].
    rewrite Hs2, Hs1; [reflexivity| |].
    + cbn. intros [Hi|[]]. congruence.
    + cbn. intros [Hi|Hi]; [congruence | exact (Hq Hi)].
Qed.
End Constructors.

(** The constructor from a range, the copy constructor and insert of a range, all for every list: they lose exactly the nodes that they had made. So they lose nothing only if the first element is the one that threw. *)
Theorem C85_exactly_what_is_lost : forall V (m m' : bmemory V) vs, valid m -> list_from vs m = Threw m' -> exists lost, loses m m' lost vs.
Proof. intros V m m' vs. apply from_loses. Qed.
Print Assumptions C85_exactly_what_is_lost.
Theorem C85_exactly_what_a_copy_loses : forall V (m m' : bmemory V) t k, valid m -> list_at m t k -> list_copy t m = Threw m' -> exists lost, loses m m' lost (map snd k).
Proof. intros V m m' t k Hv Hk H. rewrite (copy_from m t k Hv Hk) in H. exact (from_loses m _ m' Hv H). Qed.
Print Assumptions C85_exactly_what_a_copy_loses.
Theorem C85_exactly_what_insert_loses : forall V (m m' : bmemory V) s before after vs, valid m -> list_at m s (before ++ after) ->
  list_insert s (first_of after s) vs m = Threw m' -> exists lost, loses m m' lost vs.
Proof.
  intros V m m' s l1 l2 vs Hv Hl H. pose proof (insert_full m s l1 l2 vs Hv Hl) as F. rewrite H in F. destruct F as (_ & _ & F). exact (from_loses m vs m' Hv F).
Qed.
Print Assumptions C85_exactly_what_insert_loses.
Theorem C85_exactly_what_a_forward_list_loses : forall V (m m' : fmemory V) vs, valid m -> forward_from vs m = Threw m' -> exists lost, loses m m' lost vs.
Proof. intros V m m' vs. apply ffrom_loses. Qed.
Print Assumptions C85_exactly_what_a_forward_list_loses.
Theorem C85_exactly_what_a_forward_copy_loses : forall V (m m' : fmemory V) t k, valid m -> forward_at m t k -> forward_copy t m = Threw m' -> exists lost, loses m m' lost (map snd k).
Proof. intros V m m' t k Hv Hk H. rewrite (fcopy_from m t k Hv Hk) in H. exact (ffrom_loses m _ m' Hv H). Qed.
Print Assumptions C85_exactly_what_a_forward_copy_loses.
(** The third element throws, and the two nodes that were made before it are lost. *)
Example C85_lost_case : exists m', list_from [10; 20; 30] (empty_memory (nat * nat) nat [false; false; false; false; true]) = Threw m' /\
  loses (empty_memory _ _ [false; false; false; false; true]) m' [(1, 10); (2, 20)] [10; 20; 30].
Proof.
  eexists. split; [vm_compute; reflexivity|]. split; [|split; [|split; [|split]]].
  - intros p. cbn. do 4 (destruct p as [|p]; [cbn; intros H; try lia; now contradiction H|]). cbn. congruence.
  - exists [30]. split; [discriminate | reflexivity].
  - repeat constructor; cbn; intuition lia.
  - intros p v [[= <- <-]|[[= <- <-]|[]]]; (split; [reflexivity | eexists; reflexivity]).
  - intros q Hq. do 4 (destruct q as [|q]; [try reflexivity; exfalso; apply Hq; cbn; tauto|]). reflexivity.
Qed.
