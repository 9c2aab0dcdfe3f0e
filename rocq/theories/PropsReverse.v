(** * Property C117: reverse

    [range_is w b before l after] and [only_in] are in SpecSort.v, [ends] and [unused_names] in SpecVec.v; [rev] is the reversal of
    the standard library: the element at place [i] from the front goes to place [i] from the back. *)

From Coq Require Import List Arith Lia.
From Verif Require Import Mem MemLemmas SpecVec Sort SpecSort SpecAlgo VariantProofs AlgoProofs3 Reverse ReverseProofs PropsSort PropsAlgo.
Import ListNotations.
Local Open Scope nat_scope.

Lemma reversed {V} (w w' : world V) b before l after : range_is w b before l after ->
  at_ (~ someone_throws w) w' (upd (heap w) b (Some (before ++ map Some (rev l) ++ after))) ->
  unused_names w' /\ only_in b w w' /\ range_is w' b before (rev l) after.
Proof.
  intros Hr (H1 & H2 & _). split; [|split].
  - intros b' Hb. rewrite H1. now apply H2.
  - intros b' D. rewrite H1. now apply upd_other.
  - unfold range_is. rewrite H1. apply upd_same.
Qed.

(** ** C117. reverse(r) puts the elements of the range in the opposite order, for every length, with random access or with iterators
    that can only be moved one step forwards or backwards. It reads and writes nothing outside of the range, never moves an iterator
    before its begin, and nothing else changes. *)
Theorem C117_reverse : forall V (w : world V) b before l after, unused_names w -> range_is w b before l after ->
  ends (reverse_random (Some b) (length before) (length before + length l) tt w)
    (fun _ _ w' => unused_names w' /\ only_in b w w' /\ range_is w' b before (rev l) after)
    (fun _ _ => False).
Proof.
  intros V w b before l after Hu Hr. apply (reverse_random_ok (~ someone_throws w) b before l after (heap w) tt w); auto.
  - exact (memory_at _ w Hu (fun q => q)).
  - intros w' H. now apply reversed.
Qed.
Print Assumptions C117_reverse.
Theorem C117_reverse_bidirectional : forall V (w : world V) b before l after, unused_names w -> range_is w b before l after ->
  ends (reverse_bidirectional (Some b) (length before) (length before + length l) tt w)
    (fun _ _ w' => unused_names w' /\ only_in b w w' /\ range_is w' b before (rev l) after)
    (fun _ _ => False).
Proof.
  intros V w b before l after Hu Hr. apply (reverse_bidirectional_ok (~ someone_throws w) b before l after (heap w) tt w); auto.
  - exact (memory_at _ w Hu (fun q => q)).
  - intros w' H. now apply reversed.
Qed.
Print Assumptions C117_reverse_bidirectional.
Example C117_example :
  contents_of 0 (reverse_random (Some 0) 0 5 tt (one_range [1; 2; 3; 4; 5] [])) = Some (map Some [5; 4; 3; 2; 1]) /\
  contents_of 0 (reverse_bidirectional (Some 0) 0 4 tt (one_range [1; 2; 3; 4] [])) = Some (map Some [4; 3; 2; 1]) /\
  contents_of 0 (reverse_random (Some 0) 0 2 tt (one_range [1; 2] [])) = Some (map Some [2; 1]) /\
  contents_of 0 (reverse_random (Some 0) 0 0 tt (one_range (@nil nat) [])) = Some (@nil (option nat)) /\
  unused_names (one_range [1; 2; 3] []) /\ range_is (one_range [1; 2; 3] []) 0 [] [1; 2; 3] [].
Proof. repeat split; try (vm_compute; reflexivity). intros b Hb. destruct b; [cbn in Hb; lia|reflexivity]. Qed.
