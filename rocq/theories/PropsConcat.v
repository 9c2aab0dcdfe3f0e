(** * Property C116: concatenate *)

From Coq Require Import List Arith Bool Lia.
From Verif Require Import Mem MemLemmas Vec Concat SpecVec SpecConcat VecProofs ConcatProofs.
Import ListNotations.

Section Translate.
Context {V : Type} (minc maxc : nat).
Lemma Forall2_nth_intro {A B} (P : A -> B -> Prop) l : forall l', length l' = length l ->
  (forall k a, nth_error l k = Some a -> exists b, nth_error l' k = Some b /\ P a b) -> Forall2 P l l'.
Proof.
  induction l as [|a l IH]; intros [|b l'] Hl H; try discriminate; constructor.
  - destruct (H 0 a eq_refl) as (b' & [= <-] & Hb). exact Hb.
  - apply IH; [now injection Hl|]. intros k x Hk. apply (H (S k) x Hk).
Qed.
Lemma Forall2_nth_elim {A B} (P : A -> B -> Prop) l l' d k a : Forall2 P l l' -> nth_error l k = Some a -> P a (nth k l' d).
Proof. intros H. revert k. induction H; intros [|k] Hk; cbn in *; try discriminate; [now injection Hk as <-|auto]. Qed.
Lemma fine_has base h (a : @argument V) vs : fine minc maxc base h a vs <-> argument_has minc maxc base h a vs.
Proof.
  destruct a as [mks|o]; cbn; [|reflexivity]. split; intros H; (eapply Forall2_weaken; [|exact H]); intros mk v; apply makes_yields.
Qed.
Lemma good_of args vss base h : arguments_have (V := V) minc maxc args vss base h -> good minc maxc args (fun k => nth k vss []) base h.
Proof. intros [Hf Ha]. split; [|exact Ha]. intros k a Hk. apply (proj2 (fine_has _ _ _ _)). eapply Forall2_nth_elim; eauto. Qed.
Lemma of_good args u base h : good (V := V) minc maxc args u base h -> arguments_have minc maxc args (map u (seq 0 (length args))) base h.
Proof.
  intros [Hg Ha]. split; [|exact Ha]. apply Forall2_nth_intro; [now rewrite map_length, seq_length|]. intros k a Hk.
  exists (u k). split; [|apply (proj1 (fine_has _ _ _ _)); auto]. assert (k < length args) by (apply nth_error_Some; congruence).
  rewrite nth_error_map. rewrite (nth_error_nth' _ 0) by now rewrite seq_length. cbn. rewrite seq_nth by assumption. reflexivity.
Qed.
Lemma nth_seq_map (vss : list (list V)) n : n <= length vss -> map (fun k => nth k vss []) (seq 0 n) = firstn n vss.
Proof.
  revert n. induction vss as [|v vss IH]; intros n Hn; [cbn in Hn; now replace n with 0 by lia|]. destruct n as [|n]; [reflexivity|].
  cbn [seq map firstn nth]. f_equal. rewrite <- seq_shift, map_map. cbn. apply IH. cbn in Hn. lia.
Qed.
End Translate.

(** The result has the elements of all arguments in order, in storage of its own; the other memory is as before; what was not moved is
    unchanged, and what was moved is still an object, without elements. When an exception leaves, someone threw; and unless the storage
    of an argument is used that has elements before it, all arguments are still vectors (or were not touched) and nothing leaks. *)
Theorem C116_concatenate_partial : forall {V} (moved : V -> V) minc maxc always args vss base w,
  minc < maxc -> arguments_have minc maxc args vss base (heap w) -> unused_names w ->
  length (concat vss) <= maxc -> (always = true -> length (concat vss) <= minc) ->
  ends (concatenate moved minc maxc always args w)
    (fun args' o w' =>
       vector_at minc maxc o (concat vss) (heap w') /\ apart (args' ++ [Expiring o]) base (heap w') /\
       Forall2 (argument_left minc maxc (heap w')) args args' /\ unused_names w')
    (fun args' w' =>
       someone_throws w /\ unused_names w' /\
       ((forall k o, first_with_room args (length (concat vss)) k o -> concat (firstn k vss) = []) ->
        exists vss', arguments_have minc maxc args' vss' base (heap w'))).
Proof.
  intros V moved minc maxc always args vss base w Hlt Hargs Hun Hmax Hmin.
  pose proof (Forall2_len _ _ _ (proj1 Hargs)) as Hlen.
  assert (concat (map (fun k => nth k vss []) (seq 0 (length args))) = concat vss) as Hall by (rewrite nth_seq_map, Hlen, firstn_all by lia; reflexivity).
  pose proof (concatenate_ok moved (calm w) minc maxc Hlt always args (fun k => nth k vss []) base (heap w) w (at_start w Hun) (good_of _ _ _ _ _ _ Hargs)) as H.
  rewrite Hall in H. specialize (H Hmax Hmin). unfold wp, ends in *. destruct (concatenate moved minc maxc always args w) as [args' o w'|args' w'|f]; [| |exact H].
  - destruct H as (h' & Hw' & Hv & Ha & Hl & Hleft & _). destruct (at_here _ _ _ Hw') as [He Hu].
    assert (forall p (us : list V), vector_at minc maxc p us h' -> vector_at minc maxc p us (heap w')) as Hvec.
    { intros p us Hp. apply vector_stor in Hp as (Hs & s & Hp). apply vector_stor. split; [exact Hs|]. exists s. eapply stor_ext; eauto. }
    split; [auto|]. split; [eapply apart_ext; eauto|]. split; [|exact Hu]. apply Forall2_nth_intro; [exact Hl|].
    intros k a Hk. destruct (Hleft k a Hk) as (a' & Ha' & H'). exists a'. split; [exact Ha'|]. destruct a as [|p], a' as [|p']; cbn in *; auto. destruct H'; auto.
  - destruct H as (Hq & Hl & h' & u' & Hw' & Hg & _). destruct (at_here _ _ _ Hw') as [He Hu]. split; [now apply not_calm|]. split; [exact Hu|].
    intros Hnone. exists (map u' (seq 0 (length args'))).
    assert (good minc maxc args' u' base h') as [Hg' Ha'].
    { apply Hg. intros k o Hk. rewrite nth_seq_map; [now apply (Hnone k o)|]. destruct Hk as (Hk & _). assert (k < length args) by (apply nth_error_Some; congruence). lia. }
    apply of_good. split; [|eapply apart_ext; eauto]. intros k a Hk. eapply fine_ext; eauto.
Qed.
Print Assumptions C116_concatenate_partial.

(** When there is an expiring vector with room for everything, the result has its storage: the first of them gives it. *)
Theorem C116_reuses_storage : forall {V} (moved : V -> V) minc maxc always args vss base w k ok,
  minc < maxc -> arguments_have minc maxc args vss base (heap w) -> unused_names w ->
  length (concat vss) <= maxc -> (always = true -> length (concat vss) <= minc) ->
  first_with_room args (length (concat vss)) k ok ->
  ends (concatenate moved minc maxc always args w) (fun args' o w' => b_storage o = b_storage ok) (fun args' w' => someone_throws w).
Proof.
  intros V moved minc maxc always args vss base w k ok Hlt Hargs Hun Hmax Hmin Hk.
  pose proof (Forall2_len _ _ _ (proj1 Hargs)) as Hlen.
  assert (concat (map (fun k => nth k vss []) (seq 0 (length args))) = concat vss) as Hall by (rewrite nth_seq_map, Hlen, firstn_all by lia; reflexivity).
  pose proof (concatenate_ok moved (calm w) minc maxc Hlt always args (fun k => nth k vss []) base (heap w) w (at_start w Hun) (good_of _ _ _ _ _ _ Hargs)) as H.
  rewrite Hall in H. specialize (H Hmax Hmin). unfold wp, ends in *. destruct (concatenate moved minc maxc always args w) as [args' o w'|args' w'|f]; [| |exact H].
  - destruct H as (h' & Hw' & Hv & Ha & Hl & Hleft & Hsame). now apply (Hsame k ok).
  - destruct H as (Hq & _). now apply not_calm.
Qed.
Print Assumptions C116_reuses_storage.

(** And when an exception leaves then, all other arguments are still vectors (or were not touched). *)
Theorem C116_others_survive : forall {V} (moved : V -> V) minc maxc always args vss base w k ok,
  minc < maxc -> arguments_have minc maxc args vss base (heap w) -> unused_names w ->
  length (concat vss) <= maxc -> (always = true -> length (concat vss) <= minc) ->
  first_with_room args (length (concat vss)) k ok ->
  ends (concatenate moved minc maxc always args w) (fun args' o w' => True)
    (fun args' w' => apart args' base (heap w') /\
       forall j a, j <> k -> nth_error args' j = Some a -> exists vs, argument_has minc maxc base (heap w') a vs).
Proof.
  intros V moved minc maxc always args vss base w k ok Hlt Hargs Hun Hmax Hmin Hk.
  pose proof (Forall2_len _ _ _ (proj1 Hargs)) as Hlen.
  assert (concat (map (fun k => nth k vss []) (seq 0 (length args))) = concat vss) as Hall by (rewrite nth_seq_map, Hlen, firstn_all by lia; reflexivity).
  pose proof (concatenate_ok moved (calm w) minc maxc Hlt always args (fun k => nth k vss []) base (heap w) w (at_start w Hun) (good_of _ _ _ _ _ _ Hargs)) as H.
  rewrite Hall in H. specialize (H Hmax Hmin). unfold wp, ends in *. destruct (concatenate moved minc maxc always args w) as [args' o w'|args' w'|f]; [exact I| |exact H].
  destruct H as (Hq & Hl & h' & u' & Hw' & _ & Hg). destruct (at_here _ _ _ Hw') as [He Hu]. destruct (Hg k ok Hk) as [Hg' Ha].
  split; [eapply apart_ext; eauto|]. intros j a Hj Hja. exists (u' j). apply (proj1 (fine_has _ _ _ _ _ _)). eapply fine_ext; eauto.
Qed.
Print Assumptions C116_others_survive.

(** The basic guarantee does not hold otherwise: the elements of the expiring vector were moved towards the end of its storage, the copy
    that belongs before them throws, and the vector counts cells in which no object lives. Its destructor is undefined behaviour. *)
Section Witness.
Definition w_heap (b : nat) : option (list (option nat)) := if b =? 0 then Some [Some 7; None; None] else None.
Definition w_world (script : list bool) : world nat := World w_heap 1 script.
Definition w_vector : bvector := BVector (Storage (Some 0) 3) 1.
Definition w_args : list (@argument nat) := [Borrowed [Supply 5]; Expiring w_vector].
Definition w_moved (n : nat) := n.

Lemma w_arguments s : arguments_have 0 10 w_args [[5]; [7]] (fun _ => None) (heap (w_world s)).
Proof.
  split.
  - repeat constructor; cbn. exists 2. split; [reflexivity|]. cbn. lia.
  - assert (forall k b, uses w_args k b -> k = 1 /\ b = 0) as Hu.
    { intros k b (o & Ho & Hb). unfold w_args in Ho. destruct k as [|[|k]]; cbn in Ho; try discriminate; [|destruct k; discriminate].
      injection Ho as <-. injection Hb as <-. auto. }
    split; [|split].
    + intros j k b Hj Hk. apply Hu in Hj, Hk. lia.
    + reflexivity.
    + intros b Hb. cbn. unfold w_heap. destruct (Nat.eqb_spec b 0) as [->|]; [|reflexivity]. elim (Hb 1). exists w_vector. split; reflexivity.
Qed.
Lemma w_unused s : unused_names (w_world s).
Proof. intros b Hb. cbn in *. unfold w_heap. destruct (Nat.eqb_spec b 0); [lia|reflexivity]. Qed.

Theorem C116_basic_guarantee_refuted :
  exists args vss base w,
    arguments_have 0 10 args vss base (heap w) /\ unused_names w /\ length (concat vss) <= 10 /\
    match concatenate w_moved 0 10 false args w with
    | Exc [_; Expiring o] w' => bv_destroy o w' = Bad Dead
    | _ => False
    end.
Proof.
  exists w_args, [[5]; [7]], (fun _ => None), (w_world [true]). split; [apply w_arguments|]. split; [apply w_unused|]. split; [cbn; lia|]. reflexivity.
Qed.
Print Assumptions C116_basic_guarantee_refuted.

(** The hypotheses are met: two arguments, the second of which has room for everything. *)
Example C116_example :
  first_with_room w_args (length (concat [[5]; [7]])) 1 w_vector /\
  match concatenate w_moved 0 10 false w_args (w_world []) with
  | Ret [Borrowed _; Expiring rest] o w' => b_storage o = b_storage w_vector /\ heap w' 0 = Some [Some 5; Some 7; None] /\ b_size o = 2 /\ moved_from rest
  | _ => False
  end.
Proof.
  split; [|vm_compute; auto]. split; [reflexivity|]. split; [cbn; lia|]. intros [|j] o Hj Ho; [discriminate|lia].
Qed.
(** Without room a new block is made; when an allocation or a copy throws then, the vector keeps its elements or has lost them. *)
Definition w_large : list (@argument nat) := [Expiring w_vector; Borrowed [Supply 1; Supply 2; Supply 3]].
Example C116_new_storage_example :
  (forall k o, ~ first_with_room w_large 4 k o) /\
  match concatenate w_moved 0 10 false w_large (w_world []) with
  | Ret _ o w' => b_storage o = Storage (Some 1) 4 /\ heap w' 1 = Some [Some 7; Some 1; Some 2; Some 3]
  | _ => False
  end /\
  match concatenate w_moved 0 10 false w_large (w_world [false; false; true]) with
  | Exc [Expiring o; _] w' => b_size o = 0 /\ heap w' 0 = Some [None; None; None] /\ heap w' 1 = None
  | _ => False
  end.
Proof.
  split; [|split; vm_compute; auto]. intros k o (Hk & Hroom & _). destruct k as [|[|k]]; cbn in Hk; try discriminate; [|destruct k; discriminate].
  injection Hk as <-. cbn in Hroom. lia.
Qed.
End Witness.
