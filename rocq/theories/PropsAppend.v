(** * C140: append to containers of the standard library and to the linked list *)

From Coq Require Import List Arith Lia Bool.
From Verif Require Import Append SpecAppend AppendProofs.
Import ListNotations.

(** ** append adds the elements of the source in order, from every kind of source; the source is left as it was, empty, or moved from.
    An exception that leaves comes from an operation of the elements or an allocation, and a range that is copied is as it was. *)
Theorem C140_append : forall V k grow fuel ranges sized trivial trivial_move unspecified t src script (us : list V),
  offers src us -> usable k t -> length us < fuel ->
  match append k grow fuel ranges sized trivial trivial_move unspecified (State t src script) with
  | Finished s => items (the_target s) = items t ++ us /\ used_up src (the_source s) us
  | Threw s => In true script /\ (src = Lasting us -> the_source s = src)
  | Undefined | Unfinished => False
  end.
Proof. exact append_ok. Qed.
Print Assumptions C140_append.

(** ** When push_back is called for each element, an exception leaves the target with some of the first new elements; what was not
    added is still in an expiring container whose elements are moved one by one. *)
Theorem C140_one_by_one : forall V k grow fuel ranges sized trivial trivial_move unspecified t src script (us : list V),
  offers src us -> usable k t -> length us < fuel -> one_by_one k ranges trivial_move ->
  match append k grow fuel ranges sized trivial trivial_move unspecified (State t src script) with
  | Threw s =>
      exists n, n < length us /\ items (the_target s) = items t ++ firstn n us /\
        (forall c, src = Expiring c (map Alive us) -> c = false \/ trivial = true -> the_source s = Expiring c (moved_up_to n us))
  | _ => True
  end.
Proof. exact append_one_by_one. Qed.
Print Assumptions C140_one_by_one.

(** ** After an exception the source can still be destroyed, when its elements are not relocated or the target is a std::vector and the
    size of the source is known. *)
Theorem C140_survives_partial : forall V k grow fuel ranges sized trivial trivial_move unspecified t src script (us : list V),
  offers src us -> usable k t -> length us < fuel ->
  (forall c, src = Expiring c (map Alive us) -> c = false \/ trivial = true) \/ k = StdVector /\ sized = true \/ ~ one_by_one k ranges trivial_move ->
  match append k grow fuel ranges sized trivial trivial_move unspecified (State t src script) with
  | Threw s => can_be_destroyed (the_source s) = true
  | _ => True
  end.
Proof. exact append_survives. Qed.
Print Assumptions C140_survives_partial.

(** ** Otherwise it cannot: append(list, std::move(vector)) with elements that are not trivially copyable, where making a node throws.
    The elements that were relocated are still counted by the vector and are destroyed again. *)
Theorem C140_survives_refuted : forall k, k <> StdVector -> exists grow fuel ranges sized trivial trivial_move unspecified t (us : list nat) script,
  usable k t /\ length us < fuel /\
  match append k grow fuel ranges sized trivial trivial_move unspecified (State t (Expiring true (map Alive us)) script) with
  | Threw s => can_be_destroyed (the_source s) = false
  | _ => False
  end.
Proof.
  intros k N. exists S, 4, false, true, false, false, [], (Target [7] 0 0 0), [1; 2; 3], [false; true].
  destruct k; [contradiction|..]; cbn; repeat split; try lia; intros E; discriminate E.
Qed.
Print Assumptions C140_survives_refuted.

(** ** A std::vector allocates at most once when the size of the source is known, not at all when there is room (its iterators then stay
    valid), and at least doubles its capacity when it does. *)
Theorem C140_allocates_once : forall V grow fuel trivial unspecified t src script (us : list V),
  offers src us -> length us < fuel ->
  match append StdVector grow fuel false true trivial false unspecified (State t src script) with
  | Finished s | Threw s =>
      allocations (the_target s) <= S (allocations t) /\
      (length (items t) + length us <= room t ->
       room (the_target s) = room t /\ epoch (the_target s) = epoch t /\ allocations (the_target s) = allocations t) /\
      (allocations (the_target s) <> allocations t -> 2 * room t <= room (the_target s))
  | Undefined | Unfinished => False
  end.
Proof. exact append_allocates_once. Qed.
Print Assumptions C140_allocates_once.

(** ** A std::vector whose elements are appended one by one can be appended to itself. *)
Theorem C140_itself_partial : forall V grow fuel trivial unspecified t script (us : list V),
  items t = us -> length us < fuel ->
  match append StdVector grow fuel false true trivial false unspecified (State t Itself script) with
  | Finished s => items (the_target s) = us ++ us
  | Threw s => In true script /\ exists n, n <= length us /\ items (the_target s) = us ++ firstn n us
  | Undefined | Unfinished => False
  end.
Proof. exact append_itself. Qed.
Print Assumptions C140_itself_partial.

(** ** Other containers cannot: what append_range and insert need does not hold; iterators of a std::deque are invalid after push_back;
    a list never reaches its end. *)
Theorem C140_itself_refuted :
  (forall V k grow fuel ranges sized trivial trivial_move unspecified (t : target V) script,
     ~ one_by_one k ranges trivial_move ->
     append k grow fuel ranges sized trivial trivial_move unspecified (State t Itself script) = Undefined) /\
  (forall V grow fuel sized trivial unspecified v (vs : list V) rm ep al,
     append StdDeque grow (S (S fuel)) false sized trivial false unspecified (State (Target (v :: vs) rm ep al) Itself []) = Undefined) /\
  (forall V k grow fuel sized trivial unspecified v (vs : list V) rm ep al,
     k = StdList \/ k = OwnList ->
     append k grow fuel false sized trivial false unspecified (State (Target (v :: vs) rm ep al) Itself []) = Unfinished).
Proof. exact append_itself_never. Qed.
Print Assumptions C140_itself_refuted.

(** A std::vector of two elements with room for three; a vector of three that expires. *)
Example C140_example :
  match append StdVector (fun n => 2 * n) 4 false true false false [] (State (Target [1; 2] 3 0 0) (Expiring true (map Alive [3; 4; 5])) []) with
  | Finished s => items (the_target s) = [1; 2; 3; 4; 5] /\ room (the_target s) = 6 /\ the_source s = Expiring true []
  | _ => False
  end.
Proof. vm_compute. auto. Qed.

Example C140_throws :
  match append StdList S 4 false true false false [] (State (Target [1; 2] 0 0 0) (Lasting [3; 4; 5]) [false; true]) with
  | Threw s => items (the_target s) = [1; 2; 3]
  | _ => False
  end.
Proof. vm_compute. reflexivity. Qed.

Example C140_twice :
  match append StdVector S 4 false true false false [] (State (Target [1; 2; 3] 3 0 0) Itself []) with
  | Finished s => items (the_target s) = [1; 2; 3; 1; 2; 3]
  | _ => False
  end.
Proof. vm_compute. reflexivity. Qed.
