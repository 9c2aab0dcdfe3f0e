(** * What a list with a count is

    Nothing here is used by the model. *)

From Coq Require Import List Arith ZArith.
From Verif Require Import LinkedList SpecList StdList.
Import ListNotations.

(** In the memory [m] the list with the sentinel [s] has the elements [l] (the nodes that hold them and their values), and its size() is the number of them,
    as a 64-bit number. *)
Definition sized_at {V} (z : sizes) (m : memory (nat * nat) V) (s : nat) (l : list (nat * V)) : Prop :=
  list_at m s l /\ z s = (Z.of_nat (length l) mod 2 ^ 64)%Z.
(** The size() of all lists of [m] that are not named is the same as before. *)
Definition sizes_kept {V} (ss : list nat) (m : memory (nat * nat) V) (z z' : sizes) : Prop :=
  forall q, ~ In q ss -> object_at m q <> None -> z' q = z q.

(** ** A client that makes calls on one list *)
Inductive list_call (V : Type) : Type :=
| Push_back (v : V) | Push_front (v : V) | Pop_back | Pop_front
| Insert (i : nat) (vs : list V)          (* at the position i *)
| Erase (i n : nat)                       (* n elements from the position i on *)
| Remove_if (predicate : V -> bool) | Clear
| Resize (n : nat) (v : V).
Arguments Push_back {V}. Arguments Push_front {V}. Arguments Pop_back {V}. Arguments Pop_front {V}. Arguments Insert {V}. Arguments Erase {V}. Arguments Remove_if {V}. Arguments Clear {V}. Arguments Resize {V}.

(** The client may make the call on a list with the values [vs]. *)
Definition permitted {V} (c : list_call V) (vs : list V) : Prop :=
  match c with
  | Pop_back | Pop_front => vs <> []
  | Insert i _ => i <= length vs
  | Erase i n => i + n <= length vs
  | Resize _ _ => (Z.of_nat (length vs) < 2 ^ 64)%Z
  | _ => True
  end.
(** The values after a call that returns *)
Definition values_after {V} (c : list_call V) (vs : list V) : list V :=
  match c with
  | Push_back v => vs ++ [v]
  | Push_front v => v :: vs
  | Pop_back => firstn (length vs - 1) vs
  | Pop_front => skipn 1 vs
  | Insert i ws => firstn i vs ++ ws ++ skipn i vs
  | Erase i n => firstn i vs ++ skipn (i + n) vs
  | Remove_if predicate => filter (fun v => negb (predicate v)) vs
  | Clear => []
  | Resize n v => firstn n vs ++ repeat v (n - length vs)
  end.
(** The values after a call that throws: resize may have appended some elements, all others have done nothing. *)
Definition values_after_throw {V} (c : list_call V) (vs ws : list V) : Prop :=
  match c with
  | Push_back _ | Push_front _ | Insert _ _ => ws = vs
  | Resize n v => exists i, length vs + i < n /\ ws = vs ++ repeat v i
  | _ => False
  end.
(** All calls of a history are permitted, however many of them throw. *)
Fixpoint all_permitted {V} (cs : list (list_call V)) (vs : list V) : Prop :=
  match cs with
  | [] => True
  | c :: cs => permitted c vs /\ all_permitted cs (values_after c vs) /\ forall ws, values_after_throw c vs ws -> all_permitted cs ws
  end.
Fixpoint history_ends {V} (cs : list (list_call V)) (vs ws : list V) : Prop :=
  match cs with
  | [] => ws = vs
  | c :: cs => history_ends cs (values_after c vs) ws \/ exists us, values_after_throw c vs us /\ history_ends cs us ws
  end.

(** The calls, as a client writes them: std::next(list.begin(), i) for a position *)
Fixpoint next_place {V} (i p : nat) : M (nat * nat) V nat :=
  match i with 0 => ret p | S i => bind (get_next p) (next_place i) end.
Definition place {V} (s i : nat) : S' V nat := lift (bind (list_begin s) (next_place i)).
Definition call {V} (s : nat) (c : list_call V) : S' V unit :=
  match c with
  | Push_back v => sbind (sized_push_back s v) (fun _ => sret tt)
  | Push_front v => sbind (sized_push_front s v) (fun _ => sret tt)
  | Pop_back => sized_pop_back s
  | Pop_front => sized_pop_front s
  | Insert i vs => sbind (place s i) (fun p => sbind (sized_insert s p vs) (fun _ => sret tt))
  | Erase i n => sbind (place s i) (fun p => sbind (place s (i + n)) (fun q => sbind (sized_erase s p q) (fun _ => sret tt)))
  | Remove_if predicate => sbind (sized_remove_if s predicate) (fun _ => sret tt)
  | Clear => sized_clear s
  | Resize n v => sized_resize s (Z.of_nat n) v
  end.
(** A history: the client catches all exceptions. *)
Fixpoint calls {V} (s : nat) (cs : list (list_call V)) : S' V unit :=
  match cs with
  | [] => sret tt
  | c :: cs => fun z m => match call s c z m with
                          | SReturned _ z m | SThrew z m => calls s cs z m
                          | SUndefined => SUndefined
                          end
  end.
(** What may have changed in memory when a list had the elements [l] and has the elements [k]: its sentinel, its elements, new nodes for new elements; the nodes of
    the elements that it has no more are freed, and everything else, including the size() of all other lists, is the same. *)
Definition only_the_list {V} (s : nat) (z : sizes) (m : memory (nat * nat) V) (l : list (nat * V)) (z' : sizes) (m' : memory (nat * nat) V) (k : list (nat * V)) : Prop :=
  forall q, q <> s ->
    (In q (names_of l) -> ~ In q (names_of k) -> object_at m' q = None) /\
    (~ In q (names_of l) -> In q (names_of k) -> object_at m q = None) /\
    (~ In q (names_of l) -> ~ In q (names_of k) -> object_at m' q = object_at m q /\ (object_at m q <> None -> z' q = z q)).
