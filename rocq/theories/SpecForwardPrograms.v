(** * Programs with any number of forward lists

    What clients do with lists, and what they may rely on. Nothing here is used by the model. *)

From Coq Require Import List Arith Bool.
From Verif Require Import LinkedList SpecList ForwardErase.
Import ListNotations.

Section Programs.
Context {V : Type}.
Notation memory := (memory (option nat) V).

(** ** Clients *)

(** A list is known by the address of its sentinel, which is also its iterator before_begin. An iterator is the address of an element or of the sentinel;
    at the end it is null. Clients keep iterators and use them later. *)
Inductive call : Type :=
| New | From (vs : list V) | Copy (t : nat) | Move (t : nat) | Destroy (s : nat)
| Push_front (s : nat) (v : V) | Pop_front (s : nat)
| Insert_after (s p : nat) (v : V) | Erase_after (s p : nat) | Erase_all_after (s p : nat) | Erase_range_after (s p : nat) (last : option nat) | Clear (s : nat)
| Splice_after (s p t before_first before_last : nat)   (* what comes after before_first in t, up to before_last, to the place after p in s *)
| Swap (s t : nat) | Move_assign (s t : nat) | Copy_assign (s t : nat)
| Begin (s : nat) | Next (p : nat) | Read (p : nat) | Write (p : nat) (v : V).
Inductive reply : Type := Place (p : nat) | Maybe (p : option nat) | Value (v : V) | Nothing | Thrown.
(** A client catches exceptions, and decides by the replies what to do next. *)
Inductive client : Type := Done | Call (c : call) (next : reply -> client).

Definition replying {A} (f : A -> reply) (x : M (option nat) V A) : M (option nat) V reply := bind x (fun a => ret (f a)).
Definition no_value {A} (a : A) : reply := Nothing.
Definition perform (c : call) : M (option nat) V reply :=
  match c with
  | New => replying Place forward_default
  | From vs => replying Place (forward_from vs)
  | Copy t => replying Place (forward_copy t)
  | Move t => replying Place (forward_move t)
  | Destroy s => replying no_value (forward_destroy s)
  | Push_front s v => replying Place (forward_push_front s v)
  | Pop_front s => replying no_value (erase_after (before_begin s))
  | Insert_after s p v => replying Place (insert_after p v)
  | Erase_after s p => replying Maybe (erase_after p)
  | Erase_all_after s p => replying no_value (erase_all_after p)
  | Erase_range_after s p last => replying no_value (erase_range_after p last)
  | Clear s => replying no_value (forward_clear s)
  | Splice_after s p t before_first before_last => replying no_value (splice_after s p t before_first before_last)
  | Swap s t => replying no_value (forward_swap s t)
  | Move_assign s t => replying no_value (forward_move_assign s t)
  | Copy_assign s t => replying no_value (forward_copy_assign s t)
  | Begin s => replying Maybe (forward_begin s)
  | Next p => replying Maybe (links p)
  | Read p => replying Value (value p)
  | Write p v => replying no_value (set_value p v)
  end.
(** [None]: the client met undefined behaviour. *)
Fixpoint run (c : client) (m : memory) : option memory :=
  match c with
  | Done => Some m
  | Call c next => match perform c m with Returned r m => run (next r) m | Threw m => run (next Thrown) m | Undefined => None end
  end.

(** ** What they rely on *)

(** The lists that exist: each with its elements, which have an address and a value. *)
Definition lists : Type := list (nat * list (nat * V)).
Definition put (st : lists) (s : nat) (l : list (nat * V)) : lists := map (fun e => if fst e =? s then (s, l) else e) st.
Definition without (st : lists) (s : nat) : lists := filter (fun e => negb (fst e =? s)) st.
Definition owned (st : lists) (q : nat) : Prop := exists s l, In (s, l) st /\ In q (s :: names_of l).
Definition new_in (st : lists) (ps : list nat) : Prop := NoDup ps /\ forall p, In p ps -> ~ owned st p.

(** The call [c], when the lists are [st], may have this reply and leave these lists. A client must not make a call for which there is none. *)
Inductive step (st : lists) : call -> reply -> lists -> Prop :=
| step_new s : new_in st [s] -> step st New (Place s) (st ++ [(s, [])])
| step_from s l : new_in st (s :: names_of l) -> step st (From (map snd l)) (Place s) (st ++ [(s, l)])
| step_from_throws vs : step st (From vs) Thrown st
| step_copy t k s l : In (t, k) st -> new_in st (s :: names_of l) -> map snd l = map snd k -> step st (Copy t) (Place s) (st ++ [(s, l)])
| step_copy_throws t k : In (t, k) st -> step st (Copy t) Thrown st
| step_move t k s : In (t, k) st -> new_in st [s] -> step st (Move t) (Place s) (put st t [] ++ [(s, k)])
| step_destroy s l : In (s, l) st -> step st (Destroy s) Nothing (without st s)
| step_push_front s l p v : In (s, l) st -> new_in st [p] -> step st (Push_front s v) (Place p) (put st s ((p, v) :: l))
| step_push_front_throws s l v : In (s, l) st -> step st (Push_front s v) Thrown st
| step_pop_front s e l : In (s, e :: l) st -> step st (Pop_front s) Nothing (put st s l)
| step_insert_after s l1 l2 p v : In (s, l1 ++ l2) st -> new_in st [p] -> step st (Insert_after s (last_place l1 s) v) (Place p) (put st s (l1 ++ (p, v) :: l2))
| step_insert_after_throws s l1 l2 v : In (s, l1 ++ l2) st -> step st (Insert_after s (last_place l1 s) v) Thrown st
| step_erase_after s l1 p v l2 : In (s, l1 ++ (p, v) :: l2) st -> step st (Erase_after s (last_place l1 s)) (Maybe (hd_error (names_of l2))) (put st s (l1 ++ l2))
| step_erase_all_after s l1 l2 : In (s, l1 ++ l2) st -> step st (Erase_all_after s (last_place l1 s)) Nothing (put st s l1)
| step_erase_range_after s l1 l2 l3 : In (s, l1 ++ l2 ++ l3) st -> step st (Erase_range_after s (last_place l1 s) (hd_error (names_of l3))) Nothing (put st s (l1 ++ l3))
| step_clear s l : In (s, l) st -> step st (Clear s) Nothing (put st s [])
| step_splice_after s k1 k2 t l1 l2 l3 : In (s, k1 ++ k2) st -> In (t, l1 ++ l2 ++ l3) st -> s <> t ->
    step st (Splice_after s (last_place k1 s) t (last_place l1 t) (last_place (l1 ++ l2) t)) Nothing (put (put st s (k1 ++ l2 ++ k2)) t (l1 ++ l3))
| step_swap s l t k : In (s, l) st -> In (t, k) st -> step st (Swap s t) Nothing (put (put st s k) t l)
| step_move_assign s l t k : In (s, l) st -> In (t, k) st -> step st (Move_assign s t) Nothing (put (put st s k) t l)
| step_copy_assign s l t k l' : In (s, l) st -> In (t, k) st -> s <> t -> map snd l' = map snd k ->
    (forall n, n <= length l -> n <= length k -> firstn n (names_of l') = firstn n (names_of l)) -> new_in st (skipn (length l) (names_of l')) ->
    step st (Copy_assign s t) Nothing (put st s l')
| step_copy_assign_self s l : In (s, l) st -> step st (Copy_assign s s) Nothing st
(** Some elements have been assigned or added. *)
| step_copy_assign_throws s l t k l' i : In (s, l) st -> In (t, k) st -> s <> t -> i < length k -> map snd l' = firstn i (map snd k) ++ skipn i (map snd l) ->
    firstn (length l) (names_of l') = names_of l -> new_in st (skipn (length l) (names_of l')) ->
    step st (Copy_assign s t) Thrown (put st s l')
| step_begin s l : In (s, l) st -> step st (Begin s) (Maybe (hd_error (names_of l))) st
| step_next s l1 l2 : In (s, l1 ++ l2) st -> step st (Next (last_place l1 s)) (Maybe (hd_error (names_of l2))) st
| step_read s l1 p v l2 : In (s, l1 ++ (p, v) :: l2) st -> step st (Read p) (Value v) st
| step_write s l1 p v l2 w : In (s, l1 ++ (p, v) :: l2) st -> step st (Write p w) Nothing (put st s (l1 ++ (p, w) :: l2)).

(** The client makes only calls that it may make. *)
Fixpoint careful (c : client) (st : lists) : Prop :=
  match c with
  | Done => True
  | Call a next => (exists r st', step st a r st') /\ forall r st', step st a r st' -> careful (next r) st'
  end.
(** What happens when the client runs: its calls with their replies, and the lists in the end. *)
Inductive runs : client -> lists -> list (call * reply) -> lists -> Prop :=
| runs_done st : runs Done st [] st
| runs_call a next st r st1 tr st2 : step st a r st1 -> runs (next r) st1 tr st2 -> runs (Call a next) st ((a, r) :: tr) st2.

(** In memory: all lists are there, and share nothing. *)
Definition represents (m : memory) (st : lists) : Prop :=
  valid m /\ NoDup (map fst st) /\ (forall s l, In (s, l) st -> forward_at m s l) /\
  forall s l t k, In (s, l) st -> In (t, k) st -> s <> t -> forall p, In p (s :: names_of l) -> In p (t :: names_of k) -> False.
(** Other objects stay as they are. *)
Definition others_kept (m : memory) (st : lists) (m' : memory) (st' : lists) : Prop :=
  forall q, object_at m q <> None -> ~ owned st q -> object_at m' q = object_at m q /\ ~ owned st' q.
(** There are no new objects except in lists. *)
Definition nothing_new (m : memory) (st : lists) (m' : memory) (st' : lists) : Prop :=
  forall q, object_at m' q <> None -> owned st' q \/ object_at m q <> None /\ ~ owned st q.
(** A constructor that throws may leave objects behind (see C85), unless there is at most one element. *)
Definition may_leak (a : call) (r : reply) : Prop :=
  r = Thrown /\ match a with From vs => 2 <= length vs | Copy _ => True | _ => False end.

(** The calls that end the life of the element [e] of the list [s]. *)
Definition ends_life (st : lists) (a : call) (s : nat) (e : nat * V) : Prop :=
  match a with
  | Destroy t | Clear t => t = s
  | Pop_front t => t = s /\ exists l, In (s, e :: l) st
  | Erase_after t p => t = s /\ exists l1 l2, In (s, l1 ++ e :: l2) st /\ p = last_place l1 s
  | Erase_all_after t p => t = s /\ exists l1 l2, In (s, l1 ++ l2) st /\ p = last_place l1 s /\ In e l2
  | Erase_range_after t p last => t = s /\ exists l1 l2 l3, In (s, l1 ++ l2 ++ l3) st /\ p = last_place l1 s /\ last = hd_error (names_of l3) /\ In e l2
  | Copy_assign t u => t = s /\ exists l k i, In (s, l) st /\ In (u, k) st /\ nth_error l i = Some e /\ length k <= i
  | _ => False
  end.
(** The calls that may give it another value. *)
Definition assigns (a : call) (s : nat) (e : nat * V) : Prop :=
  match a with
  | Write p _ => p = fst e
  | Copy_assign t _ => t = s
  | _ => False
  end.
(** The calls after which it may be in another list. *)
Definition moves (a : call) (s : nat) : Prop :=
  match a with
  | Move t => t = s
  | Splice_after _ _ t _ _ => t = s
  | Swap t u | Move_assign t u => t = s \/ u = s
  | _ => False
  end.
End Programs.
