(** * Programs with any number of bidirectional lists

    What clients do with lists, and what they may rely on. Nothing here is used by the model. *)

From Coq Require Import List Arith Bool.
From Verif Require Import LinkedList SpecList.
Import ListNotations.

Section Programs.
Context {V : Type}.
Notation memory := (memory (nat * nat) V).

(** ** Clients *)

(** A list is known by the address of its sentinel. An iterator is the address of an element or, at the end, of the sentinel; clients keep iterators
    and use them later. *)
Inductive call : Type :=
| New | From (vs : list V) | Copy (t : nat) | Move (t : nat) | Destroy (s : nat)
| Push_back (s : nat) (v : V) | Push_front (s : nat) (v : V) | Pop_back (s : nat) | Pop_front (s : nat)
| Insert (s p : nat) (vs : list V)             (* before p *)
| Erase (s p q : nat) | Erase_one (s p : nat) | Erase_if (s : nat) (predicate : V -> bool) | Clear (s : nat)
| Splice (s p t first last : nat)              (* from t to the place before p in s *)
| Swap (s t : nat) | Move_assign (s t : nat) | Copy_assign (s t : nat)
| Begin (s : nat) | Next (p : nat) | Previous (p : nat) | Read (p : nat) | Write (p : nat) (v : V).
Inductive reply : Type := Place (p : nat) | Value (v : V) | Count (n : nat) | Nothing | Thrown.
(** A client catches exceptions, and decides by the replies what to do next. *)
Inductive client : Type := Done | Call (c : call) (next : reply -> client).

Definition replying {A} (f : A -> reply) (x : M (nat * nat) V A) : M (nat * nat) V reply := bind x (fun a => ret (f a)).
Definition no_value {A} (a : A) : reply := Nothing.
Definition perform (c : call) : M (nat * nat) V reply :=
  match c with
  | New => replying Place list_default
  | From vs => replying Place (list_from vs)
  | Copy t => replying Place (list_copy t)
  | Move t => replying Place (list_move t)
  | Destroy s => replying no_value (list_destroy s)
  | Push_back s v => replying Place (list_push_back s v)
  | Push_front s v => replying Place (list_push_front s v)
  | Pop_back s => replying no_value (list_pop_back s)
  | Pop_front s => replying no_value (list_pop_front s)
  | Insert s p vs => replying Place (list_insert s p vs)
  | Erase s p q => replying Place (list_erase p q)
  | Erase_one s p => replying Place (list_erase_one s p)
  | Erase_if s predicate => replying Count (list_erase_if s predicate)
  | Clear s => replying no_value (list_clear s)
  | Splice s p t first last => replying no_value (list_splice p first last)
  | Swap s t => replying no_value (list_swap s t)
  | Move_assign s t => replying no_value (list_move_assign s t)
  | Copy_assign s t => replying no_value (list_copy_assign s t)
  | Begin s => replying Place (list_begin s)
  | Next p => replying Place (get_next p)
  | Previous p => replying Place (get_previous p)
  | Read p => replying Value (value p)
  | Write p v => replying no_value (set_value p v)
  end.
(** [None]: the client met undefined behaviour. *)
Fixpoint run (c : client) (m : memory) : option memory :=
  match c with
  | Done => Some m
  | Call c next => match perform c m with Returned r m => run (next r) m | Threw m => run (next Thrown) m | Undefined => None end
  end.

(** ** What they rely on *)

(** The lists that exist: each with its elements, which have an address and a value. *)
Definition lists : Type := list (nat * list (nat * V)).
Definition put (st : lists) (s : nat) (l : list (nat * V)) : lists := map (fun e => if fst e =? s then (s, l) else e) st.
Definition without (st : lists) (s : nat) : lists := filter (fun e => negb (fst e =? s)) st.
Definition owned (st : lists) (q : nat) : Prop := exists s l, In (s, l) st /\ In q (s :: names_of l).
Definition new_in (st : lists) (ps : list nat) : Prop := NoDup ps /\ forall p, In p ps -> ~ owned st p.

(** The call [c], when the lists are [st], may have this reply and leave these lists. A client must not make a call for which there is none. *)
Inductive step (st : lists) : call -> reply -> lists -> Prop :=
| step_new s : new_in st [s] -> step st New (Place s) (st ++ [(s, [])])
| step_from s l : new_in st (s :: names_of l) -> step st (From (map snd l)) (Place s) (st ++ [(s, l)])
| step_from_throws vs : step st (From vs) Thrown st
| step_copy t k s l : In (t, k) st -> new_in st (s :: names_of l) -> map snd l = map snd k -> step st (Copy t) (Place s) (st ++ [(s, l)])
| step_copy_throws t k : In (t, k) st -> step st (Copy t) Thrown st
| step_move t k s : In (t, k) st -> new_in st [s] -> step st (Move t) (Place s) (put st t [] ++ [(s, k)])
| step_destroy s l : In (s, l) st -> step st (Destroy s) Nothing (without st s)
| step_push_back s l p v : In (s, l) st -> new_in st [p] -> step st (Push_back s v) (Place p) (put st s (l ++ [(p, v)]))
| step_push_back_throws s l v : In (s, l) st -> step st (Push_back s v) Thrown st
| step_push_front s l p v : In (s, l) st -> new_in st [p] -> step st (Push_front s v) (Place p) (put st s ((p, v) :: l))
| step_push_front_throws s l v : In (s, l) st -> step st (Push_front s v) Thrown st
| step_pop_back s l e : In (s, l ++ [e]) st -> step st (Pop_back s) Nothing (put st s l)
| step_pop_front s e l : In (s, e :: l) st -> step st (Pop_front s) Nothing (put st s l)
| step_insert s l1 l2 k : In (s, l1 ++ l2) st -> new_in st (names_of k) -> step st (Insert s (first_of l2 s) (map snd k)) (Place (first_of l2 s)) (put st s (l1 ++ k ++ l2))
| step_insert_throws s l1 l2 vs : In (s, l1 ++ l2) st -> step st (Insert s (first_of l2 s) vs) Thrown st
| step_erase s l1 l2 l3 : In (s, l1 ++ l2 ++ l3) st -> step st (Erase s (first_of (l2 ++ l3) s) (first_of l3 s)) (Place (first_of l3 s)) (put st s (l1 ++ l3))
| step_erase_one s l1 p v l3 : In (s, l1 ++ (p, v) :: l3) st -> step st (Erase_one s p) (Place (first_of l3 s)) (put st s (l1 ++ l3))
| step_erase_if s l predicate : In (s, l) st ->
    step st (Erase_if s predicate) (Count (length (filter (fun e => predicate (snd e)) l))) (put st s (filter (fun e => negb (predicate (snd e))) l))
| step_clear s l : In (s, l) st -> step st (Clear s) Nothing (put st s [])
| step_splice s k1 k2 t l1 l2 l3 : In (s, k1 ++ k2) st -> In (t, l1 ++ l2 ++ l3) st -> s <> t ->
    step st (Splice s (first_of k2 s) t (first_of (l2 ++ l3) t) (first_of l3 t)) Nothing (put (put st s (k1 ++ l2 ++ k2)) t (l1 ++ l3))
| step_splice_forward s l1 l2 l3 l4 : In (s, l1 ++ l2 ++ l3 ++ l4) st -> l3 <> [] ->
    step st (Splice s (first_of l4 s) s (first_of (l2 ++ l3 ++ l4) s) (first_of (l3 ++ l4) s)) Nothing (put st s (l1 ++ l3 ++ l2 ++ l4))
| step_splice_backward s l1 l2 l3 l4 : In (s, l1 ++ l2 ++ l3 ++ l4) st -> l2 <> [] ->
    step st (Splice s (first_of (l2 ++ l3 ++ l4) s) s (first_of (l3 ++ l4) s) (first_of l4 s)) Nothing (put st s (l1 ++ l3 ++ l2 ++ l4))
| step_splice_nothing s k1 k2 l1 l2 : In (s, k1 ++ k2) st -> In (s, l1 ++ l2) st -> step st (Splice s (first_of k2 s) s (first_of l2 s) (first_of l2 s)) Nothing st
| step_swap s l t k : In (s, l) st -> In (t, k) st -> step st (Swap s t) Nothing (put (put st s k) t l)
| step_move_assign s l t k : In (s, l) st -> In (t, k) st -> step st (Move_assign s t) Nothing (put (put st s k) t l)
| step_copy_assign s l t k l' : In (s, l) st -> In (t, k) st -> s <> t -> map snd l' = map snd k ->
    (forall n, n <= length l -> n <= length k -> firstn n (names_of l') = firstn n (names_of l)) -> new_in st (skipn (length l) (names_of l')) ->
    step st (Copy_assign s t) Nothing (put st s l')
| step_copy_assign_self s l : In (s, l) st -> step st (Copy_assign s s) Nothing st
(** Some elements have been assigned or added. *)
| step_copy_assign_throws s l t k l' i : In (s, l) st -> In (t, k) st -> s <> t -> i < length k -> map snd l' = firstn i (map snd k) ++ skipn i (map snd l) ->
    firstn (length l) (names_of l') = names_of l -> new_in st (skipn (length l) (names_of l')) ->
    step st (Copy_assign s t) Thrown (put st s l')
| step_begin s l : In (s, l) st -> step st (Begin s) (Place (first_of l s)) st
| step_next s l1 p v l2 : In (s, l1 ++ (p, v) :: l2) st -> step st (Next p) (Place (first_of l2 s)) st
| step_previous s l1 p v l2 : In (s, l1 ++ (p, v) :: l2) st -> step st (Previous (first_of l2 s)) (Place p) st
| step_read s l1 p v l2 : In (s, l1 ++ (p, v) :: l2) st -> step st (Read p) (Value v) st
| step_write s l1 p v l2 w : In (s, l1 ++ (p, v) :: l2) st -> step st (Write p w) Nothing (put st s (l1 ++ (p, w) :: l2)).

(** The client makes only calls that it may make. *)
Fixpoint careful (c : client) (st : lists) : Prop :=
  match c with
  | Done => True
  | Call a next => (exists r st', step st a r st') /\ forall r st', step st a r st' -> careful (next r) st'
  end.
(** What happens when the client runs: its calls with their replies, and the lists in the end. *)
Inductive runs : client -> lists -> list (call * reply) -> lists -> Prop :=
| runs_done st : runs Done st [] st
| runs_call a next st r st1 tr st2 : step st a r st1 -> runs (next r) st1 tr st2 -> runs (Call a next) st ((a, r) :: tr) st2.

(** In memory: all lists are there, and share nothing. *)
Definition represents (m : memory) (st : lists) : Prop :=
  valid m /\ NoDup (map fst st) /\ (forall s l, In (s, l) st -> list_at m s l) /\
  forall s l t k, In (s, l) st -> In (t, k) st -> s <> t -> forall p, In p (s :: names_of l) -> In p (t :: names_of k) -> False.
(** Other objects stay as they are. *)
Definition others_kept (m : memory) (st : lists) (m' : memory) (st' : lists) : Prop :=
  forall q, object_at m q <> None -> ~ owned st q -> object_at m' q = object_at m q /\ ~ owned st' q.
(** There are no new objects except in lists. *)
Definition nothing_new (m : memory) (st : lists) (m' : memory) (st' : lists) : Prop :=
  forall q, object_at m' q <> None -> owned st' q \/ object_at m q <> None /\ ~ owned st q.
(** A constructor that throws may leave objects behind (see C85), unless it is that of one element. *)
Definition may_leak (a : call) (r : reply) : Prop :=
  r = Thrown /\ match a with From vs | Insert _ _ vs => 2 <= length vs | Copy _ => True | _ => False end.

(** The calls that end the life of the element [e] of the list [s]. *)
Definition ends_life (st : lists) (a : call) (s : nat) (e : nat * V) : Prop :=
  match a with
  | Destroy t | Clear t => t = s
  | Pop_back t => t = s /\ exists l, In (s, l ++ [e]) st
  | Pop_front t => t = s /\ exists l, In (s, e :: l) st
  | Erase t p q => t = s /\ exists l1 l2 l3, In (s, l1 ++ l2 ++ l3) st /\ p = first_of (l2 ++ l3) s /\ q = first_of l3 s /\ In e l2
  | Erase_one t p => t = s /\ p = fst e
  | Erase_if t predicate => t = s /\ predicate (snd e) = true
  | Copy_assign t u => t = s /\ exists l k i, In (s, l) st /\ In (u, k) st /\ nth_error l i = Some e /\ length k <= i
  | _ => False
  end.
(** The calls that may give it another value. *)
Definition assigns (a : call) (s : nat) (e : nat * V) : Prop :=
  match a with
  | Write p _ => p = fst e
  | Copy_assign t _ => t = s
  | _ => False
  end.
(** The calls after which it may be in another list. *)
Definition moves (a : call) (s : nat) : Prop :=
  match a with
  | Move t => t = s
  | Splice _ _ t _ _ => t = s
  | Swap t u | Move_assign t u => t = s \/ u = s
  | _ => False
  end.
End Programs.
