(** * Programs that use any number of flat maps

    A program creates, copies, moves, assigns, swaps, uses and destroys flat maps in any order and catches every exception. Nothing here is used by
    the model. *)

From Coq Require Import List Arith Bool.
From Verif Require Import Mem Vec SpecVec SpecHistory SpecSeveral SpecVecPrograms SpecSort SpecUnique FlatMap SpecMap Keyed SpecDict SpecFlatMemory FlatMemory.
Import ListNotations.

Section Programs.
Context {K T : Type} (moved : K * T -> K * T) (key_less : K -> K -> bool) (maximum : nat).
Local Notation same := (equivalent key_less).

(** Maps are numbered in the order of the list; a new one comes last, and the ones after a destroyed one move up by one. *)
Inductive map_step : Type :=
| MapNew                             (* flat_map a; *)
| MapCopy (j : nat)                  (* flat_map a(m_j); *)
| MapMove (j : nat)                  (* flat_map a(std::move(m_j)); *)
| MapEnd (i : nat)                   (* the end of the scope of m_i *)
| MapReserve (i n : nat)             (* m_i.reserve(n) *)
| MapCopyAssign (i j : nat)          (* m_i = m_j, i <> j *)
| MapMoveAssign (i j : nat)          (* m_i = std::move(m_j), i = j allowed *)
| MapSwap (i j : nat)                (* std::swap(m_i, m_j), i = j allowed *)
| MapAct (i : nat) (a : action K T). (* insert, erase, lookup, size, Keyed.v *)

(** ** What the user has in mind: a dictionary for each map, or nothing ([None]) when the map was moved from or an assignment to it threw *)
Definition entry : Type := option (@dictionary K T).
Definition dictionary_at (i : nat) (ds : list entry) : entry := nth i ds None.
(** The dictionaries afterwards, when the step returns, *)
Definition after_step (s : map_step) (ds : list entry) : list entry :=
  match s with
  | MapNew => ds ++ [Some no_entries]
  | MapCopy j => ds ++ [dictionary_at j ds]
  | MapMove j => replace_at j None ds ++ [dictionary_at j ds]
  | MapEnd i => remove_at i ds
  | MapReserve _ _ => ds
  | MapCopyAssign i j => replace_at i (dictionary_at j ds) ds
  | MapMoveAssign i j => replace_at j None (replace_at i (dictionary_at j ds) ds)
  | MapSwap i j => replace_at j (dictionary_at i ds) (replace_at i (dictionary_at j ds) ds)
  | MapAct i a => match dictionary_at i ds with Some d => replace_at i (Some (fst (dictionary_act same d a))) ds | None => ds end
  end.
(** and what it returns. *)
Definition step_reply (s : map_step) (ds : list entry) : option (reply T) :=
  match s with
  | MapAct i a => option_map (fun d => snd (dictionary_act same d a)) (dictionary_at i ds)
  | _ => None
  end.
(** When it leaves by an exception no map changed, except that an assignment that copies leaves behind a map that is good for nothing but
    assigning to it, moving it, swapping it and destroying it. *)
Definition after_exception (s : map_step) (ds : list entry) : list entry :=
  match s with MapCopyAssign i _ => replace_at i None ds | _ => ds end.
(** Creating an empty map, moving, swapping and destroying never throw. The others throw when an operation of an element or the allocator does ([trouble]); an insertion of a new
    entry also does when the vector is full and cannot double, and copying into an existing map when the source has more than half of the most entries. *)
Definition can_throw (trouble : Prop) (s : map_step) (ds : list entry) : Prop :=
  match s with
  | MapNew | MapMove _ | MapEnd _ | MapMoveAssign _ _ | MapSwap _ _ => False
  | MapCopy _ | MapReserve _ _ => trouble
  | MapCopyAssign _ j => trouble \/ exists d, dictionary_at j ds = Some d /\ maximum < 2 * keys d
  | MapAct i a => trouble \/ exists d, dictionary_at i ds = Some d /\ inserts_new d a /\ cannot_double maximum (keys d)
  end.

(** ** The program *)
(** The precondition, given the number of maps and the program's own record of those it has lost. *)
Definition may_do (s : map_step) (count : nat) (lost : list bool) : bool :=
  let exists_ i := i <? count in
  let usable i := exists_ i && negb (nth i lost true) in
  match s with
  | MapNew => true
  | MapMove j | MapEnd j => exists_ j
  | MapCopy j => usable j
  | MapReserve i n => usable i && (n <=? maximum)
  | MapCopyAssign i j => exists_ i && usable j && negb (i =? j)
  | MapMoveAssign i j | MapSwap i j => exists_ i && exists_ j
  | MapAct i _ => usable i
  end.
Definition lost_after (s : map_step) (lost : list bool) : list bool :=
  match s with
  | MapNew | MapCopy _ => lost ++ [false]
  | MapMove j => replace_at j true lost ++ [nth j lost true]
  | MapEnd i => remove_at i lost
  | MapReserve _ _ | MapAct _ _ => lost
  | MapCopyAssign i _ => replace_at i false lost
  | MapMoveAssign i j => replace_at j true (replace_at i (nth j lost true) lost)
  | MapSwap i j => replace_at j (nth i lost true) (replace_at i (nth j lost true) lost)
  end.
Definition lost_after_exception (s : map_step) (lost : list bool) : list bool :=
  match s with MapCopyAssign i _ => replace_at i true lost | _ => lost end.

(** A flat_map has no copy operations, no move operations, no destructor and no swap of its own (flat_map.cpp 112-406): they are those of its container, and
    std::swap is a move constructor, two move assignments and a destructor. *)
Definition container_step (s : step) : M (K * T) (list bvector) unit := do_step moved 0 maximum s.
Definition do_map_step (s : map_step) : M (K * T) (list bvector) (option (reply T)) :=
  match s with
  | MapNew => bind (container_step New) (fun _ => ret None)
  | MapCopy j => bind (container_step (NewCopy j)) (fun _ => ret None)
  | MapMove j => bind (container_step (NewMove j)) (fun _ => ret None)
  | MapEnd i => bind (container_step (End i)) (fun _ => ret None)
  | MapReserve i n => bind (one_of i (bv_reserve moved 0 maximum n)) (fun _ => ret None)
  | MapCopyAssign i j => bind (container_step (CopyAssign i j)) (fun _ => ret None)
  | MapMoveAssign i j => bind (container_step (MoveAssign i j)) (fun _ => ret None)
  | MapSwap i j =>
      bind get (fun os => let temporary := length os in
      bind (container_step (NewMove i)) (fun _ =>
      bind (container_step (MoveAssign i j)) (fun _ =>
      bind (container_step (MoveAssign j temporary)) (fun _ =>
      bind (container_step (End temporary)) (fun _ => ret None)))))
  | MapAct i a => bind (one_of i (mem_act moved key_less (bounded_vector moved 0 maximum) a)) (fun r => ret (Some r))
  end.
(** What the program saw of a step. *)
Inductive sight : Type := Skipped | Threw | Returned (r : option (reply T)).
Fixpoint map_program (ss : list map_step) (lost : list bool) : M (K * T) (list bvector) (list sight) :=
  match ss with
  | [] => ret []
  | s :: ss =>
      bind get (fun os =>
      if may_do s (length os) lost
      then bind (FlatMemory.attempt (do_map_step s)) (fun r =>
           match r with
           | Some r => bind (map_program ss (lost_after s lost)) (fun seen => ret (Returned r :: seen))
           | None => bind (map_program ss (lost_after_exception s lost)) (fun seen => ret (Threw :: seen))
           end)
      else bind (map_program ss lost) (fun seen => ret (Skipped :: seen)))
  end.
(** A program without maps at first; in the end it destroys all of them. *)
Definition whole_map_program (ss : list map_step) : M (K * T) unit (list sight) :=
  fun x w => match map_program ss [] [] w with
             | Ret os seen w => match map_program (repeat (MapEnd 0) (length os)) (repeat true (length os)) os w with
                                | Ret _ _ w => Ret x seen w
                                | Exc _ w => Exc x w
                                | Bad f => Bad f
                                end
             | Exc _ w => Exc x w
             | Bad f => Bad f
             end.

(** ** What the program may have seen: that of the dictionaries *)
Definition lost_of (ds : list entry) : list bool := map (fun d => match d with Some _ => false | None => true end) ds.
Inductive tells (trouble : Prop) : list entry -> list map_step -> list sight -> list entry -> Prop :=
| tells_end ds : tells trouble ds [] [] ds
| tells_returned ds s ss seen ds' :
    may_do s (length ds) (lost_of ds) = true -> tells trouble (after_step s ds) ss seen ds' ->
    tells trouble ds (s :: ss) (Returned (step_reply s ds) :: seen) ds'
| tells_threw ds s ss seen ds' :
    may_do s (length ds) (lost_of ds) = true -> can_throw trouble s ds -> tells trouble (after_exception s ds) ss seen ds' ->
    tells trouble ds (s :: ss) (Threw :: seen) ds'
| tells_skipped ds s ss seen ds' :
    may_do s (length ds) (lost_of ds) = false -> tells trouble ds ss seen ds' -> tells trouble ds (s :: ss) (Skipped :: seen) ds'.

(** The maps are different vectors in memory, [others] is the rest of the memory. The elements of a map with a dictionary are in the order of
    their keys, without two for the same key, and are the entries of the dictionary. *)
Definition kept (d : entry) (l : state (V := K * T)) : Prop :=
  match d with
  | Some d => exists m, l = Some m /\ flat key_less m /\ (forall k, option_map snd (element_of same m k) = value_of d k) /\ length m = keys d
  | None => True
  end.
Definition maps_in (os : list bvector) (ds : list entry) (others : memory) (w : world (K * T)) : Prop :=
  exists ls, Forall2 kept ds ls /\ vectors 0 maximum os ls others w.
End Programs.
