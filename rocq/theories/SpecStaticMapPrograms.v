(** * Programs that use any number of static maps

    A program creates, copies, moves, assigns, swaps, uses and destroys static_flat_maps or static_linear_maps in any order and catches every exception. The steps,
    the entries and what is seen are those of SpecMapPrograms.v. Nothing here is used by the model. *)

From Coq Require Import List Arith Bool.
From Verif Require Import Mem Vec SpecVec SpecSeveral SpecMap Keyed SpecDict SpecFlatMemory FlatMemory SpecMapPrograms.
From Verif Require SpecStaticPrograms.
Import ListNotations.

Section Programs.
(** [same k l]: the map has one entry for both keys. [act]: what inserting, erasing, searching and asking for the size do in memory. *)
Context {K T : Type} (moved : K * T -> K * T) (same : K -> K -> bool) (act : action K T -> M (K * T) svector (reply T)) (capacity : nat).
Local Notation entry := (entry (K := K) (T := T)).
Local Notation map_step := (map_step (K := K) (T := T)).

(** ** What the user has in mind: a dictionary for each map, or nothing ([None]) when something was assigned from the map or an assignment to it threw *)
(** The dictionaries afterwards, when the step returns. A map from which another one was constructed is empty and can be used at once: *)
Definition static_after (s : map_step) (ds : list entry) : list entry :=
  match s with
  | MapNew => ds ++ [Some no_entries]
  | MapCopy j => ds ++ [dictionary_at j ds]
  | MapMove j => replace_at j (Some no_entries) ds ++ [dictionary_at j ds]
  | MapEnd i => remove_at i ds
  | MapReserve _ _ => ds
  | MapCopyAssign i j => replace_at i (dictionary_at j ds) ds
  | MapMoveAssign i j => replace_at j None (replace_at i (dictionary_at j ds) ds)
  | MapSwap i j => replace_at j (dictionary_at i ds) (replace_at i (dictionary_at j ds) ds)
  | MapAct i a => match dictionary_at i ds with Some d => replace_at i (Some (fst (dictionary_act same d a))) ds | None => ds end
  end.
Definition static_reply (s : map_step) (ds : list entry) : option (reply T) :=
  match s with
  | MapAct i a => option_map (fun d => snd (dictionary_act same d a)) (dictionary_at i ds)
  | _ => None
  end.
(** Only copying and the operations throw, when an element or a comparison does ([trouble]); an insertion of a new entry also does when the map is full. *)
Definition static_can_throw (trouble : Prop) (s : map_step) (ds : list entry) : Prop :=
  match s with
  | MapNew | MapMove _ | MapEnd _ | MapReserve _ _ | MapMoveAssign _ _ | MapSwap _ _ => False
  | MapCopy _ => trouble
  | MapCopyAssign i j => i <> j /\ trouble
  | MapAct i a => trouble \/ exists d, dictionary_at i ds = Some d /\ inserts_new d a /\ keys d = capacity
  end.

(** ** The program *)
(** The precondition, given the number of maps and the program's own record of those it has lost. There is nothing to reserve. Assigning a map to itself by copying is allowed. *)
Definition static_may_do (s : map_step) (count : nat) (lost : list bool) : bool :=
  let exists_ i := i <? count in
  let usable i := exists_ i && negb (nth i lost true) in
  match s with
  | MapNew => true
  | MapMove j | MapEnd j => exists_ j
  | MapCopy j => usable j
  | MapReserve _ _ => false
  | MapCopyAssign i j => exists_ i && usable j
  | MapMoveAssign i j | MapSwap i j => exists_ i && exists_ j && negb (i =? j)
  | MapAct i _ => usable i
  end.
Definition static_lost_after (s : map_step) (lost : list bool) : list bool :=
  match s with
  | MapMove j => replace_at j false lost ++ [nth j lost true]
  | _ => lost_after s lost
  end.

(** The maps have no copy operations, no move operations, no destructor and no swap of their own (flat_map.cpp 112-406, linear_map.cpp 42-202): they are those of
    static_vector, and std::swap is a move constructor, two move assignments and a destructor. *)
Definition static_step (s : SpecStaticPrograms.step) : M (K * T) (list svector) unit := SpecStaticPrograms.do_step moved capacity s.
Definition do_static_map_step (s : map_step) : M (K * T) (list svector) (option (reply T)) :=
  match s with
  | MapNew => bind (static_step SpecStaticPrograms.New) (fun _ => ret None)
  | MapCopy j => bind (static_step (SpecStaticPrograms.NewCopy j)) (fun _ => ret None)
  | MapMove j => bind (static_step (SpecStaticPrograms.NewMove j)) (fun _ => ret None)
  | MapEnd i => bind (static_step (SpecStaticPrograms.End i)) (fun _ => ret None)
  | MapReserve _ _ => ret None
  | MapCopyAssign i j => bind (static_step (SpecStaticPrograms.CopyAssign i j)) (fun _ => ret None)
  | MapMoveAssign i j => bind (static_step (SpecStaticPrograms.MoveAssign i j)) (fun _ => ret None)
  | MapSwap i j =>
      bind get (fun os => let temporary := length os in
      bind (static_step (SpecStaticPrograms.NewMove i)) (fun _ =>
      bind (static_step (SpecStaticPrograms.MoveAssign i j)) (fun _ =>
      bind (static_step (SpecStaticPrograms.MoveAssign j temporary)) (fun _ =>
      bind (static_step (SpecStaticPrograms.End temporary)) (fun _ => ret None)))))
  | MapAct i a => bind (one_of i (act a)) (fun r => ret (Some r))
  end.
Fixpoint static_map_program (ss : list map_step) (lost : list bool) : M (K * T) (list svector) (list (sight (T := T))) :=
  match ss with
  | [] => ret []
  | s :: ss =>
      bind get (fun os =>
      if static_may_do s (length os) lost
      then bind (FlatMemory.attempt (do_static_map_step s)) (fun r =>
           match r with
           | Some r => bind (static_map_program ss (static_lost_after s lost)) (fun seen => ret (Returned r :: seen))
           | None => bind (static_map_program ss (lost_after_exception s lost)) (fun seen => ret (Threw :: seen))
           end)
      else bind (static_map_program ss lost) (fun seen => ret (Skipped :: seen)))
  end.
(** A program without maps at first; in the end it destroys all of them. *)
Definition whole_static_map_program (ss : list map_step) : M (K * T) unit (list (sight (T := T))) :=
  fun x w => match static_map_program ss [] [] w with
             | Ret os seen w => match static_map_program (repeat (MapEnd 0) (length os)) (repeat true (length os)) os w with
                                | Ret _ _ w => Ret x seen w
                                | Exc _ w => Exc x w
                                | Bad f => Bad f
                                end
             | Exc _ w => Exc x w
             | Bad f => Bad f
             end.

(** ** What the program may have seen: that of the dictionaries *)
Definition static_allows (s : map_step) (ds : list entry) : bool := static_may_do s (length ds) (lost_of ds).
Inductive static_tells (trouble : Prop) : list entry -> list map_step -> list (sight (T := T)) -> list entry -> Prop :=
| static_end ds : static_tells trouble ds [] [] ds
| static_returned ds s ss seen ds' :
    static_allows s ds = true -> static_tells trouble (static_after s ds) ss seen ds' ->
    static_tells trouble ds (s :: ss) (Returned (static_reply s ds) :: seen) ds'
| static_threw ds s ss seen ds' :
    static_allows s ds = true -> static_can_throw trouble s ds -> static_tells trouble (after_exception s ds) ss seen ds' ->
    static_tells trouble ds (s :: ss) (Threw :: seen) ds'
| static_skipped ds s ss seen ds' :
    static_allows s ds = false -> static_tells trouble ds ss seen ds' -> static_tells trouble ds (s :: ss) (Skipped :: seen) ds'.

(** The maps are different static_vectors in memory, [others] is the rest of the memory. [good]: what every map keeps about its elements (flat_map: the order of the keys; both:
    no two elements for the same key); the elements of a map with a dictionary are the entries of the dictionary. *)
Definition static_kept (good : list (K * T) -> Prop) (d : entry) (m : list (K * T)) : Prop :=
  match d with
  | Some d => good m /\ (forall k, option_map snd (element_of same m k) = value_of d k) /\ length m = keys d
  | None => True
  end.
Definition static_maps_in (good : list (K * T) -> Prop) (os : list svector) (ds : list entry) (others : memory) (w : world (K * T)) : Prop :=
  exists ls, Forall2 (static_kept good) ds ls /\ SpecStaticPrograms.vectors capacity os ls others w.
End Programs.
