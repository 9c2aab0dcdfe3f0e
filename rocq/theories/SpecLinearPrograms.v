(** * Programs that use any number of linear maps

    A program creates, copies, moves, assigns, swaps, uses and destroys linear maps in any order and catches every exception. The steps, the entries and the
    record of the lost maps are those of SpecMapPrograms.v. Nothing here is used by the model. *)

From Coq Require Import List Arith Bool.
From Verif Require Import Mem Vec SpecVec SpecHistory SpecSeveral SpecVecPrograms SpecUnique SpecMap Keyed SpecDict SpecFlatMemory FlatMemory LinearMemory SpecMapPrograms.
Import ListNotations.

Section Programs.
Context {K T : Type} (moved : K * T -> K * T) (equal : K -> K -> bool) (maximum : nat).
Local Notation map_step := (map_step (K := K) (T := T)).
Local Notation entry := (entry (K := K) (T := T)).

(** ** What the user has in mind: a dictionary for each map, or nothing ([None]) when the map was moved from or an assignment to it threw *)
(** The dictionaries afterwards, when the step returns, *)
Definition linear_after (s : map_step) (ds : list entry) : list entry :=
  match s with
  | MapNew => ds ++ [Some no_entries]
  | MapCopy j => ds ++ [dictionary_at j ds]
  | MapMove j => replace_at j None ds ++ [dictionary_at j ds]
  | MapEnd i => remove_at i ds
  | MapReserve _ _ => ds
  | MapCopyAssign i j => replace_at i (dictionary_at j ds) ds
  | MapMoveAssign i j => replace_at j None (replace_at i (dictionary_at j ds) ds)
  | MapSwap i j => replace_at j (dictionary_at i ds) (replace_at i (dictionary_at j ds) ds)
  | MapAct i a => match dictionary_at i ds with Some d => replace_at i (Some (fst (dictionary_act equal d a))) ds | None => ds end
  end.
(** and what it returns. *)
Definition linear_reply (s : map_step) (ds : list entry) : option (reply T) :=
  match s with
  | MapAct i a => option_map (fun d => snd (dictionary_act equal d a)) (dictionary_at i ds)
  | _ => None
  end.
(** Creating an empty map, moving, swapping and destroying never throw. The others throw when an operation of an element or the allocator does ([trouble]); copying into an existing
    map also does when the source has more than half of the most entries. After an exception the dictionaries are [after_exception]: only the target of a
    copying assignment is lost. *)
Definition linear_can_throw (trouble : Prop) (s : map_step) (ds : list entry) : Prop :=
  match s with
  | MapNew | MapMove _ | MapEnd _ | MapMoveAssign _ _ | MapSwap _ _ => False
  | MapCopy _ | MapReserve _ _ | MapAct _ _ => trouble
  | MapCopyAssign _ j => trouble \/ exists d, dictionary_at j ds = Some d /\ maximum < 2 * keys d
  end.

(** ** The program *)
(** The precondition, given the number of maps, the program's own record of those it has lost and the sizes of the maps: beyond that of [may_do], the program only inserts into a map
    that has at most half of the most entries, because the behaviour of a linear_map that cannot double its storage is undefined (C143). *)
Definition linear_may_do (s : map_step) (count : nat) (lost : list bool) (sizes : list nat) : bool :=
  may_do maximum s count lost &&
  match s with MapAct i (Insert _ _) => 2 * nth i sizes 0 <=? maximum | _ => true end.

(** A linear_map has no copy operations, no move operations, no destructor and no swap of its own (linear_map.cpp 42-202): they are those of its container. *)
Definition do_linear_step (s : map_step) : M (K * T) (list bvector) (option (reply T)) :=
  let container_step := container_step moved maximum in
  match s with
  | MapNew => bind (container_step New) (fun _ => ret None)
  | MapCopy j => bind (container_step (NewCopy j)) (fun _ => ret None)
  | MapMove j => bind (container_step (NewMove j)) (fun _ => ret None)
  | MapEnd i => bind (container_step (End i)) (fun _ => ret None)
  | MapReserve i n => bind (one_of i (bv_reserve moved 0 maximum n)) (fun _ => ret None)
  | MapCopyAssign i j => bind (container_step (CopyAssign i j)) (fun _ => ret None)
  | MapMoveAssign i j => bind (container_step (MoveAssign i j)) (fun _ => ret None)
  | MapSwap i j =>
      bind get (fun os => let temporary := length os in
      bind (container_step (NewMove i)) (fun _ =>
      bind (container_step (MoveAssign i j)) (fun _ =>
      bind (container_step (MoveAssign j temporary)) (fun _ =>
      bind (container_step (End temporary)) (fun _ => ret None)))))
  | MapAct i a => bind (one_of i (mem_linear_act moved equal (bounded_vector moved 0 maximum) a)) (fun r => ret (Some r))
  end.
Fixpoint linear_program (ss : list map_step) (lost : list bool) : M (K * T) (list bvector) (list (sight (T := T))) :=
  match ss with
  | [] => ret []
  | s :: ss =>
      bind get (fun os =>
      if linear_may_do s (length os) lost (map b_size os)
      then bind (FlatMemory.attempt (do_linear_step s)) (fun r =>
           match r with
           | Some r => bind (linear_program ss (lost_after s lost)) (fun seen => ret (Returned r :: seen))
           | None => bind (linear_program ss (lost_after_exception s lost)) (fun seen => ret (Threw :: seen))
           end)
      else bind (linear_program ss lost) (fun seen => ret (Skipped :: seen)))
  end.
(** A program without maps at first; in the end it destroys all of them. *)
Definition whole_linear_program (ss : list map_step) : M (K * T) unit (list (sight (T := T))) :=
  fun x w => match linear_program ss [] [] w with
             | Ret os seen w => match linear_program (repeat (MapEnd 0) (length os)) (repeat true (length os)) os w with
                                | Ret _ _ w => Ret x seen w
                                | Exc _ w => Exc x w
                                | Bad f => Bad f
                                end
             | Exc _ w => Exc x w
             | Bad f => Bad f
             end.

(** ** What the program may have seen: that of the dictionaries *)
Definition keys_of (ds : list entry) : list nat := map (fun d => match d with Some d => keys d | None => 0 end) ds.
Definition linear_allows (s : map_step) (ds : list entry) : bool := linear_may_do s (length ds) (lost_of ds) (keys_of ds).
Inductive linear_tells (trouble : Prop) : list entry -> list map_step -> list (sight (T := T)) -> list entry -> Prop :=
| linear_end ds : linear_tells trouble ds [] [] ds
| linear_returned ds s ss seen ds' :
    linear_allows s ds = true -> linear_tells trouble (linear_after s ds) ss seen ds' ->
    linear_tells trouble ds (s :: ss) (Returned (linear_reply s ds) :: seen) ds'
| linear_threw ds s ss seen ds' :
    linear_allows s ds = true -> linear_can_throw trouble s ds -> linear_tells trouble (after_exception s ds) ss seen ds' ->
    linear_tells trouble ds (s :: ss) (Threw :: seen) ds'
| linear_skipped ds s ss seen ds' :
    linear_allows s ds = false -> linear_tells trouble ds ss seen ds' -> linear_tells trouble ds (s :: ss) (Skipped :: seen) ds'.

(** The maps are different vectors in memory, [others] is the rest of the memory. A map with a dictionary has no two elements for the same key, and its
    elements are the entries of the dictionary. *)
Definition linear_kept (d : entry) (l : state (V := K * T)) : Prop :=
  match d with
  | Some d => exists m, l = Some m /\ distinct equal m /\ (forall k, option_map snd (element_of equal m k) = value_of d k) /\ length m = keys d
  | None => True
  end.
Definition linear_maps_in (os : list bvector) (ds : list entry) (others : memory) (w : world (K * T)) : Prop :=
  exists ls, Forall2 linear_kept ds ls /\ vectors 0 maximum os ls others w.
End Programs.
