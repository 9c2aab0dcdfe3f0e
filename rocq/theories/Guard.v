(** * Scope guards: bounded/scope_guard.cpp and bounded/scope_fail.cpp *)

From Coq Require Import List Arith Bool ZArith.
Import ListNotations.

(** scope_guard.cpp 37-38. A function object is an identifier; calling it is recorded. *)
Record guard : Set := Guard { g_function : nat; g_active : bool }.

(** scope_guard.cpp 14-18 *)
Definition guard_new (f : nat) : guard := Guard f true.
(** scope_guard.cpp 20-24: the new guard and what is left of [other]. A moved-from
    function object is left unchanged here. *)
Definition guard_move (other : guard) : guard * guard :=
  (Guard (g_function other) (g_active other), Guard (g_function other) false).
(** scope_guard.cpp 26-30: the calls made by the destructor. *)
Definition guard_destroy (g : guard) : list nat := if g_active g then [g_function g] else [].
(** scope_guard.cpp 32-34 *)
Definition guard_dismiss (g : guard) : guard := Guard (g_function g) false.

(** ** Histories of guard objects, named by numbers. *)
Inductive event : Set :=
| New (g f : nat)          (* construct object g with function f *)
| Move (src dst : nat)     (* move-construct object dst from src *)
| Dismiss (g : nat)
| Destroy (g : nat).

Record world : Type := World { objects : nat -> option guard; calls : list nat }.
Definition empty_world : world := World (fun _ => None) [].
Definition set (m : nat -> option guard) (k : nat) (v : option guard) : nat -> option guard :=
  fun n => if n =? k then v else m n.

(** [None]: the event names an object that does not exist, or constructs one that does. *)
Definition guard_step (w : world) (e : event) : option world :=
  match e with
  | New g f =>
      match objects w g with
      | None => Some (World (set (objects w) g (Some (guard_new f))) (calls w))
      | Some _ => None
      end
  | Move src dst =>
      match objects w src, objects w dst with
      | Some o, None =>
          let '(n, rest) := guard_move o in
          Some (World (set (set (objects w) src (Some rest)) dst (Some n)) (calls w))
      | _, _ => None
      end
  | Dismiss g =>
      match objects w g with
      | Some o => Some (World (set (objects w) g (Some (guard_dismiss o))) (calls w))
      | None => None
      end
  | Destroy g =>
      match objects w g with
      | Some o => Some (World (set (objects w) g None) (calls w ++ guard_destroy o))
      | None => None
      end
  end.
Fixpoint guard_run (w : world) (es : list event) : option world :=
  match es with
  | [] => Some w
  | e :: es' => match guard_step w e with Some w' => guard_run w' es' | None => None end
  end.

(** ** Failure guards inside structured programs *)

(** Programs that raise and catch exceptions and own local objects. [WithDestructor d s]
    is a block with a local object whose destructor runs [d]; [WithFail f s] is
    { auto guard = bounded::scope_fail([]{ f }); s }. *)
Inductive stmt : Set :=
| Skip
| Emit (n : nat)
| Raise
| Seq (a b : stmt)
| TryCatch (body handler : stmt)
| WithDestructor (d body : stmt)
| WithFail (f body : stmt).

Inductive ending : Set := Done | Raised | Terminated.

(** scope_fail.cpp 35-36: the stored count and whether the inner guard is active. *)
Record fail_guard : Set := Fail { f_count : Z; f_active : bool }.
(** scope_fail.cpp 16-20; [u] is std::uncaught_exceptions(). *)
Definition fail_new (u : Z) : fail_guard := Fail u true.
(** scope_fail.cpp 30-32 *)
Definition fail_dismiss (g : fail_guard) : fail_guard := Fail (f_count g) false.
(** scope_fail.cpp 24-28 followed by the inner guard's destructor (scope_guard.cpp
    26-30): whether the function is called. *)
Definition fail_destroy (u : Z) (g : fail_guard) : bool :=
  f_active (if (f_count g =? u)%Z then fail_dismiss g else g).

(** A destructor's action [run] at the end of a block whose body gave (trace, ending):
    an exception that leaves a destructor terminates the program. *)
Definition leave (t : list nat) (e : ending) (act : list nat * ending) : list nat * ending :=
  match e with
  | Terminated => (t, Terminated)
  | _ => let '(t', e') := act in (t ++ t', match e' with Done => e | _ => Terminated end)
  end.

(** The trace of emitted numbers and how the program ends, when it starts with [u]
    uncaught exceptions. While an exception unwinds the stack there is one more. *)
Fixpoint exec (u : Z) (s : stmt) : list nat * ending :=
  match s with
  | Skip => ([], Done)
  | Emit n => ([n], Done)
  | Raise => ([], Raised)
  | Seq a b =>
      match exec u a with
      | (t, Done) => let '(t', e) := exec u b in (t ++ t', e)
      | r => r
      end
  | TryCatch a b =>
      match exec u a with
      | (t, Raised) => let '(t', e) := exec u b in (t ++ t', e)
      | r => r
      end
  | WithDestructor d a =>
      let '(t, e) := exec u a in
      let u' := match e with Raised => (u + 1)%Z | _ => u end in
      leave t e (exec u' d)
  | WithFail f a =>
      let g := fail_new u in
      let '(t, e) := exec u a in
      let u' := match e with Raised => (u + 1)%Z | _ => u end in
      leave t e (if fail_destroy u' g then exec u' f else ([], Done))
  end.
