(** * Property C152 *)

From Coq Require Import List Arith Bool Lia.
From Verif Require Import LinkedList SpecList PropsList SpecForwardPrograms ForwardPrograms.
Import ListNotations.

(** ** C152. Programs with any number of forward lists: no undefined behaviour, every reply is as promised, lists share nothing, other objects stay as they are.
    [m] has the objects of the lists [st] and any others; the script says which operations throw. *)
Theorem C152_program : forall V (c : client (V := V)) m st, represents m st -> careful c st ->
  exists m' tr st', run c m = Some m' /\ runs c st tr st' /\ represents m' st' /\ others_kept m st m' st' /\
  ((forall a r, In (a, r) tr -> ~ may_leak a r) -> nothing_new m st m' st').
Proof.
  intros V c m st R C. destruct (program_ok c m st R C) as (m' & tr & st' & E & T & (R' & O & N) & _). exists m', tr, st'. repeat (split; [assumption|]).
  intros H. destruct N as [(a & r & Hi & Hl)|N]; [now destruct (H a r Hi)|exact N].
Qed.
Print Assumptions C152_program.

(** When nothing throws there are no leaks either. *)
Theorem C152_no_exceptions : forall V (c : client (V := V)) m st, represents m st -> careful c st -> script m = [] ->
  exists m' tr st', run c m = Some m' /\ runs c st tr st' /\ (forall a, ~ In (a, Thrown) tr) /\ represents m' st' /\ others_kept m st m' st' /\ nothing_new m st m' st'.
Proof.
  intros V c m st R C H. destruct (program_ok c m st R C) as (m' & tr & st' & E & T & (R' & O & N) & K). specialize (K H). exists m', tr, st'. repeat (split; [assumption|]).
  destruct N as [(a & r & Hi & Hl)|N]; [|exact N]. destruct Hl as (-> & _). now destruct (K a).
Qed.
Print Assumptions C152_no_exceptions.

(** A program that makes its lists and destroys them all leaves memory as it was. *)
Theorem C152_whole : forall V (c : client (V := V)) m, valid m -> careful c [] ->
  exists m' tr st', run c m = Some m' /\ runs c [] tr st' /\
  (st' = [] -> (forall a r, In (a, r) tr -> ~ may_leak a r) -> forall q, object_at m' q = object_at m q).
Proof.
  intros V c m Hv C. assert (R : represents m []) by (split; [exact Hv|]; split; [constructor|]; split; [intros s l []|intros s l t k []]).
  destruct (C152_program V c m [] R C) as (m' & tr & st' & E & T & _ & O & N). exists m', tr, st'. split; [exact E|]. split; [exact T|]. intros -> H q. specialize (N H q).
  assert (U : ~ owned (V := V) [] q) by (intros (s & l & [] & _)). destruct (object_at m q) eqn:Eq.
  - destruct (O q) as [G _]; [congruence|exact U|]. congruence.
  - destruct (object_at m' q) eqn:Eq'; [|reflexivity]. destruct N as [N|[N _]]; [discriminate|now destruct U|congruence].
Qed.
Print Assumptions C152_whole.

(** Iterators stay valid: a call that does not end the life of an element leaves it at its address, also when it throws, with its value unless the call assigns to it,
    and in its list unless the call moves elements between lists. *)
Theorem C152_iterators : forall V m st (a : call (V := V)) r m' st' s l p v, represents m st -> step st a r st' -> represents m' st' ->
  In (s, l) st -> In (p, v) l -> ~ ends_life st a s (p, v) ->
  exists t k w, In (t, k) st' /\ In (p, w) k /\ value p m' = Returned w m' /\ (~ assigns a s (p, v) -> w = v) /\ (~ moves a s -> t = s).
Proof.
  intros V m st a r m' st' s l p v R S R' Hs Hp Hn. destruct (survives m st a r st' s l p v R S Hs Hp Hn) as (t & k & w & Ht & Hk & Hw & Hm). exists t, k, w. repeat (split; [assumption|]). split; [|auto].
  destruct R' as (_ & _ & Rl & _). destruct (C87_iteration V m' t [] k (Rl _ _ Ht)) as (_ & _ & G). exact (G p w Hk).
Qed.
Print Assumptions C152_iterators.

(** A client that keeps an iterator while its list grows, is moved from and is destroyed. *)
Definition C152_rest (s p : nat) : client (V := nat) :=
  Call (Read p) (fun _ => Call (Move s) (fun r => match r with
      | Place t => Call (Destroy s) (fun _ => Call (Read p) (fun _ => Call (Insert_after t p 30) (fun _ => Call (Destroy t) (fun _ => Done))))
      | _ => Done
      end)).
Definition C152_client : client (V := nat) :=
  Call New (fun r => match r with
  | Place s => Call (Insert_after s s 10) (fun r => match r with
    | Place p => Call (Push_front s 20) (fun _ => C152_rest s p)
    | _ => Call (Destroy s) (fun _ => Done)
    end)
  | _ => Done
  end).
Local Ltac norm := cbn [put map app fst without filter negb] in *; rewrite ?Nat.eqb_refl in *.
Local Ltac sole H := cbn in H; repeat match type of H with _ \/ _ => destruct H as [H|H] | False => destruct H end; try (injection H; clear H; intros; subst).
Local Ltac each := let H := fresh in intros ? ? H; inversion H; clear H; subst.
Lemma C152_rest_careful s p v l1 l2 : careful (C152_rest s p) [(s, l1 ++ (p, v) :: l2)].
Proof.
  unfold C152_rest. cbn [careful]. split; [eexists; eexists; apply (step_read _ s l1 p v l2); now left|]. each. match goal with H : In _ _ |- _ => clear H end. norm.
  set (t := S (s + list_sum (names_of (l1 ++ (p, v) :: l2)))).
  assert (F : new_in [(s, l1 ++ (p, v) :: l2)] [t]).
  { split; [repeat constructor; intros []|]. intros q [<-|[]] (u & k & [Hu|[]] & Hq). injection Hu as <- <-. destruct Hq as [Hq|Hq]; [subst t; lia|].
    assert (G : forall ns x, In x ns -> x <= list_sum ns) by (clear; intros ns x; induction ns as [|n ns IH]; [intros []|change (list_sum (n :: ns)) with (n + list_sum ns); intros [<-|H]; [lia|specialize (IH H); lia]]). specialize (G _ _ Hq). subst t. lia. }
  split; [exists (Place t); eexists; eapply step_move; [now left|exact F]|]. each. match goal with H : In _ _ |- _ => sole H end. norm.
  match goal with H : new_in _ _ |- _ => destruct H as (_ & N) end. match type of N with forall p, In p [?x] -> _ => rename x into u end.
  assert (Hne : u <> s) by (intros ->; apply (N s); [now left|]; exists s; eexists; split; now left). clear N.
  split; [eexists; eexists; eapply step_destroy; now left|]. each. norm. rewrite (proj2 (Nat.eqb_neq u s) Hne). cbn [negb].
  split; [eexists; eexists; apply (step_read _ u l1 p v l2); now left|]. each.
  assert (L : last_place (l1 ++ [(p, v)]) u = p) by (unfold last_place, names_of; rewrite map_app; cbn; apply last_last).
  pose proof (step_insert_after_throws [(u, l1 ++ (p, v) :: l2)] u (l1 ++ [(p, v)]) l2 30) as T. rewrite L, <- app_assoc in T. specialize (T ltac:(now left)).
  split; [exists Thrown; eexists; exact T|]. clear T. intros r st H.
  assert (G : exists k, st = [(u, k)]) by (inversion H; subst; norm; eauto). destruct G as (k & ->).
  split; [eexists; eexists; eapply step_destroy; now left|]. intros. exact I.
Qed.
Example C152_example : careful C152_client [] /\ represents (empty_memory (option nat) nat [false; true; false]) [] /\
  match run C152_client (empty_memory (option nat) nat []) with Some m => 4 <= names m /\ map (object_at m) (seq 0 (names m)) = repeat None (names m) | None => False end.
Proof.
  split; [|split].
  - unfold C152_client. cbn [careful]. split; [exists (Place 0), [(0, [])]; apply (step_new [] 0); split; [repeat constructor; intros []|intros p _ (s & l & [] & _)]|].
    each. norm. split; [exists Thrown; eexists; apply (step_insert_after_throws _ s [] [] 10); now left|]. intros r st H.
    assert (G : (exists p, r = Place p /\ st = [(s, [(p, 10)])]) \/ r = Thrown /\ st = [(s, [])]).
    { inversion H; subst; match goal with H : In _ _ |- _ => destruct H as [H|[]]; injection H as E end; [left; exists p|now right]. symmetry in E. apply app_eq_nil in E as (-> & ->). norm. auto. }
    destruct G as [(p & -> & ->)|(-> & ->)].
    2:{ split; [exists Nothing; eexists; eapply step_destroy; now left|]. intros. exact I. }
    clear H.
    split; [exists Thrown; eexists; eapply step_push_front_throws; now left|].
    each; match goal with H : In _ _ |- _ => sole H end; norm.
    + apply (C152_rest_careful s p 10 [(p0, 20)] []).
    + apply (C152_rest_careful s p 10 [] []).
  - split; [intros q H; now destruct H|]. split; [constructor|]. split; [intros s l []|intros s l t k []].
  - vm_compute. split; [repeat constructor|reflexivity].
Qed.
