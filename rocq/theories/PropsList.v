(** * Linked lists: properties C80 to C87 *)

From Coq Require Import List Arith Bool Lia.
From Verif Require Import LinkedList SpecList LinkedListProofs2 LinkedListProofs3 LinkedListProofs4 LinkedListProofs5 ForwardListProofs.
Import ListNotations.
Local Open Scope nat_scope.
Local Notation bmemory := (memory (nat * nat)).
Local Notation fmemory := (memory (option nat)).

(** Two lists share nothing. *)
Definition apart {V} (s : nat) (l : list (nat * V)) (t : nat) (k : list (nat * V)) : Prop :=
  forall p, In p (s :: names_of l) -> In p (t :: names_of k) -> False.
(** No object of [m] was changed. *)
Definition kept {L V} (m m' : memory L V) : Prop := forall q, object_at m q <> None -> object_at m' q = object_at m q.
(** Nothing was changed and nothing is new. *)
Definition unchanged {L V} (m m' : memory L V) : Prop := forall q, object_at m' q = object_at m q.
Definition empty_memory (L V : Type) (script : list bool) : memory L V := Memory (fun _ => None) 0 script.

(** ** C80. A bidirectional list is a sequence: push_back and push_front add one element at an end and leave the others where they are, pop_back and pop_front
    take one away and free its node, and an exception leaves everything as it was. Iterators go through the elements, forwards and backwards. *)
Theorem C80_push_back : forall V (m : bmemory V) s l v, valid m -> list_at m s l ->
  match list_push_back s v m with
  | Returned p m' => object_at m p = None /\ valid m' /\ list_at m' s (l ++ [(p, v)]) /\ same_except (p :: s :: names_of l) m m'
  | Threw m' => valid m' /\ unchanged m m'
  | Undefined => False
  end.
Proof.
  intros V m s l v Hv Hl. pose proof (push_back_ok m s l v Hv Hl) as H. destruct (list_push_back s v m) as [p m'|m'|]; [| |exact H].
  - destruct H as (-> & H1 & H2 & H3 & _). split; [apply fresh, Hv | auto].
  - destruct H as (H1 & H2 & _). split; [exact H2|]. intros q. apply H1. intros [].
Qed.
Print Assumptions C80_push_back.
Theorem C80_push_front : forall V (m : bmemory V) s l v, valid m -> list_at m s l ->
  match list_push_front s v m with
  | Returned p m' => object_at m p = None /\ valid m' /\ list_at m' s ((p, v) :: l) /\ same_except (p :: s :: names_of l) m m'
  | Threw m' => valid m' /\ unchanged m m'
  | Undefined => False
  end.
Proof.
  intros V m s l v Hv Hl. pose proof (push_front_ok m s l v Hv Hl) as H. destruct (list_push_front s v m) as [p m'|m'|]; [| |exact H].
  - destruct H as (H1 & H2 & H3 & H4). split; [exact H1|]. split; [exact H2|]. split; [exact H3|]. eapply same_weaken; [exact H4|]. intros q. cbn. tauto.
  - destruct H as (H1 & H2). split; [exact H2|]. intros q. apply H1. intros [].
Qed.
Print Assumptions C80_push_front.
Theorem C80_pop_back : forall V (m : bmemory V) s l p v, valid m -> list_at m s (l ++ [(p, v)]) ->
  exists m', list_pop_back s m = Returned tt m' /\ valid m' /\ list_at m' s l /\ object_at m' p = None /\ same_except (p :: s :: names_of l) m m'.
Proof. intros V m s l p v Hv Hl. destruct (unlinked_last m s l p v Hl Hv) as (m' & H1 & H2 & H3 & H4 & H5 & _). exists m'. auto. Qed.
Print Assumptions C80_pop_back.
Theorem C80_pop_front : forall V (m : bmemory V) s p v l, valid m -> list_at m s ((p, v) :: l) ->
  exists m', list_pop_front s m = Returned tt m' /\ valid m' /\ list_at m' s l /\ object_at m' p = None /\ same_except (p :: s :: names_of l) m m'.
Proof.
  intros V m s p v l Hv Hl. destruct (pop_front_ok m s p v l Hv Hl) as (m' & H1 & H2 & H3 & H4 & H5). exists m'. split; [exact H1|]. split; [exact H2|]. split; [exact H3|]. split; [exact H4|].
  eapply same_weaken; [exact H5|]. intros q. cbn. tauto.
Qed.
Print Assumptions C80_pop_front.
Theorem C80_iteration : forall V (m : bmemory V) s l, list_at m s l ->
  list_begin s m = Returned (first_of l s) m /\ list_end s = s /\
  list_is_empty s m = Returned (match l with [] => true | _ => false end) m /\
  (forall l1 p v l2, l = l1 ++ (p, v) :: l2 -> p = first_of ((p, v) :: l2) s /\ p <> list_end s /\ value p m = Returned v m /\ get_next p m = Returned (first_of l2 s) m) /\
  (forall l1 p v l2, l = l1 ++ (p, v) :: l2 -> get_previous (first_of l2 s) m = Returned p m).
Proof.
  intros V m s l Hl. split; [apply begin_ok, Hl|]. split; [reflexivity|]. split; [apply empty_ok, Hl|]. split.
  - intros l1 p v l2 ->. split; [reflexivity|]. split; [|split].
    + apply (not_sentinel m s _ p Hl). rewrite names_app. apply in_or_app. right. now left.
    + eapply value_ok; [exact Hl|]. apply in_or_app. right. now left.
    + eapply next_ok, Hl.
  - intros l1 p v l2 ->. replace (l1 ++ (p, v) :: l2) with ((l1 ++ [(p, v)]) ++ l2) in Hl by (rewrite <- app_assoc; reflexivity). rewrite (previous_ok m s _ l2 Hl). now rewrite last_place_snoc.
Qed.
Print Assumptions C80_iteration.

(** A list that the constructor from a range makes, and a second one. *)
Definition three : bmemory nat := match list_from [10; 20; 30] (empty_memory (nat * nat) nat []) with Returned _ m => m | _ => empty_memory _ _ [] end.
Definition three_elements : list (nat * nat) := [(1, 10); (2, 20); (3, 30)].
Definition five : bmemory nat := match list_from [40; 50] three with Returned _ m => m | _ => three end.
Definition two_elements : list (nat * nat) := [(5, 40); (6, 50)].
Local Ltac concrete_list :=
  split; [eexists; vm_compute; reflexivity|]; split; [intros p v H; repeat (destruct H as [[= <- <-]|H]; [eexists; vm_compute; reflexivity|]); destruct H|]; split;
  [repeat constructor; cbn; lia | cbv [names_of map fst app three_elements two_elements linked]; repeat split; vm_compute; reflexivity].
Example C80_three : valid five /\ list_at five 0 three_elements /\ list_at five 4 two_elements /\ apart 0 three_elements 4 two_elements.
Proof.
  split; [|split; [|split]].
  - intros p. do 7 (destruct p as [|p]; [vm_compute; intros _; lia|]). vm_compute. intros H. now contradiction H.
  - concrete_list.
  - concrete_list.
  - intros p. cbn. lia.
Qed.

(** ** C81. Insertion and erasure anywhere in a bidirectional list do what they do to a sequence and nothing else: elements that are not erased keep their nodes,
    erased ones are freed. *)
Theorem C81_insert : forall V (m : bmemory V) s l1 l2 vs, valid m -> list_at m s (l1 ++ l2) ->
  match list_insert s (first_of l2 s) vs m with
  | Returned r m' => exists k, map snd k = vs /\ (forall p, In p (names_of k) -> object_at m p = None) /\ valid m' /\ list_at m' s (l1 ++ k ++ l2) /\
      same_except (s :: names_of (l1 ++ k ++ l2)) m m' /\ r = first_of l2 s
  | Threw m' => valid m' /\ kept m m'
  | Undefined => False
  end.
Proof.
  intros V m s l1 l2 vs Hv Hl. pose proof (insert_ok m s l1 l2 vs Hv Hl) as H. destruct (list_insert s (first_of l2 s) vs m) as [r m'|m'|]; [|exact H | exact H].
  destruct H as (E & k & H1 & H2 & H3 & H4 & H5). exists k. auto 10.
Qed.
Print Assumptions C81_insert.
Theorem C81_erase : forall V (m : bmemory V) s l1 l2 l3, valid m -> list_at m s (l1 ++ l2 ++ l3) ->
  exists m', list_erase (first_of (l2 ++ l3) s) (first_of l3 s) m = Returned (first_of l3 s) m' /\ valid m' /\ list_at m' s (l1 ++ l3) /\
    (forall p, In p (names_of l2) -> object_at m' p = None) /\ same_except (s :: names_of (l1 ++ l2 ++ l3)) m m'.
Proof. intros V m s l1 l2 l3 Hv Hl. destruct (erase_ok m s l1 l2 l3 Hv Hl) as (m' & H1 & H2 & H3 & H4 & H5 & _). exists m'. auto. Qed.
Print Assumptions C81_erase.
Theorem C81_erase_one : forall V (m : bmemory V) s l1 p v l3, valid m -> list_at m s (l1 ++ (p, v) :: l3) ->
  exists m', list_erase_one s p m = Returned (first_of l3 s) m' /\ valid m' /\ list_at m' s (l1 ++ l3) /\
    object_at m' p = None /\ same_except (s :: names_of (l1 ++ (p, v) :: l3)) m m'.
Proof. intros V m s l1 p v l3 Hv Hl. destruct (erase_one_ok m s l1 p v l3 Hv Hl) as (m' & H1 & H2 & H3 & H4 & H5 & _). exists m'. auto. Qed.
Print Assumptions C81_erase_one.
Theorem C81_erase_to_end : forall V (m : bmemory V) s l1 l2, valid m -> list_at m s (l1 ++ l2) ->
  exists m', list_erase_to_end s (first_of l2 s) m = Returned tt m' /\ valid m' /\ list_at m' s l1 /\
    (forall p, In p (names_of l2) -> object_at m' p = None) /\ same_except (s :: names_of (l1 ++ l2)) m m'.
Proof. intros V m s l1 l2 Hv Hl. destruct (erase_to_end_ok m s l1 l2 Hv Hl) as (m' & H1 & H2 & H3 & H4 & H5 & _). exists m'. auto. Qed.
Print Assumptions C81_erase_to_end.
Theorem C81_erase_if : forall V (predicate : V -> bool) (m : bmemory V) s l, valid m -> list_at m s l ->
  exists m', list_erase_if s predicate m = Returned (length (filter (fun e => predicate (snd e)) l)) m' /\ valid m' /\
    list_at m' s (filter (fun e => negb (predicate (snd e))) l) /\ (forall e, In e l -> predicate (snd e) = true -> object_at m' (fst e) = None) /\
    same_except (s :: names_of l) m m'.
Proof. intros V predicate m s l Hv Hl. exact (erase_if_ok predicate m s l Hv Hl). Qed.
Print Assumptions C81_erase_if.
Theorem C81_clear : forall V (m : bmemory V) s l, valid m -> list_at m s l ->
  exists m', list_clear s m = Returned tt m' /\ valid m' /\ list_at m' s [] /\ (forall p, In p (names_of l) -> object_at m' p = None) /\ same_except (s :: names_of l) m m'.
Proof. intros V m s l Hv Hl. destruct (clear_ok m s l Hv Hl) as (m' & H1 & H2 & H3 & H4 & H5 & _). exists m'. auto. Qed.
Print Assumptions C81_clear.
Theorem C81_destructor : forall V (m : bmemory V) s l, valid m -> list_at m s l ->
  exists m', list_destroy s m = Returned tt m' /\ valid m' /\ (forall p, In p (s :: names_of l) -> object_at m' p = None) /\ same_except (s :: names_of l) m m'.
Proof. intros V m s l Hv Hl. destruct (destroy_ok m s l Hv Hl) as (m' & H1 & H2 & H3 & H4 & _). exists m'. auto. Qed.
Print Assumptions C81_destructor.
Example C81_case : exists m', list_erase_if 0 (fun v => v =? 20) five = Returned 1 m' /\ list_at m' 0 [(1, 10); (3, 30)].
Proof. destruct C80_three as (Hv & Hl & _). destruct (C81_erase_if nat (fun v => v =? 20) five 0 _ Hv Hl) as (m' & H1 & _ & H2 & _). exists m'. split; [exact H1 | exact H2]. Qed.

(** ** C82. splice moves a range of elements, from one list to another or within a list, without changing a value or moving a node. *)
Theorem C82_splice_between_lists : forall V (m : bmemory V) s t k1 k2 l1 l2 l3, valid m -> list_at m s (k1 ++ k2) -> list_at m t (l1 ++ l2 ++ l3) -> apart s (k1 ++ k2) t (l1 ++ l2 ++ l3) ->
  exists m', list_splice (first_of k2 s) (first_of (l2 ++ l3) t) (first_of l3 t) m = Returned tt m' /\ valid m' /\
    list_at m' s (k1 ++ l2 ++ k2) /\ list_at m' t (l1 ++ l3) /\ same_except (s :: t :: names_of (k1 ++ k2) ++ names_of (l1 ++ l2 ++ l3)) m m'.
Proof. intros V m s t k1 k2 l1 l2 l3 Hv Hk Hl Hd. destruct (splice_valid m s t k1 k2 l1 l2 l3 Hv Hk Hl Hd) as (m' & H1 & H2 & H3 & H4 & H5 & _). exists m'. auto. Qed.
Print Assumptions C82_splice_between_lists.
(** Within a list: the range may come before the position or after it. *)
Theorem C82_splice_within_partial : forall V (m : bmemory V) s l1 l2 l3 l4, valid m -> list_at m s (l1 ++ l2 ++ l3 ++ l4) ->
  (l3 <> [] -> exists m', list_splice (first_of l4 s) (first_of (l2 ++ l3 ++ l4) s) (first_of (l3 ++ l4) s) m = Returned tt m' /\ valid m' /\
    list_at m' s (l1 ++ l3 ++ l2 ++ l4) /\ same_except (s :: names_of (l1 ++ l2 ++ l3 ++ l4)) m m') /\
  (l2 <> [] -> exists m', list_splice (first_of (l2 ++ l3 ++ l4) s) (first_of (l3 ++ l4) s) (first_of l4 s) m = Returned tt m' /\ valid m' /\
    list_at m' s (l1 ++ l3 ++ l2 ++ l4) /\ same_except (s :: names_of (l1 ++ l2 ++ l3 ++ l4)) m m').
Proof.
  intros V m s l1 l2 l3 l4 Hv Hl.
  assert (T : forall m', same_except (s :: names_of (l1 ++ l2 ++ l3 ++ l4)) m m' -> names m' = names m -> valid m').
  { intros m' Hs Hn. eapply valid_same; [exact Hv | exact Hs | lia|]. intros p Hp. rewrite Hn. exact (names_below m s _ p Hv Hl Hp). }
  split; intros Hne.
  - destruct (splice_forward m s l1 l2 l3 l4 Hl Hne) as (m' & H1 & H2 & H3 & H4). exists m'. split; [|auto]. destruct l2, l3; try congruence; exact H1.
  - destruct (splice_backward m s l1 l2 l3 l4 Hl Hne) as (m' & H1 & H2 & H3 & H4). exists m'. split; [|auto]. destruct l2; [congruence | exact H1].
Qed.
Print Assumptions C82_splice_within_partial.
(** Where the position is the end of the range, std::list does nothing; here an assertion fails. *)
Theorem C82_splice_position_at_end_of_range_refuted : forall V (m : bmemory V) s l1 l2 l4, list_at m s (l1 ++ l2 ++ l4) -> l2 <> [] ->
  list_splice (first_of l4 s) (first_of (l2 ++ l4) s) (first_of l4 s) m = Undefined.
Proof. exact @splice_end_undefined. Qed.
Print Assumptions C82_splice_position_at_end_of_range_refuted.
Example C82_case : exists m', list_splice 2 5 4 five = Returned tt m' /\ list_at m' 0 [(1, 10); (5, 40); (6, 50); (2, 20); (3, 30)] /\ list_at m' 4 [].
Proof.
  destruct C80_three as (Hv & Hl & Hk & Ha). destruct (C82_splice_between_lists nat five 0 4 [(1, 10)] [(2, 20); (3, 30)] [] two_elements [] Hv Hl Hk Ha) as (m' & H1 & _ & H2 & H3 & _).
  exists m'. auto.
Qed.
Example C82_within_case : exists m', list_splice 0 1 3 five = Returned tt m' /\ list_at m' 0 [(3, 30); (1, 10); (2, 20)].
Proof.
  destruct C80_three as (Hv & Hl & _). destruct (C82_splice_within_partial nat five 0 [] [(1, 10); (2, 20)] [(3, 30)] [] Hv Hl) as (H & _). destruct (H ltac:(discriminate)) as (m' & H1 & _ & H2 & _).
  exists m'. auto.
Qed.

(** ** C83. swap, move construction and move assignment of bidirectional lists exchange the elements, which keep their nodes. *)
Theorem C83_swap : forall V (m : bmemory V) s t l k, valid m -> list_at m s l -> list_at m t k -> apart s l t k ->
  exists m', list_swap s t m = Returned tt m' /\ valid m' /\ list_at m' s k /\ list_at m' t l /\ same_except (s :: t :: names_of l ++ names_of k) m m'.
Proof. intros V m s t l k Hv Hl Hk Hd. destruct (swap_ok m s t l k Hv Hl Hk Hd) as (m' & H1 & H2 & H3 & H4 & H5 & _). exists m'. auto. Qed.
Print Assumptions C83_swap.
Theorem C83_self_move_assign : forall V (m : bmemory V) s l, valid m -> list_at m s l -> exists m', list_move_assign s s m = Returned tt m' /\ valid m' /\ list_at m' s l /\ unchanged m m'.
Proof. intros V m s l Hv Hl. destruct (self_swap m s l Hv Hl) as (m' & H1 & H2 & H3 & H4 & _). exists m'. auto. Qed.
Print Assumptions C83_self_move_assign.
Theorem C83_move_assign : forall V (m : bmemory V) s t l k, valid m -> list_at m s l -> list_at m t k -> apart s l t k ->
  exists m', list_move_assign s t m = Returned tt m' /\ valid m' /\ list_at m' s k /\ list_at m' t l /\ same_except (s :: t :: names_of l ++ names_of k) m m'.
Proof. exact C83_swap. Qed.
Print Assumptions C83_move_assign.
Theorem C83_move_construct : forall V (m : bmemory V) t k, valid m -> list_at m t k ->
  exists s m', list_move t m = Returned s m' /\ object_at m s = None /\ valid m' /\ list_at m' s k /\ list_at m' t [] /\ same_except (s :: t :: names_of k) m m'.
Proof. intros V m t k Hv Hk. exact (move_ok m t k Hv Hk). Qed.
Print Assumptions C83_move_construct.
Example C83_case : exists m', list_swap 0 4 five = Returned tt m' /\ list_at m' 0 two_elements /\ list_at m' 4 three_elements.
Proof. destruct C80_three as (Hv & Hl & Hk & Ha). destruct (C83_swap nat five 0 4 _ _ Hv Hl Hk Ha) as (m' & H1 & _ & H2 & H3 & _). exists m'. auto. Qed.

(** ** C84. A copy of a bidirectional list has equal elements in new nodes; copy assignment gives the target the source's elements, in the target's nodes as far as
    they go. The source is unchanged, also when an exception is thrown, and then the target is still a list and every node that it no longer has is freed. *)
Theorem C84_construct_from_range : forall V (m : bmemory V) vs, valid m ->
  match list_from vs m with
  | Returned s m' => exists k, map snd k = vs /\ (forall p, In p (s :: names_of k) -> object_at m p = None) /\ valid m' /\ list_at m' s k /\ same_except (s :: names_of k) m m'
  | Threw m' => valid m' /\ kept m m'
  | Undefined => False
  end.
Proof.
  intros V m vs Hv. pose proof (from_ok m vs Hv) as H. destruct (list_from vs m) as [s m'|m'|]; [| |exact H].
  - destruct H as (k & H1 & -> & H2 & H3 & H4 & H5 & _). exists k. split; [exact H1|]. split; [|auto]. intros p Hp. assert (Hle : names m <= p) by (destruct Hp as [<-|Hp]; [lia | exact (H2 p Hp)]).
    destruct (object_at m p) eqn:E; [|reflexivity]. specialize (Hv p ltac:(congruence)). lia.
  - destruct H as (H1 & H2 & _). split; [exact H1|]. intros q Hq. apply H2, Hv, Hq.
Qed.
Print Assumptions C84_construct_from_range.
Theorem C84_copy_construct : forall V (m : bmemory V) t k, valid m -> list_at m t k ->
  match list_copy t m with
  | Returned s m' => exists l, map snd l = map snd k /\ object_at m s = None /\ (forall p, In p (names_of l) -> object_at m p = None) /\ valid m' /\ list_at m' s l /\ list_at m' t k /\ same_except (s :: names_of l) m m'
  | Threw m' => valid m' /\ kept m m'
  | Undefined => False
  end.
Proof. intros V m t k Hv Hk. exact (copy_ok m t k Hv Hk). Qed.
Print Assumptions C84_copy_construct.
Theorem C84_copy_assign : forall V (m : bmemory V) s l t k, valid m -> list_at m s l -> list_at m t k -> apart s l t k ->
  match list_copy_assign s t m with
  | Returned _ m' => exists l', map snd l' = map snd k /\ (forall n, n <= length l -> n <= length k -> firstn n (names_of l') = firstn n (names_of l)) /\ valid m' /\ list_at m' s l' /\ list_at m' t k /\
      (forall p, In p (skipn (length k) (names_of l)) -> object_at m' p = None) /\ same_except (s :: names_of l ++ names_of l') m m' /\
      (forall p, In p (names_of l') -> In p (names_of l) \/ object_at m p = None)
  | Threw m' => exists l', valid m' /\ list_at m' s l' /\ list_at m' t k /\ same_except (s :: names_of l ++ names_of l') m m' /\
      (forall p, In p (names_of l) -> ~ In p (names_of l') -> object_at m' p = None) /\ (forall p, In p (names_of l') -> In p (names_of l) \/ object_at m p = None) /\
      firstn (length l) (names_of l') = names_of l /\
      exists i, i < length k /\ map snd l' = firstn i (map snd k) ++ skipn i (map snd l)
  | Undefined => False
  end.
Proof. intros V m s l t k Hv Hl Hk Hd. exact (copy_assign_ok m s l t k Hv Hl Hk Hd). Qed.
Print Assumptions C84_copy_assign.
Theorem C84_self_copy_assign : forall V (m : bmemory V) s, list_copy_assign s s m = Returned tt m.
Proof. intros V m s. unfold list_copy_assign. now rewrite Nat.eqb_refl. Qed.
Print Assumptions C84_self_copy_assign.
Example C84_case : match list_copy_assign 0 4 five with
  | Returned _ m' => map (object_at m') [0; 1; 2; 3; 4] = [Some (Sentinel (2, 1)); Some (Node (0, 2) 40); Some (Node (1, 0) 50); None; Some (Sentinel (6, 5))]
  | _ => False
  end.
Proof. vm_compute. reflexivity. Qed.

(** ** C85. When a constructor of a list throws, everything that it made is gone. False: the destructor of the list does not run, and the nodes stay. *)
Lemma left_over {L V A} (m : memory L V) (x : M L V A) p : match x m with Threw m' => object_at m' p <> None | _ => False end -> exists m', x m = Threw m' /\ object_at m' p <> None.
Proof. destruct (x m) as [a m'|m'|]; intros H; [destruct H | eauto | destruct H]. Qed.
Theorem C85_constructor_frees_its_nodes_refuted :
  (exists (m m' : bmemory nat) vs p, valid m /\ (forall q, object_at m q = None) /\ list_from vs m = Threw m' /\ object_at m' p <> None) /\
  (exists (m m' : bmemory nat) t k p, valid m /\ list_at m t k /\ list_copy t m = Threw m' /\ object_at m p = None /\ object_at m' p <> None) /\
  (exists (m m' : bmemory nat) s l vs p, valid m /\ list_at m s l /\ list_insert s s vs m = Threw m' /\ object_at m p = None /\ object_at m' p <> None) /\
  (exists (m m' : fmemory nat) vs p, valid m /\ (forall q, object_at m q = None) /\ forward_from vs m = Threw m' /\ object_at m' p <> None).
Proof.
  destruct C80_three as (Hv & Hl & _). set (bad := Memory (object_at five) (names five) [false; false; true]).
  assert (Hl' : list_at bad 0 three_elements) by (eapply list_at_same; [exact Hl | reflexivity]).
  split; [|split; [|split]].
  - destruct (left_over (empty_memory (nat * nat) nat [false; false; true]) (list_from [10; 20]) 1) as (m' & H1 & H2); [vm_compute; discriminate|].
    exists (empty_memory _ _ [false; false; true]), m', [10; 20], 1. split; [intros p H; now contradiction H|]. split; [reflexivity|]. auto.
  - destruct (left_over bad (list_copy 0) 8) as (m' & H1 & H2); [vm_compute; discriminate|].
    exists bad, m', 0, three_elements, 8. split; [exact Hv|]. split; [exact Hl'|]. split; [exact H1|]. split; [vm_compute; reflexivity | exact H2].
  - destruct (left_over bad (list_insert 0 0 [60; 70]) 8) as (m' & H1 & H2); [vm_compute; discriminate|].
    exists bad, m', 0, three_elements, [60; 70], 8. split; [exact Hv|]. split; [exact Hl'|]. split; [exact H1|]. split; [vm_compute; reflexivity | exact H2].
  - destruct (left_over (empty_memory (option nat) nat [false; false; true]) (forward_from [10; 20]) 1) as (m' & H1 & H2); [vm_compute; discriminate|].
    exists (empty_memory _ _ [false; false; true]), m', [10; 20], 1. split; [intros p H; now contradiction H|]. split; [reflexivity|]. auto.
Qed.
Print Assumptions C85_constructor_frees_its_nodes_refuted.
(** What does hold: a constructor that throws before it has made a node leaves nothing. *)
Theorem C85_first_element_partial : forall V (m : bmemory V) v, valid m ->
  match list_from [v] m with Threw m' => valid m' /\ unchanged m m' | Returned _ _ => True | Undefined => False end.
Proof. exact @from_one_unchanged. Qed.
Print Assumptions C85_first_element_partial.
Example C85_first_element_case : exists m', list_from [10] (empty_memory (nat * nat) nat [false; true]) = Threw m'.
Proof. eexists. reflexivity. Qed.

(** ** C86. insert and emplace return an iterator to the first of the inserted elements. False for a bidirectional list, where it is to the element after them. *)
Theorem C86_insert_returns_inserted_refuted : forall V (m : bmemory V) s l1 l2 v, valid m -> list_at m s (l1 ++ l2) ->
  match list_insert s (first_of l2 s) [v] m with
  | Returned r m' => exists p, list_at m' s (l1 ++ (p, v) :: l2) /\ r <> p /\ r = first_of l2 s
  | Threw _ => True
  | Undefined => False
  end.
Proof.
  intros V m s l1 l2 v Hv Hl. pose proof (C81_insert V m s l1 l2 [v] Hv Hl) as H. destruct (list_insert s (first_of l2 s) [v] m) as [r m'|m'|]; [|exact I | exact H].
  destruct H as (k & Hk & _ & _ & Hl' & _ & ->). destruct k as [|(p, w) [|e k]]; try discriminate. injection Hk as ->. exists p. split; [exact Hl'|]. split; [|reflexivity].
  cbn [app] in Hl'. destruct Hl' as (_ & _ & N & _). rewrite names_app in N. cbn [names_of map fst] in N. intros E. destruct l2 as [|(q, u) l2]; cbn [first_of fst] in E; subst.
  - apply NoDup_cons_iff in N as (N & _). apply N, in_or_app. right. now left.
  - apply NoDup_cons_iff in N as (_ & N). apply NoDup_remove_2 in N. apply N, in_or_app. right. now left.
Qed.
Print Assumptions C86_insert_returns_inserted_refuted.
Example C86_case : match list_insert 0 2 [15] five with
  | Returned r m' => (r, match value r m' with Returned v _ => v | _ => 0 end) = (2, 20)
  | _ => False
  end.
Proof. vm_compute. reflexivity. Qed.

(** ** C87. A forward list is a sequence under lazy_insert_after, erase_after, splice_after, push_front, pop_front (erase_after of before_begin), clear, swap, move, copy. *)
Theorem C87_iteration : forall V (m : fmemory V) s l1 l2, forward_at m s (l1 ++ l2) ->
  forward_begin s m = Returned (hd_error (names_of (l1 ++ l2))) m /\ links (last_place l1 s) m = Returned (hd_error (names_of l2)) m /\
  (forall p v, In (p, v) (l1 ++ l2) -> value p m = Returned v m).
Proof. intros V m s l1 l2 Hl. split; [apply (begin_link m s _ Hl)|]. split; [apply (place_link m s l1 l2 Hl)|]. intros p v Hp. exact (fvalue_ok m s _ p v Hl Hp). Qed.
Print Assumptions C87_iteration.
Theorem C87_insert_after : forall V (m : fmemory V) s l1 l2 v, valid m -> forward_at m s (l1 ++ l2) ->
  match insert_after (last_place l1 s) v m with
  | Returned p m' => object_at m p = None /\ valid m' /\ forward_at m' s (l1 ++ (p, v) :: l2) /\ same_except [p; last_place l1 s] m m'
  | Threw m' => valid m' /\ unchanged m m'
  | Undefined => False
  end.
Proof.
  intros V m s l1 l2 v Hv Hl. pose proof (insert_after_ok m s l1 l2 v Hv Hl) as H. destruct (insert_after (last_place l1 s) v m) as [p m'|m'|]; [| |exact H].
  - destruct H as (-> & H1 & H2 & H3 & _). split; [apply ffresh, Hv | auto].
  - destruct H as (H1 & H2 & _). split; [exact H2|]. intros q. apply H1. intros [].
Qed.
Print Assumptions C87_insert_after.
Theorem C87_push_front : forall V (m : fmemory V) s l v, valid m -> forward_at m s l ->
  match forward_push_front s v m with
  | Returned p m' => object_at m p = None /\ valid m' /\ forward_at m' s ((p, v) :: l) /\ same_except [p; s] m m'
  | Threw m' => valid m' /\ unchanged m m'
  | Undefined => False
  end.
Proof. intros V m s l v Hv Hl. exact (C87_insert_after V m s [] l v Hv Hl). Qed.
Print Assumptions C87_push_front.
Theorem C87_erase_after : forall V (m : fmemory V) s l1 p v l2, valid m -> forward_at m s (l1 ++ (p, v) :: l2) ->
  exists m', erase_after (last_place l1 s) m = Returned (hd_error (names_of l2)) m' /\ valid m' /\ forward_at m' s (l1 ++ l2) /\ object_at m' p = None /\ same_except [p; last_place l1 s] m m'.
Proof. intros V m s l1 p v l2 Hv Hl. destruct (erase_after_ok m s l1 p v l2 Hv Hl) as (m' & H1 & H2 & H3 & H4 & H5 & _). exists m'. split; [exact H1|]. split; [exact H2|]. split; [exact H3|]. split; [exact H4|]. eapply fsame_weaken; [exact H5|]. intros q. cbn. tauto. Qed.
Print Assumptions C87_erase_after.
Theorem C87_erase_all_after : forall V (m : fmemory V) s l1 l2, valid m -> forward_at m s (l1 ++ l2) ->
  exists m', erase_all_after (last_place l1 s) m = Returned tt m' /\ valid m' /\ forward_at m' s l1 /\ (forall p, In p (names_of l2) -> object_at m' p = None) /\ same_except (last_place l1 s :: names_of l2) m m'.
Proof. intros V m s l1 l2 Hv Hl. destruct (erase_all_ok m s l1 l2 Hv Hl) as (m' & H1 & H2 & H3 & H4 & H5 & _). exists m'. auto. Qed.
Print Assumptions C87_erase_all_after.
Theorem C87_splice_after : forall V (m : fmemory V) s t k1 k2 l1 l2 l3, valid m -> forward_at m s (k1 ++ k2) -> forward_at m t (l1 ++ l2 ++ l3) -> apart s (k1 ++ k2) t (l1 ++ l2 ++ l3) ->
  exists m', splice_after s (last_place k1 s) t (last_place l1 t) (last_place (l1 ++ l2) t) m = Returned tt m' /\ valid m' /\ forward_at m' s (k1 ++ l2 ++ k2) /\ forward_at m' t (l1 ++ l3) /\
    same_except [last_place k1 s; last_place l1 t; last_place (l1 ++ l2) t] m m'.
Proof. intros V m s t k1 k2 l1 l2 l3 Hv Hk Hl Hd. destruct (splice_after_ok m s t k1 k2 l1 l2 l3 Hv Hk Hl Hd) as (m' & H1 & H2 & H3 & H4 & H5 & _). exists m'. auto. Qed.
Print Assumptions C87_splice_after.
Theorem C87_clear : forall V (m : fmemory V) s l, valid m -> forward_at m s l ->
  exists m', forward_clear s m = Returned tt m' /\ valid m' /\ forward_at m' s [] /\ (forall p, In p (names_of l) -> object_at m' p = None) /\ same_except (s :: names_of l) m m'.
Proof. intros V m s l Hv Hl. destruct (fclear_ok m s l Hv Hl) as (m' & H1 & H2 & H3 & H4 & H5 & _). exists m'. auto. Qed.
Print Assumptions C87_clear.
Theorem C87_destructor : forall V (m : fmemory V) s l, valid m -> forward_at m s l ->
  exists m', forward_destroy s m = Returned tt m' /\ valid m' /\ (forall p, In p (s :: names_of l) -> object_at m' p = None) /\ same_except (s :: names_of l) m m'.
Proof. intros V m s l Hv Hl. destruct (fdestroy_ok m s l Hv Hl) as (m' & H1 & H2 & H3 & H4 & _). exists m'. auto. Qed.
Print Assumptions C87_destructor.
Theorem C87_swap : forall V (m : fmemory V) s t l k, valid m -> forward_at m s l -> forward_at m t k -> apart s l t k ->
  exists m', forward_swap s t m = Returned tt m' /\ valid m' /\ forward_at m' s k /\ forward_at m' t l /\ same_except [s; t] m m'.
Proof. intros V m s t l k Hv Hl Hk Hd. destruct (fswap_ok m s t l k Hv Hl Hk Hd) as (m' & H1 & H2 & H3 & H4 & H5 & _). exists m'. auto. Qed.
Print Assumptions C87_swap.
Theorem C87_move_assign : forall V (m : fmemory V) s t l k, valid m -> forward_at m s l -> forward_at m t k -> apart s l t k ->
  exists m', forward_move_assign s t m = Returned tt m' /\ valid m' /\ forward_at m' s k /\ forward_at m' t l /\ same_except [s; t] m m'.
Proof. intros V m s t l k Hv Hl Hk Hd. exact (C87_swap V m s t l k Hv Hl Hk Hd). Qed.
Print Assumptions C87_move_assign.
Theorem C87_self_move_assign : forall V (m : fmemory V) s l, valid m -> forward_at m s l -> exists m', forward_move_assign s s m = Returned tt m' /\ valid m' /\ forward_at m' s l /\ unchanged m m'.
Proof. intros V m s l Hv Hl. exact (fself_swap m s l Hv Hl). Qed.
Print Assumptions C87_self_move_assign.
Theorem C87_move_construct : forall V (m : fmemory V) t k, valid m -> forward_at m t k ->
  exists s m', forward_move t m = Returned s m' /\ object_at m s = None /\ valid m' /\ forward_at m' s k /\ forward_at m' t [] /\ same_except [s; t] m m'.
Proof. intros V m t k Hv Hk. exact (fmove_ok m t k Hv Hk). Qed.
Print Assumptions C87_move_construct.
Theorem C87_construct_from_range : forall V (m : fmemory V) vs, valid m ->
  match forward_from vs m with
  | Returned s m' => exists k, map snd k = vs /\ (forall p, In p (s :: names_of k) -> object_at m p = None) /\ valid m' /\ forward_at m' s k /\ same_except (s :: names_of k) m m'
  | Threw m' => valid m' /\ kept m m'
  | Undefined => False
  end.
Proof.
  intros V m vs Hv. pose proof (ffrom_ok m vs Hv) as H. destruct (forward_from vs m) as [s m'|m'|]; [| |exact H].
  - destruct H as (k & H1 & -> & H2 & H3 & H4 & H5 & _). exists k. split; [exact H1|]. split; [|auto]. intros p Hp. assert (Hle : names m <= p) by (destruct Hp as [<-|Hp]; [lia | exact (H2 p Hp)]).
    destruct (object_at m p) eqn:E; [|reflexivity]. specialize (Hv p ltac:(congruence)). lia.
  - destruct H as (H1 & H2 & _). split; [exact H1|]. intros q Hq. apply H2, Hv, Hq.
Qed.
Print Assumptions C87_construct_from_range.
Theorem C87_copy_construct : forall V (m : fmemory V) t k, valid m -> forward_at m t k ->
  match forward_copy t m with
  | Returned s m' => exists l, map snd l = map snd k /\ object_at m s = None /\ (forall p, In p (names_of l) -> object_at m p = None) /\ valid m' /\ forward_at m' s l /\ forward_at m' t k /\ same_except (s :: names_of l) m m'
  | Threw m' => valid m' /\ kept m m'
  | Undefined => False
  end.
Proof. intros V m t k Hv Hk. exact (fcopy_ok m t k Hv Hk). Qed.
Print Assumptions C87_copy_construct.
Theorem C87_copy_assign : forall V (m : fmemory V) s l t k, valid m -> forward_at m s l -> forward_at m t k -> apart s l t k ->
  match forward_copy_assign s t m with
  | Returned _ m' => exists l', map snd l' = map snd k /\ (forall n, n <= length l -> n <= length k -> firstn n (names_of l') = firstn n (names_of l)) /\ valid m' /\ forward_at m' s l' /\ forward_at m' t k /\
      (forall p, In p (skipn (length k) (names_of l)) -> object_at m' p = None) /\ same_except (s :: names_of l ++ names_of l') m m' /\
      (forall p, In p (names_of l') -> In p (names_of l) \/ object_at m p = None)
  | Threw m' => exists l', valid m' /\ forward_at m' s l' /\ forward_at m' t k /\ same_except (s :: names_of l ++ names_of l') m m' /\
      (forall p, In p (names_of l) -> ~ In p (names_of l') -> object_at m' p = None) /\ (forall p, In p (names_of l') -> In p (names_of l) \/ object_at m p = None) /\
      firstn (length l) (names_of l') = names_of l /\
      exists i, i < length k /\ map snd l' = firstn i (map snd k) ++ skipn i (map snd l)
  | Undefined => False
  end.
Proof. intros V m s l t k Hv Hl Hk Hd. exact (fcopy_assign_ok m s l t k Hv Hl Hk Hd). Qed.
Print Assumptions C87_copy_assign.
Theorem C87_self_copy_assign : forall V (m : fmemory V) s, forward_copy_assign s s m = Returned tt m.
Proof. intros V m s. unfold forward_copy_assign. now rewrite Nat.eqb_refl. Qed.
Print Assumptions C87_self_copy_assign.
Definition forward_three : fmemory nat := match forward_from [10; 20; 30] (empty_memory (option nat) nat []) with Returned _ m => m | _ => empty_memory _ _ [] end.
Definition forward_five : fmemory nat := match forward_from [40; 50] forward_three with Returned _ m => m | _ => forward_three end.
Example C87_case : valid forward_five /\ forward_at forward_five 0 three_elements /\ forward_at forward_five 4 two_elements /\ apart 0 three_elements 4 two_elements.
Proof.
  split; [|split; [|split]].
  - intros p. do 7 (destruct p as [|p]; [vm_compute; intros _; lia|]). vm_compute. intros H. now contradiction H.
  - split; [eexists; vm_compute; reflexivity|]. split; [intros p v H; repeat (destruct H as [[= <- <-]|H]; [eexists; vm_compute; reflexivity|]); destruct H|]. split; [repeat constructor; cbn; lia|].
    cbv [linked_to_null three_elements names_of map fst]. repeat split; eexists; (split; [vm_compute; reflexivity | reflexivity]).
  - split; [eexists; vm_compute; reflexivity|]. split; [intros p v H; repeat (destruct H as [[= <- <-]|H]; [eexists; vm_compute; reflexivity|]); destruct H|]. split; [repeat constructor; cbn; lia|].
    cbv [linked_to_null two_elements names_of map fst]. repeat split; eexists; (split; [vm_compute; reflexivity | reflexivity]).
  - intros p. cbn. lia.
Qed.
Example C87_splice_case : exists m', splice_after 0 1 4 4 6 forward_five = Returned tt m' /\ forward_at m' 0 [(1, 10); (5, 40); (6, 50); (2, 20); (3, 30)] /\ forward_at m' 4 [].
Proof.
  destruct C87_case as (Hv & Hl & Hk & Ha). destruct (C87_splice_after nat forward_five 0 4 [(1, 10)] [(2, 20); (3, 30)] [] two_elements [] Hv Hl Hk Ha) as (m' & H1 & _ & H2 & H3 & _). exists m'. auto.
Qed.
