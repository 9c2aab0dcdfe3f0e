(** * The list with the interface of the standard library: properties C122 and C123 *)

From Coq Require Import List Arith Bool ZArith Lia.
From Verif Require Import LinkedList SpecList StdList SpecStdList LinkedListProofs LinkedListProofs2 LinkedListProofs3 LinkedListProofs4 LinkedListProofs5 StdListProofs StdListHistory PropsList.
Import ListNotations.
Local Open Scope nat_scope.
Local Notation bmemory := (memory (nat * nat)).

(** ** C122. A list is a sequence, and its size() is the number of its elements, whatever is called on it and wherever an exception comes from (see C123 for the
    operations for which this is false). *)

(** Every history of push_back, push_front, pop_back, pop_front, insert, erase, remove_if, clear and resize on a list, with any exceptions on the way: nothing is
    undefined, the elements are what these operations say, size() is their number, the nodes of all other elements are freed, and nothing else has changed. *)
Theorem C122_history : forall V (cs : list (list_call V)) z (m : bmemory V) s l, valid m -> sized_at z m s l -> all_permitted cs (map snd l) ->
  exists z' m' k, calls s cs z m = SReturned tt z' m' /\ history_ends cs (map snd l) (map snd k) /\ valid m' /\ sized_at z' m' s k /\ only_the_list s z m l z' m' k.
Proof.
  intros V cs z m s l Hv Hl Hp. destruct (calls_ok cs z m s l Hv Hl Hp) as (z' & m' & k & H1 & H2 & H3 & H4 & H5). exists z', m', k. auto.
Qed.
Print Assumptions C122_history.
(** The constructors from a range, from a count and a value, and from an initializer_list. Other than those of the lists of C85 they leave nothing behind when they throw. *)
Theorem C122_construct : forall V z (m : bmemory V) vs, valid m ->
  match sized_from vs z m with
  | SReturned s z' m' => exists k, map snd k = vs /\ (forall p, In p (s :: names_of k) -> object_at m p = None) /\ valid m' /\ sized_at z' m' s k /\ sizes_kept [] m z z' /\ same_except (s :: names_of k) m m'
  | SThrew z' m' => valid m' /\ unchanged m m' /\ sizes_kept [] m z z'
  | SUndefined => False
  end.
Proof.
  intros V z m vs Hv. pose proof (sized_from_ok z m vs Hv) as H. destruct (sized_from vs z m) as [s z' m'|z' m'|]; [| |exact H].
  - destruct H as (k & H1 & -> & H2 & H3 & H4 & H5 & H6 & _). exists k. split; [exact H1|]. split; [|split; [exact H3|split; [exact H4|split; [exact (below_kept _ _ _ _ Hv H5)|exact H6]]]].
    intros p Hp. assert (Hle : names m <= p) by (destruct Hp as [<-|Hp]; [lia|specialize (H2 p Hp); lia]). destruct (object_at m p) eqn:E; [|reflexivity]. specialize (Hv p ltac:(congruence)). lia.
  - destruct H as (H1 & H2 & H3). split; [exact H1|]. split; [exact H2|exact (below_kept _ _ _ _ Hv H3)].
Qed.
Print Assumptions C122_construct.
Theorem C122_copy_construct : forall V z (m : bmemory V) t k, valid m -> sized_at z m t k ->
  match sized_copy t z m with
  | SReturned s z' m' => exists l, map snd l = map snd k /\ object_at m s = None /\ (forall p, In p (names_of l) -> object_at m p = None) /\ valid m' /\ sized_at z' m' s l /\ sized_at z' m' t k /\
      sizes_kept [s] m z z' /\ same_except (s :: names_of l) m m'
  | SThrew z' m' => valid m' /\ kept m m' /\ z' = z
  | SUndefined => False
  end.
Proof.
  intros V z m t k Hv Hk. pose proof (sized_copy_ok z m t k Hv Hk) as H. destruct (sized_copy t z m) as [s z' m'|z' m'|]; [|exact H|exact H].
  destruct H as (l & H1 & H2 & H3 & H4 & H5 & H6 & H7 & H8). exists l. split; [exact H1|]. split; [exact H2|]. split; [exact H3|]. split; [exact H4|]. split; [exact H5|]. split; [exact H6|].
  split; [exact (below_kept _ _ _ _ Hv (others_below _ _ _ _ H7))|exact H8].
Qed.
Print Assumptions C122_copy_construct.
(** insert, with what it returns, and push_back and push_front, which return an iterator to the element *)
Theorem C122_insert : forall V z (m : bmemory V) s l1 l2 vs, valid m -> sized_at z m s (l1 ++ l2) ->
  match sized_insert s (first_of l2 s) vs z m with
  | SReturned r z' m' => r = first_of l2 s /\ exists k, map snd k = vs /\ (forall p, In p (names_of k) -> object_at m p = None) /\ valid m' /\ sized_at z' m' s (l1 ++ k ++ l2) /\ sizes_kept [s] m z z' /\
      same_except (s :: names_of (l1 ++ k ++ l2)) m m'
  | SThrew z' m' => valid m' /\ unchanged m m' /\ sizes_kept [] m z z'
  | SUndefined => False
  end.
Proof.
  intros V z m s l1 l2 vs Hv Hl. pose proof (sized_insert_ok z m s l1 l2 vs Hv Hl) as H. destruct (sized_insert s (first_of l2 s) vs z m) as [r z' m'|z' m'|]; [| |exact H].
  - destruct H as (H0 & k & H1 & H2 & H3 & H4 & H5 & H6). split; [exact H0|]. exists k. apply (below_kept _ _ _ _ Hv) in H5. auto 8.
  - destruct H as (H1 & H2 & H3). split; [exact H1|]. split; [exact H2|exact (below_kept _ _ _ _ Hv H3)].
Qed.
Print Assumptions C122_insert.
Theorem C122_push : forall V z (m : bmemory V) s l v, valid m -> sized_at z m s l ->
  match sized_push_back s v z m with
  | SReturned p z' m' => object_at m p = None /\ valid m' /\ sized_at z' m' s (l ++ [(p, v)])
  | SThrew z' m' => valid m' /\ unchanged m m' /\ sizes_kept [] m z z'
  | SUndefined => False
  end /\
  match sized_push_front s v z m with
  | SReturned p z' m' => object_at m p = None /\ valid m' /\ sized_at z' m' s ((p, v) :: l)
  | SThrew z' m' => valid m' /\ unchanged m m' /\ sizes_kept [] m z z'
  | SUndefined => False
  end.
Proof.
  intros V z m s l v Hv Hl. split.
  - pose proof (sized_push_back_ok z m s l v Hv Hl) as H. destruct (sized_push_back s v z m) as [p z' m'|z' m'|]; [| |exact H].
    + destruct H as (-> & H1 & H2 & _). split; [apply fresh, Hv|auto].
    + destruct H as (H1 & H2 & _ & ->). split; [exact H2|]. split; [intros q; apply H1; intros []|]. intros q _ _. reflexivity.
  - pose proof (sized_push_front_ok z m s l v Hv Hl) as H. destruct (sized_push_front s v z m) as [p z' m'|z' m'|]; [| |exact H].
    + destruct H as (H0 & H1 & H2 & _). auto.
    + destruct H as (H1 & H2 & H3). split; [exact H1|]. split; [exact H2|exact (below_kept _ _ _ _ Hv H3)].
Qed.
Print Assumptions C122_push.
(** erase returns an iterator to the element after the erased ones, remove_if the number of removed elements. *)
Theorem C122_erase : forall V z (m : bmemory V) s l1 l2 l3, valid m -> sized_at z m s (l1 ++ l2 ++ l3) ->
  exists z' m', sized_erase s (first_of (l2 ++ l3) s) (first_of l3 s) z m = SReturned (first_of l3 s) z' m' /\ valid m' /\ sized_at z' m' s (l1 ++ l3) /\ sizes_kept [s] m z z' /\
    (forall p, In p (names_of l2) -> object_at m' p = None) /\ same_except (s :: names_of (l1 ++ l2 ++ l3)) m m'.
Proof.
  intros V z m s l1 l2 l3 Hv Hl. destruct (sized_erase_ok z m s l1 l2 l3 Hv Hl) as (z' & m' & H1 & H2 & H3 & H4 & H5 & H6 & _). apply (below_kept _ _ _ _ Hv) in H4. exists z', m'. auto 8.
Qed.
Print Assumptions C122_erase.
Theorem C122_erase_one : forall V z (m : bmemory V) s l1 p v l3, valid m -> sized_at z m s (l1 ++ (p, v) :: l3) ->
  exists z' m', sized_erase_one s p z m = SReturned (first_of l3 s) z' m' /\ valid m' /\ sized_at z' m' s (l1 ++ l3) /\ sizes_kept [s] m z z' /\
    object_at m' p = None /\ same_except (s :: names_of (l1 ++ (p, v) :: l3)) m m'.
Proof.
  intros V z m s l1 p v l3 Hv Hl. destruct (sized_erase_one_ok z m s l1 p v l3 Hv Hl) as (z' & m' & H1 & H2 & H3 & H4 & H5 & H6 & _). apply (below_kept _ _ _ _ Hv) in H4. exists z', m'. auto 8.
Qed.
Print Assumptions C122_erase_one.
Theorem C122_remove_if : forall V (predicate : V -> bool) z (m : bmemory V) s l, valid m -> sized_at z m s l ->
  exists z' m', sized_remove_if s predicate z m = SReturned (length (filter (fun e => predicate (snd e)) l)) z' m' /\ valid m' /\
    sized_at z' m' s (filter (fun e => negb (predicate (snd e))) l) /\ sizes_kept [s] m z z' /\ (forall e, In e l -> predicate (snd e) = true -> object_at m' (fst e) = None) /\
    same_except (s :: names_of l) m m'.
Proof.
  intros V f z m s l Hv Hl. destruct (sized_remove_if_ok f z m s l Hv Hl) as (z' & m' & H1 & H2 & H3 & H4 & H5 & H6 & _). apply (below_kept _ _ _ _ Hv) in H4. exists z', m'. auto 8.
Qed.
Print Assumptions C122_remove_if.
(** splice: of a range, of an element, of a whole list; and within one list *)
Theorem C122_splice : forall V z (m : bmemory V) s t k1 k2 l1 l2 l3, valid m -> sized_at z m s (k1 ++ k2) -> sized_at z m t (l1 ++ l2 ++ l3) -> apart s (k1 ++ k2) t (l1 ++ l2 ++ l3) ->
  exists z' m', sized_splice s (first_of k2 s) t (first_of (l2 ++ l3) t) (first_of l3 t) z m = SReturned tt z' m' /\ valid m' /\
    sized_at z' m' s (k1 ++ l2 ++ k2) /\ sized_at z' m' t (l1 ++ l3) /\ sizes_kept [s; t] m z z' /\ same_except (s :: t :: names_of (k1 ++ k2) ++ names_of (l1 ++ l2 ++ l3)) m m'.
Proof.
  intros V z m s t k1 k2 l1 l2 l3 Hv Hs Ht Hd. destruct (sized_splice_ok z m s t k1 k2 l1 l2 l3 Hv Hs Ht Hd) as (z' & m' & H1 & _ & H2 & H3 & H4 & H5 & H6 & _). exists z', m'.
  split; [exact H1|]. split; [exact H2|]. split; [exact H3|]. split; [exact H4|]. split; [|exact H6]. intros q Hq _. apply H5; intros ->; apply Hq; [now left|right; now left].
Qed.
Print Assumptions C122_splice.
Theorem C122_splice_one : forall V z (m : bmemory V) s t k1 k2 l1 p v l3, valid m -> sized_at z m s (k1 ++ k2) -> sized_at z m t (l1 ++ (p, v) :: l3) -> apart s (k1 ++ k2) t (l1 ++ (p, v) :: l3) ->
  exists z' m', sized_splice_one s (first_of k2 s) t p z m = SReturned tt z' m' /\ valid m' /\
    sized_at z' m' s (k1 ++ (p, v) :: k2) /\ sized_at z' m' t (l1 ++ l3) /\ sizes_kept [s; t] m z z' /\ same_except (s :: t :: names_of (k1 ++ k2) ++ names_of (l1 ++ (p, v) :: l3)) m m'.
Proof.
  intros V z m s t k1 k2 l1 p v l3 Hv Hs Ht Hd. destruct (sized_splice_one_ok z m s t k1 k2 l1 p v l3 Hv Hs Ht Hd) as (z' & m' & H1 & H2 & H3 & H4 & H5 & H6). exists z', m'.
  split; [exact H1|]. split; [exact H2|]. split; [exact H3|]. split; [exact H4|]. split; [|exact H6]. intros q Hq _. apply H5; intros ->; apply Hq; [now left|right; now left].
Qed.
Print Assumptions C122_splice_one.
Theorem C122_splice_all : forall V z (m : bmemory V) s t k1 k2 l, valid m -> sized_at z m s (k1 ++ k2) -> sized_at z m t l -> apart s (k1 ++ k2) t l ->
  exists z' m', sized_splice_all s (first_of k2 s) t z m = SReturned tt z' m' /\ valid m' /\
    sized_at z' m' s (k1 ++ l ++ k2) /\ sized_at z' m' t [] /\ sizes_kept [s; t] m z z' /\ same_except (s :: t :: names_of (k1 ++ k2) ++ names_of l) m m'.
Proof.
  intros V z m s t k1 k2 l Hv Hs Ht Hd. destruct (sized_splice_all_ok z m s t k1 k2 l Hv Hs Ht Hd) as (z' & m' & H1 & H2 & H3 & H4 & H5 & H6 & _). exists z', m'.
  split; [exact H1|]. split; [exact H2|]. split; [exact H3|]. split; [exact H4|]. split; [|exact H6]. intros q Hq _. apply H5; intros ->; apply Hq; [now left|right; now left].
Qed.
Print Assumptions C122_splice_all.
(** Within a list. The missing case, a position that is the end of the range, is undefined: C82_splice_position_at_end_of_range_refuted. *)
Theorem C122_splice_within_partial : forall V z (m : bmemory V) s l1 l2 l3 l4, valid m -> sized_at z m s (l1 ++ l2 ++ l3 ++ l4) ->
  (l3 <> [] -> exists m', sized_splice s (first_of l4 s) s (first_of (l2 ++ l3 ++ l4) s) (first_of (l3 ++ l4) s) z m = SReturned tt z m' /\ valid m' /\
    sized_at z m' s (l1 ++ l3 ++ l2 ++ l4) /\ same_except (s :: names_of (l1 ++ l2 ++ l3 ++ l4)) m m') /\
  (l2 <> [] -> exists m', sized_splice s (first_of (l2 ++ l3 ++ l4) s) s (first_of (l3 ++ l4) s) (first_of l4 s) z m = SReturned tt z m' /\ valid m' /\
    sized_at z m' s (l1 ++ l3 ++ l2 ++ l4) /\ same_except (s :: names_of (l1 ++ l2 ++ l3 ++ l4)) m m').
Proof.
  intros V z m s l1 l2 l3 l4 Hv Hl. unfold sized_splice. rewrite Nat.eqb_refl. assert (E : length (l1 ++ l3 ++ l2 ++ l4) = length (l1 ++ l2 ++ l3 ++ l4)) by (rewrite !app_length; lia).
  destruct (C82_splice_within_partial V m s l1 l2 l3 l4 Hv (proj1 Hl)) as (A & B). split; intros Hne; [destruct (A Hne) as (m' & H1 & H2 & H3 & H4)|destruct (B Hne) as (m' & H1 & H2 & H3 & H4)];
    exists m'; (split; [exact (lift_returned _ _ _ _ _ H1)|]; split; [exact H2|]; split; [split; [exact H3|rewrite E; apply Hl]|exact H4]).
Qed.
Print Assumptions C122_splice_within_partial.
Theorem C122_swap : forall V z (m : bmemory V) s t l k, valid m -> sized_at z m s l -> sized_at z m t k -> apart s l t k ->
  exists z' m', sized_swap s t z m = SReturned tt z' m' /\ valid m' /\ sized_at z' m' s k /\ sized_at z' m' t l /\ sizes_kept [s; t] m z z' /\ same_except (s :: t :: names_of l ++ names_of k) m m'.
Proof.
  intros V z m s t l k Hv Hs Ht Hd. destruct (sized_swap_ok z m s t l k Hv Hs Ht Hd) as (z' & m' & H1 & H2 & H3 & H4 & H5 & H6). exists z', m'.
  split; [exact H1|]. split; [exact H2|]. split; [exact H3|]. split; [exact H4|]. split; [|exact H6]. intros q Hq _. apply H5; intros ->; apply Hq; [now left|right; now left].
Qed.
Print Assumptions C122_swap.
(** A copy assignment that returns. *)
Theorem C122_copy_assign_partial : forall V z (m : bmemory V) s l t k, valid m -> sized_at z m s l -> sized_at z m t k -> apart s l t k ->
  match sized_copy_assign s t z m with
  | SReturned _ z' m' => exists l', map snd l' = map snd k /\ valid m' /\ sized_at z' m' s l' /\ sized_at z' m' t k /\ sizes_kept [s] m z z'
  | SThrew _ _ => True
  | SUndefined => False
  end.
Proof.
  intros V z m s l t k Hv Hl Hk Hd. unfold sized_copy_assign. pose proof (copy_assign_ok m s l t k Hv (proj1 Hl) (proj1 Hk) Hd) as H. destruct (list_copy_assign s t m) as [u m'|m'|] eqn:E; [| |contradiction].
  - rewrite (lift_bind _ _ _ _ _ _ E), size_bind. change (set_size s (z t) z m') with (SReturned (V := V) tt (upd z s (z t)) m'). cbv iota. destruct H as (l' & H1 & _ & H2 & H3 & H4 & _). assert (Hne : t <> s) by (intros ->; apply (Hd s); now left).
    assert (Hlen : length l' = length k) by (rewrite <- (map_length snd l'), H1, map_length; reflexivity). exists l'. split; [exact H1|]. split; [exact H2|].
    split; [split; [exact H3|]|split; [split; [exact H4|]|]].
    + rewrite upd_same, (proj2 Hk), Hlen. apply wrap_wrap.
    + rewrite upd_other by exact Hne. apply Hk.
    + intros q Hq _. apply upd_other. intros ->. apply Hq. now left.
  - now rewrite (lift_threw _ _ _ _ _ E).
Qed.
Print Assumptions C122_copy_assign_partial.

(** Two lists that the constructors make *)
Definition no_sizes : sizes := fun _ => 0%Z.
Definition with_two (script : list bool) : sizes * bmemory nat :=
  match sbind (sized_from [10; 20; 30]) (fun _ => sized_from [40; 50]) no_sizes (empty_memory (nat * nat) nat []) with
  | SReturned _ z m => (z, Memory (object_at m) (names m) script)
  | _ => (no_sizes, empty_memory _ _ [])
  end.
Example C122_two : forall script, valid (snd (with_two script)) /\ sized_at (fst (with_two script)) (snd (with_two script)) 0 three_elements /\ sized_at (fst (with_two script)) (snd (with_two script)) 4 two_elements /\
  apart 0 three_elements 4 two_elements.
Proof.
  destruct C80_three as (Hv & Hl & Hk & Ha). intros script.
  assert (E : forall q, object_at (snd (with_two script)) q = object_at five q) by (intros q; do 7 (destruct q as [|q]; [vm_compute; reflexivity|]); vm_compute; reflexivity).
  split; [intros p Hp; rewrite E in Hp; apply Hv in Hp; exact Hp|]. split; [|split; [|exact Ha]]; (split; [eapply list_at_same; [eassumption|intros p _; apply E]|vm_compute; reflexivity]).
Qed.
(** A history in which an insertion throws. *)
Definition some_calls : list (list_call nat) := [Push_front 5; Insert 2 [12; 13]; Insert 1 [7; 8]; Erase 1 1; Pop_back; Resize 6 0].
Example C122_history_case : all_permitted some_calls (map snd three_elements) /\
  match calls 0 some_calls (fst (with_two [false; false; false; false; false; true])) (snd (with_two [false; false; false; false; false; true])) with
  | SReturned _ z m => z 0 = 6%Z
  | _ => False
  end.
Proof.
  split; [|vm_compute; reflexivity].
  cbn [some_calls three_elements map snd all_permitted permitted values_after values_after_throw length app firstn skipn Nat.sub Nat.add].
  repeat (split; [first [exact I|lia|discriminate]|]). 
  repeat match goal with
  | |- _ /\ _ => split
  | |- forall ws, _ -> _ => intros ws H; first [destruct H as (i & H & ->)|subst ws|destruct H]; cbn [length app firstn skipn Nat.sub Nat.add] in *
  | |- True => exact I
  | |- _ <> [] => discriminate
  | |- _ <= _ => cbn; lia
  | |- (_ < _)%Z => cbn; lia
  end.
Qed.

(** ** C123. size() is the number of elements, a moved-from list can be used, resize, sort, reverse, merge, unique and rbegin() do what they do in std::list. False. *)
Lemma pop_back_empty {V} (m : bmemory V) s : list_at m s [] -> list_pop_back s m = Undefined.
Proof.
  intros Hl. assert (Hp : get_previous s m = Returned s m) by exact (previous_ok m s [] [] Hl). destruct Hl as ((k & Hk) & _). revert Hp.
  unfold list_pop_back, unlink_range, list_end, set_next, set_previous, get_previous, links, set_links, destroy_node, bind, ret. rewrite Hk. destruct k as (a, b). cbn [fst snd]. intros [= ->].
  repeat (rewrite ?Hk; cbn [fst snd object_at set_object]; rewrite ?Nat.eqb_refl). reflexivity.
Qed.
(** A moved-from list has no elements, and its size() is what it was. *)
Theorem C123_move_construct_refuted : forall V z (m : bmemory V) t k, valid m -> sized_at z m t k ->
  exists s z' m', sized_move t z m = SReturned s z' m' /\ object_at m s = None /\ valid m' /\ sized_at z' m' s k /\
    list_at m' t [] /\ z' t = (Z.of_nat (length k) mod 2 ^ 64)%Z.
Proof.
  intros V z m t k Hv Hk. destruct (move_ok m t k Hv (proj1 Hk)) as (s & m' & H1 & H2 & H3 & H4 & H5 & _). unfold sized_move. rewrite (lift_bind _ _ _ _ _ _ H1), size_bind, set_bind.
  assert (Hne : t <> s) by (intros ->; destruct Hk as (((j & Hj) & _) & _); congruence). exists s, (upd z s (z t)), m'. split; [reflexivity|]. split; [exact H2|]. split; [exact H3|].
  split; [split; [exact H4|rewrite upd_same, (proj2 Hk); apply wrap_wrap]|]. split; [exact H5|]. rewrite upd_other by exact Hne. apply Hk.
Qed.
Print Assumptions C123_move_construct_refuted.
(** A move assignment exchanges the elements but not the counts. *)
Theorem C123_move_assign_refuted : forall V z (m : bmemory V) s l t k, valid m -> sized_at z m s l -> sized_at z m t k -> apart s l t k ->
  exists z' m', sized_move_assign s t z m = SReturned tt z' m' /\ valid m' /\ sized_at z' m' s k /\ list_at m' t l /\ z' t = (Z.of_nat (length k) mod 2 ^ 64)%Z.
Proof.
  intros V z m s l t k Hv Hl Hk Hd. destruct (swap_ok m s t l k Hv (proj1 Hl) (proj1 Hk) Hd) as (m' & H1 & H2 & H3 & H4 & _). unfold sized_move_assign, list_move_assign. rewrite (lift_bind _ _ _ _ _ _ H1), size_bind.
  assert (Hne : t <> s) by (intros ->; apply (Hd s); now left). exists (upd z s (z t)), m'. split; [reflexivity|]. split; [exact H2|].
  split; [split; [exact H3|rewrite upd_same, (proj2 Hk); apply wrap_wrap]|]. split; [exact H4|]. rewrite upd_other by exact Hne. apply Hk.
Qed.
Print Assumptions C123_move_assign_refuted.
(** To resize a moved-from list to no elements is undefined. *)
Theorem C123_resize_moved_from_refuted : forall V z (m : bmemory V) t k v, valid m -> sized_at z m t k -> k <> [] -> (Z.of_nat (length k) < 2 ^ 64)%Z ->
  sbind (sized_move t) (fun _ => sized_resize t 0 v) z m = SUndefined.
Proof.
  intros V z m t k v Hv Hk Hne Hb. destruct (C123_move_construct_refuted V z m t k Hv Hk) as (s & z' & m' & H1 & _ & _ & _ & H2 & H3). rewrite (sbind_returned _ _ _ _ _ _ _ H1).
  unfold sized_resize. rewrite size_bind, H3, Z.mod_small by lia. rewrite (proj2 (Z.leb_le _ _)) by lia. unfold swith_fuel. cbn [sized_shrink]. rewrite size_bind, H3, Z.mod_small by lia.
  rewrite (proj2 (Z.eqb_neq _ _)) by (destruct k; [congruence|cbn [length]; lia]). unfold sized_pop_back, sbind at 1, lift. unfold sbind. now rewrite (pop_back_empty m' t H2).
Qed.
Print Assumptions C123_resize_moved_from_refuted.
(** A copy assignment that throws can leave a list of two elements whose size() is 1. *)
Definition with_three_and_one : sizes * bmemory nat :=
  match sbind (sized_from [10; 20; 30]) (fun _ => sized_from [40]) no_sizes (empty_memory (nat * nat) nat []) with
  | SReturned _ z m => (z, Memory (object_at m) (names m) [false; false; false; true])
  | _ => (no_sizes, empty_memory _ _ [])
  end.
Local Ltac concrete_list :=
  split; [eexists; vm_compute; reflexivity|]; split; [intros p v H; repeat (destruct H as [[= <- <-]|H]; [eexists; vm_compute; reflexivity|]); destruct H|]; split;
  [repeat constructor; cbn; lia | cbv [names_of map fst app three_elements two_elements linked]; repeat split; vm_compute; reflexivity].
Theorem C123_copy_assign_refuted : exists z (m : bmemory nat) s l t k z' m' l',
  valid m /\ sized_at z m s l /\ sized_at z m t k /\ apart s l t k /\ sized_copy_assign s t z m = SThrew z' m' /\ list_at m' s l' /\ length l' = 2 /\ z' s = 1%Z.
Proof.
  destruct (sized_copy_assign 4 0 (fst with_three_and_one) (snd with_three_and_one)) as [u z' m'|z' m'|] eqn:E; [vm_compute in E; discriminate| |vm_compute in E; discriminate].
  exists (fst with_three_and_one), (snd with_three_and_one), 4, [(5, 40)], 0, three_elements, z', m', [(5, 10); (7, 20)].
  assert (Ez : z' 4 = match sized_copy_assign 4 0 (fst with_three_and_one) (snd with_three_and_one) with SThrew z _ => z 4 | _ => 0%Z end) by now rewrite E.
  assert (Em : m' = match sized_copy_assign 4 0 (fst with_three_and_one) (snd with_three_and_one) with SThrew _ m => m | _ => empty_memory (nat * nat) nat [] end) by now rewrite E.
  split; [intros p; do 6 (destruct p as [|p]; [vm_compute; intros _; lia|]); vm_compute; intros H; now contradiction H|].
  split; [split; [concrete_list|vm_compute; reflexivity]|]. split; [split; [concrete_list|vm_compute; reflexivity]|]. split; [intros p; cbn; lia|]. split; [exact E|].
  split; [|split; [reflexivity|rewrite Ez; vm_compute; reflexivity]]. rewrite Em. clear. idtac. concrete_list.
Qed.
Print Assumptions C123_copy_assign_refuted.
(** sort, reverse, merge and unique do nothing, so that a list is not sorted, reversed, merged with another or free of repetition after them. *)
Theorem C123_not_implemented_refuted : forall V z (m : bmemory V) s t less equal,
  sized_sort s less z m = SReturned tt z m /\ sized_reverse s z m = SReturned tt z m /\ sized_merge s t less z m = SReturned tt z m /\ sized_unique s equal z m = SReturned 0%Z z m.
Proof. intros. repeat split. Qed.
Print Assumptions C123_not_implemented_refuted.
Theorem C123_reverse_refuted : exists z (m : bmemory nat) s l z' m', valid m /\ sized_at z m s l /\ sized_reverse s z m = SReturned tt z' m' /\ sized_at z' m' s l /\ map snd l <> rev (map snd l).
Proof.
  destruct (C122_two []) as (Hv & Hl & _). do 3 eexists. exists three_elements. do 2 eexists. split; [exact Hv|]. split; [exact Hl|]. split; [reflexivity|]. split; [exact Hl|]. cbn. congruence.
Qed.
Print Assumptions C123_reverse_refuted.
(** What rbegin() of a list refers to is no element. *)
Theorem C123_rbegin_refuted : forall V z (m : bmemory V) s l, sized_at z m s l -> sized_read_rbegin s z m = SUndefined.
Proof.
  intros V z m s l (Hl & _). unfold sized_read_rbegin, lift. rewrite (bind_returned _ _ _ _ _ (begin_ok m s l Hl)), (bind_returned _ _ _ _ _ (previous_ok m s [] l Hl)).
  destruct Hl as ((k & Hk) & _). unfold value. cbn [last_place SpecList.names_of map last]. now rewrite Hk.
Qed.
Print Assumptions C123_rbegin_refuted.
Example C123_case : match sized_move 0 (fst (with_two [])) (snd (with_two [])) with
  | SReturned s z m => (s, z s, z 0, list_is_empty 0 m) = (7, 3%Z, 3%Z, Returned true m)
  | _ => False
  end.
Proof. vm_compute. reflexivity. Qed.
