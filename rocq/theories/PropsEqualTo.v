(** * C158. Removing the elements that are equal to a value *)

From Coq Require Import List Arith Bool ZArith Lia.
From Verif Require Import LinkedList SpecList StdList SpecStdList LinkedListProofs LinkedListProofs2 LinkedListProofs3 LinkedListProofs4 LinkedListProofs5 StdListProofs PropsList PropsStdList EqualTo.
Import ListNotations.
Local Open Scope nat_scope.

(** ** remove of a list *)
Lemma filter_names {V} (f : nat * V -> bool) l r : In r (map fst (filter f l)) -> In r (map fst l).
Proof. rewrite !in_map_iff. intros (e & He & Hi). apply filter_In in Hi. exists e. tauto. Qed.
Section Loop.
Context {V : Type} (equal : V -> V -> bool).
Local Notation memory := (memory (nat * nat) V).

Lemma value_node (m : memory) p links v : object_at m p = Some (Node links v) -> value p m = Returned v m.
Proof. intros H. unfold value. now rewrite H. Qed.

(** The elements [l2], up to the ones [rest], while the value is there *)
Lemma remove_prefix bound b s rest l2 : forall z (m : memory) l1 fuel count, valid m -> sized_at z m s (l1 ++ l2 ++ rest) ->
  (exists links, object_at m bound = Some (Node links b)) -> ~ In bound (names_of l2) ->
  exists z' m' count', sized_remove_loop equal (length l2 + fuel) bound s (first_of (l2 ++ rest) s) count z m = sized_remove_loop equal fuel bound s (first_of rest s) count' z' m' /\
    count' = count + length (filter (fun e => equal b (snd e)) l2) /\ valid m' /\
    sized_at z' m' s (l1 ++ filter (fun e => negb (equal b (snd e))) l2 ++ rest) /\ below [s] m z z' /\
    (exists links, object_at m' bound = Some (Node links b)) /\
    same_except (s :: names_of (l1 ++ l2 ++ rest)) m m' /\ names m <= names m'.
Proof.
  induction l2 as [|(p, v) l2 IH]; intros z m l1 fuel count Hv Hl Hb Hn.
  - exists z, m, count. cbn. split; [reflexivity|]. split; [lia|]. split; [exact Hv|]. split; [exact Hl|]. split; [apply below_refl|]. split; [exact Hb|]. split; [intros q _; reflexivity|lia].
  - assert (Hps : p <> s) by (eapply not_sentinel; [apply Hl|]; rewrite names_app; apply in_or_app; right; now left).
    cbn [app length Nat.add sized_remove_loop first_of fst]. unfold list_end. rewrite (proj2 (Nat.eqb_neq p s) Hps).
    destruct Hb as [links Hb]. rewrite (lift_bind _ _ _ _ _ _ (value_node m bound links b Hb)).
    rewrite (lift_bind _ _ _ _ _ _ (value_ok m s _ p v (proj1 Hl) ltac:(apply in_or_app; right; now left))).
    change (~ (p = bound \/ In bound (names_of l2))) in Hn. cbn [filter snd]. destruct (equal b v) eqn:Ev; cbn [negb length].
    + destruct (sized_erase_one_ok z m s l1 p v (l2 ++ rest) Hv Hl) as (z1 & m1 & H1 & Hv1 & Hl1 & Hz1 & Ho1 & Hs1 & Hn1). rewrite (sbind_returned _ _ _ _ _ _ _ H1).
      assert (Hb1 : exists links', object_at m1 bound = Some (Node links' b)).
      { destruct (in_dec Nat.eq_dec bound (names_of (l1 ++ (p, v) :: l2 ++ rest))) as [Hi|Hi].
        - assert (Hib : In (bound, b) (l1 ++ l2 ++ rest)).
          { unfold names_of in Hi. apply in_map_iff in Hi as ([q u] & Hq & Hi). cbn in Hq. subst q.
            destruct (proj1 (proj2 (proj1 Hl)) _ _ Hi) as [links' Hq]. rewrite Hb in Hq. injection Hq as _ <-.
            apply in_app_iff in Hi as [Hi|[Hi|Hi]]; [apply in_app_iff; now left| |apply in_app_iff; now right].
            injection Hi as -> _. contradiction Hn. now left. }
          exact (proj1 (proj2 (proj1 Hl1)) _ _ Hib).
        - exists links. rewrite Hs1; [exact Hb|]. intros [->|Hi']; [|contradiction]. destruct (proj1 (proj1 Hl)) as [ls Hls]. congruence. }
      destruct (IH z1 m1 l1 fuel (S count) Hv1 Hl1 Hb1 ltac:(tauto)) as (z2 & m2 & c & H2 & Hc & Hv2 & Hl2 & Hz2 & Hb2 & Hs2 & Hn2).
      exists z2, m2, c. split; [exact H2|]. split; [lia|]. split; [exact Hv2|]. split; [exact Hl2|]. split; [eapply below_trans; eassumption|]. split; [exact Hb2|]. split; [|lia].
      eapply same_weaken; [eapply same_trans; [exact Hs1|exact Hs2]|]. intros q. unfold names_of. rewrite !map_app. cbn [map fst In]. rewrite !map_app. cbn [map fst In]. rewrite !in_app_iff. cbn [In]. rewrite !in_app_iff.
      cbn [In]. rewrite ?in_app_iff. tauto.
    + rewrite (lift_bind _ _ _ _ _ _ (next_ok m s l1 p v (l2 ++ rest) (proj1 Hl))).
      destruct (IH z m (l1 ++ [(p, v)]) fuel count Hv) as (z2 & m2 & c & H2 & Hc & Hv2 & Hl2 & Hz2 & Hb2 & Hs2 & Hn2); [rewrite <- app_assoc; exact Hl|eexists; exact Hb|tauto|].
      rewrite <- app_assoc in Hl2, Hs2. exists z2, m2, c. auto 9.
Qed.
End Loop.

Local Notation bmemory V := (memory (nat * nat) V).
(** A value that lives elsewhere, in another list for instance: the elements that are equal to it are removed. *)
Theorem C158_list_other : forall V (equal : V -> V -> bool) z (m : bmemory V) s l bound links b, valid m -> sized_at z m s l ->
  object_at m bound = Some (Node links b) -> ~ In bound (names_of l) ->
  exists z' m', sized_remove equal s bound z m = SReturned (length (filter (fun e => equal b (snd e)) l)) z' m' /\ valid m' /\
    sized_at z' m' s (filter (fun e => negb (equal b (snd e))) l) /\ sizes_kept [s] m z z' /\ same_except (s :: names_of l) m m'.
Proof.
  intros V equal z m s l bound links b Hv Hl Hb Hn. unfold sized_remove. rewrite (lift_bind _ _ _ _ _ _ (begin_ok m s l (proj1 Hl))).
  pose proof (list_length m s l Hv (proj1 Hl)) as Hlen. unfold swith_fuel. replace (S (names m)) with (length l + S (names m - length l)) by lia.
  destruct (remove_prefix equal bound b s [] l z m [] (S (names m - length l)) 0 Hv) as (z' & m' & c & H1 & Hc & H2 & H3 & H4 & H5 & H6 & H7); [now rewrite app_nil_r|eauto|exact Hn|].
  rewrite !app_nil_r in H1. rewrite !app_nil_r in H3. cbn [app first_of] in *. rewrite app_nil_r in H6. exists z', m'. rewrite H1. cbn [sized_remove_loop]. unfold list_end. rewrite Nat.eqb_refl.
  split; [unfold sret; f_equal; lia|]. split; [exact H2|]. split; [exact H3|]. split; [exact (below_kept _ _ _ _ Hv H4)|exact H6].
Qed.
Print Assumptions C158_list_other.

(** An element of the list itself: when an element follows it, it is compared with one that is destroyed. Otherwise all is well. *)
Theorem C158_list_own_exactly : forall V (equal : V -> V -> bool) z (m : bmemory V) s l1 p v l2, valid m -> sized_at z m s (l1 ++ (p, v) :: l2) -> equal v v = true ->
  (l2 <> [] -> sized_remove equal s p z m = SUndefined) /\
  (l2 = [] -> exists z' m', sized_remove equal s p z m = SReturned (length (filter (fun e => equal v (snd e)) l1) + 1) z' m' /\ valid m' /\
    sized_at z' m' s (filter (fun e => negb (equal v (snd e))) l1) /\ sizes_kept [s] m z z' /\ same_except (s :: names_of (l1 ++ [(p, v)])) m m').
Proof.
  intros V equal z m s l1 p v l2 Hv Hl He. unfold sized_remove. rewrite (lift_bind _ _ _ _ _ _ (begin_ok m s _ (proj1 Hl))).
  pose proof (list_length m s _ Hv (proj1 Hl)) as Hlen. rewrite app_length in Hlen. cbn [length] in Hlen. unfold swith_fuel.
  replace (S (names m)) with (length l1 + S (S (names m - length l1 - 1))) by lia.
  assert (Hp : exists links, object_at m p = Some (Node links v)) by (apply (proj1 (proj2 (proj1 Hl))); apply in_or_app; right; now left).
  assert (Hn : ~ In p (names_of l1)).
  { destruct (proj1 Hl) as (_ & _ & N & _). rewrite names_app in N. cbn in N. inversion N as [|? ? _ N']; subst. apply NoDup_remove_2 in N'. intros H. apply N'. apply in_or_app. now left. }
  destruct (remove_prefix equal p v s ((p, v) :: l2) l1 z m [] (S (S (names m - length l1 - 1))) 0 Hv Hl Hp Hn) as (z1 & m1 & c & H1 & Hc & Hv1 & Hl1 & Hz1 & [links Hb1] & Hs1 & Hn1).
  rewrite H1. clear H1. cbn [app] in Hl1, Hs1. remember (S (names m - length l1 - 1)) as fuel. cbn [sized_remove_loop first_of fst].
  assert (Hps : p <> s) by (eapply not_sentinel; [apply Hl|]; rewrite names_app; apply in_or_app; right; now left).
  unfold list_end at 1 2. rewrite (proj2 (Nat.eqb_neq p s) Hps), !(lift_bind _ _ _ _ _ _ (value_node m1 p links v Hb1)), He.
  destruct (sized_erase_one_ok z1 m1 s _ p v l2 Hv1 Hl1) as (z2 & m2 & H2 & Hv2 & Hl2 & Hz2 & Ho2 & Hs2 & Hn2). rewrite !(sbind_returned _ _ _ _ _ _ _ H2).
  subst fuel. cbn [sized_remove_loop]. unfold list_end. split.
  - intros H. destruct l2 as [|(q, u) l2]; [contradiction|]. cbn [first_of fst].
    assert (Hq : q <> s) by (eapply not_sentinel; [apply Hl|]; rewrite names_app; apply in_or_app; right; right; now left).
    rewrite (proj2 (Nat.eqb_neq q s) Hq). unfold sbind, lift, value. now rewrite Ho2.
  - intros ->. cbn [first_of]. rewrite Nat.eqb_refl. rewrite app_nil_r in Hl2. exists z2, m2. split; [unfold sret; f_equal; lia|]. split; [exact Hv2|]. split; [exact Hl2|].
    split; [apply (below_kept _ _ _ _ Hv); eapply below_trans; eassumption|].
    eapply same_weaken; [eapply same_trans; [exact Hs1|exact Hs2]|]. intros r. unfold names_of. rewrite !map_app. cbn [map fst In]. rewrite !in_app_iff. cbn [In].
    pose proof (filter_names (fun e => negb (equal v (snd e))) l1 r) as Hf. rewrite ?in_app_iff in *. cbn [map fst In] in *. tauto.
Qed.
Print Assumptions C158_list_own_exactly.

(** Three elements, 10, 20 and 30 (C122_two has such a list): removing the last one by a reference to it works, removing the first one does not. *)
Example C158_list_case : forall z m, valid m -> sized_at z m 0 three_elements ->
  sized_remove Nat.eqb 0 1 z m = SUndefined /\ exists z' m', sized_remove Nat.eqb 0 3 z m = SReturned 1 z' m' /\ z' 0 = 2%Z /\ list_at m' 0 [(1, 10); (2, 20)].
Proof.
  intros z m Hv Hl. split.
  - apply (proj1 (C158_list_own_exactly nat Nat.eqb z m 0 [] 1 10 [(2, 20); (3, 30)] Hv Hl eq_refl)). discriminate.
  - destruct (proj2 (C158_list_own_exactly nat Nat.eqb z m 0 [(1, 10); (2, 20)] 3 30 [] Hv Hl eq_refl) eq_refl) as (z' & m' & H & _ & [Hl' Hz] & _).
    exists z', m'. split; [exact H|]. split; [rewrite Hz; reflexivity|exact Hl'].
Qed.
(** The value is an element of another list. *)
Example C158_list_other_case : forall z m, valid m -> sized_at z m 0 three_elements -> sized_at z m 4 two_elements ->
  exists z' m', sized_remove Nat.eqb 0 5 z m = SReturned 0 z' m' /\ list_at m' 0 three_elements.
Proof.
  intros z m Hv Hl Hk. destruct (proj1 (proj2 (proj1 Hk)) 5 40 ltac:(now left)) as [links H5].
  destruct (C158_list_other nat Nat.eqb z m 0 three_elements 5 links 40 Hv Hl H5) as (z' & m' & H & _ & [Hl' _] & _).
  { cbn [names_of three_elements map fst In]. lia. }
  exists z', m'. split; [exact H|exact Hl'].
Qed.
(** So remove does not remove the elements that are equal to the value whenever the value is an element of the list. *)
Theorem C158_list_own_refuted : ~ forall V (equal : V -> V -> bool) z (m : bmemory V) s l p v, valid m -> sized_at z m s l -> (forall a, equal a a = true) -> In (p, v) l ->
  exists z' m', sized_remove equal s p z m = SReturned (length (filter (fun e => equal v (snd e)) l)) z' m'.
Proof.
  intros H. destruct (C122_two []) as (Hv & Hl & _). revert Hv Hl. generalize (fst (with_two [])) as z. generalize (snd (with_two [])) as m. intros m z Hv Hl.
  destruct (H nat Nat.eqb z m 0 three_elements 1 10 Hv Hl Nat.eqb_refl ltac:(now left)) as (z' & m' & H').
  rewrite (proj1 (C158_list_case z m Hv Hl)) in H'. discriminate.
Qed.
Print Assumptions C158_list_own_refuted.

(** ** erase of an inplace_vector *)
(** What a client who knows the code expects when the value is an element: the elements are compared with [x] until one more than [j] of them have been kept; the
    last of these takes the place of the element, and the others are compared with it. *)
Fixpoint compared_with_own {V} (equal : V -> V -> bool) (j : nat) (x : V) (vs : list V) : list V :=
  match vs with
  | [] => []
  | v :: vs =>
      if equal x v then compared_with_own equal j x vs
      else match j with
           | 0 => v :: filter (fun u => negb (equal v u)) vs
           | S j => v :: compared_with_own equal j x vs
           end
  end.

Section Vector.
Context {V : Type} (equal : V -> V -> bool) (moved : V -> V).

Lemma set_middle (l1 : list V) a l2 v : set_nth (l1 ++ a :: l2) (length l1) v = l1 ++ v :: l2.
Proof. induction l1 as [|b l1 IH]; cbn; [reflexivity|now rewrite IH]. Qed.
Lemma nth_middle' (l1 : list V) a l2 : nth_error (l1 ++ a :: l2) (length l1) = Some a.
Proof. rewrite nth_error_app2, Nat.sub_diag by lia. reflexivity. Qed.
(** *new_last = std::move( *it ) *)
Lemma set_both (done : list V) a junk v todo :
  set_nth (set_nth (done ++ (a :: junk) ++ v :: todo) (length done) v) (length done + length (a :: junk)) (moved v) = (done ++ [v]) ++ (junk ++ [moved v]) ++ todo.
Proof.
  cbn [app]. rewrite set_middle. replace (done ++ v :: junk ++ v :: todo) with ((done ++ v :: junk) ++ v :: todo) by (now rewrite <- app_assoc).
  replace (length done + length (a :: junk)) with (length (done ++ v :: junk)) by (rewrite app_length; reflexivity). rewrite set_middle. rewrite <- !app_assoc. reflexivity.
Qed.
Lemma it_at (done junk : list V) v todo : nth_error (done ++ junk ++ v :: todo) (length done + length junk) = Some v.
Proof. rewrite app_assoc, <- app_length. apply nth_middle'. Qed.

Lemma compact_constant r x todo : forall done junk, junk <> [] -> (forall rest, read (done ++ rest) r = Some x) ->
  let '(cells, n) := compact equal moved r (length todo) (done ++ junk ++ todo) (length done) (length done + length junk) in
  firstn n cells = done ++ filter (fun v => negb (equal x v)) todo.
Proof.
  induction todo as [|v todo IH]; intros done junk Hj Hr; cbn [length compact].
  - rewrite firstn_app, Nat.sub_diag, firstn_all. cbn. now rewrite app_nil_r.
  - rewrite it_at. unfold matches. rewrite Hr. cbn [filter]. destruct (equal x v); cbn [negb].
    + specialize (IH done (junk ++ [v])). rewrite <- app_assoc in IH. cbn [app] in IH. rewrite app_length in IH. cbn [length] in IH.
      replace (length done + (length junk + 1)) with (S (length done + length junk)) in IH by lia. apply IH; [destruct junk; discriminate|exact Hr].
    + destruct junk as [|a junk]; [contradiction|]. rewrite set_both. specialize (IH (done ++ [v]) (junk ++ [moved v])).
      rewrite <- (app_assoc done [v] (filter _ _)) in IH. cbn [app] in IH. rewrite !app_length in IH. cbn [length] in IH.
      replace (length done + 1) with (S (length done)) in IH by lia. replace (S (length done) + (length junk + 1)) with (S (length done + S (length junk))) in IH by lia.
      apply IH; [destruct junk; discriminate|]. intros rest. rewrite <- app_assoc. apply Hr.
Qed.

Lemma set_nth_other (cells : list V) i k v : i <> k -> nth_error (set_nth cells k v) i = nth_error cells i.
Proof. revert i k. induction cells as [|c cells IH]; intros [|i] [|k] H; cbn; try reflexivity; [lia|]. apply IH. lia. Qed.

Lemma compact_own i x todo : equal x x = true -> forall done junk, junk <> [] -> nth_error (done ++ junk ++ todo) i = Some x -> length done <= i ->
  let '(cells, n) := compact equal moved (Element i) (length todo) (done ++ junk ++ todo) (length done) (length done + length junk) in
  firstn n cells = done ++ compared_with_own equal (i - length done) x todo.
Proof.
  intros Hx. induction todo as [|v todo IH]; intros done junk Hj Hr Hi; cbn [length compact].
  - rewrite firstn_app, Nat.sub_diag, firstn_all. reflexivity.
  - rewrite it_at. unfold matches, read. rewrite Hr. cbn [compared_with_own]. destruct (equal x v) eqn:Ev.
    + specialize (IH done (junk ++ [v])). rewrite <- app_assoc in IH. cbn [app] in IH. rewrite app_length in IH. cbn [length] in IH.
      replace (length done + (length junk + 1)) with (S (length done + length junk)) in IH by lia. apply IH; [destruct junk; discriminate|exact Hr|exact Hi].
    + assert (Hit : i <> length done + length junk) by (intros ->; rewrite it_at in Hr; congruence).
      destruct junk as [|a junk]; [contradiction|].
      pose proof (set_both done a junk v todo) as Hs.
      assert (Hl : (length done + 1 = S (length done)) /\ S (length done) + (length junk + 1) = S (length done + S (length junk))) by lia. destruct Hl as [Hl1 Hl2].
      destruct (i - length done) as [|j] eqn:Ej.
      * assert (i = length done) by lia. subst i. rewrite Hs.
        pose proof (compact_constant (Element (length done)) v todo (done ++ [v]) (junk ++ [moved v])) as H.
        rewrite <- (app_assoc done [v] (filter _ _)) in H. rewrite !app_length in H. cbn [length app] in H |- *. rewrite Hl1, Hl2 in H.
        apply H; [destruct junk; discriminate|]. intros rest. cbn [read]. rewrite <- app_assoc. apply nth_middle'.
      * assert (Hn : nth_error ((done ++ [v]) ++ (junk ++ [moved v]) ++ todo) i = Some x) by (rewrite <- Hs, !set_nth_other by lia; exact Hr).
        rewrite Hs. specialize (IH (done ++ [v]) (junk ++ [moved v])).
        rewrite <- (app_assoc done [v] (compared_with_own _ _ _ _)) in IH. rewrite !app_length in IH. cbn [length app] in IH |- *. rewrite Hl1, Hl2 in IH.
        replace j with (i - S (length done)) by lia. apply IH; [destruct junk; discriminate| |lia]. cbn [app] in Hn. exact Hn.
Qed.

Lemma find_skip r cells x rest l1 : read cells r = Some x -> (forall v, In v l1 -> equal x v = false) -> forall it,
  find_match equal r cells (l1 ++ rest) it = find_match equal r cells rest (it + length l1).
Proof.
  intros Hr. induction l1 as [|v l1 IH]; intros Hn it; cbn; [now rewrite Nat.add_0_r|]. unfold matches. rewrite Hr, (Hn v ltac:(now left)).
  rewrite IH by (intros; apply Hn; now right). f_equal. lia.
Qed.
Lemma filter_none x l : (forall v, In v l -> equal x v = false) -> filter (fun v => negb (equal x v)) l = l.
Proof. induction l as [|v l IH]; intros H; cbn; [reflexivity|]. rewrite (H v ltac:(now left)). cbn. rewrite IH; [reflexivity|]. intros; apply H; now right. Qed.
Lemma first_equal x (l : list V) : (forall v, In v l -> equal x v = false) \/ exists l1 w l2, l = l1 ++ w :: l2 /\ (forall v, In v l1 -> equal x v = false) /\ equal x w = true.
Proof.
  induction l as [|v l IH]; [left; intros v []|]. destruct (equal x v) eqn:E.
  - right. exists [], v, l. split; [reflexivity|]. split; [intros u []|exact E].
  - destruct IH as [IH|(l1 & w & l2 & -> & H1 & H2)].
    + left. intros u [<-|Hu]; auto.
    + right. exists (v :: l1), w, l2. split; [reflexivity|]. split; [|exact H2]. intros u [<-|Hu]; auto.
Qed.
End Vector.

(** A value that is not an element of the vector: exactly the elements that are equal to it go. *)
Theorem C158_vector_other : forall V (equal : V -> V -> bool) moved vs x,
  erase_equal equal moved vs (Outside x) = filter (fun v => negb (equal x v)) vs.
Proof.
  intros V equal moved vs x. unfold erase_equal. destruct (first_equal equal x vs) as [H|(l1 & w & l2 & -> & H1 & H2)].
  - pose proof (find_skip equal (Outside x) vs x [] vs eq_refl H 0) as Hf. rewrite app_nil_r in Hf. rewrite Hf. cbn. now rewrite filter_none.
  - rewrite (find_skip equal (Outside x) _ x (w :: l2) l1 eq_refl H1 0). cbn [find_match]. unfold matches at 1. cbn [read]. rewrite H2. cbn [Nat.add].
    pose proof (compact_constant equal moved (Outside x) x l2 l1 [w] ltac:(discriminate) ltac:(reflexivity)) as H. cbn [app length] in H.
    replace (length (l1 ++ w :: l2) - S (length l1)) with (length l2) by (rewrite app_length; cbn; lia). rewrite Nat.add_1_r in H.
    destruct (compact _ _ _ _ _ _ _) as [cells n]. rewrite H, filter_app. cbn [filter]. rewrite H2, (filter_none equal x l1) by exact H1. reflexivity.
Qed.
Print Assumptions C158_vector_other.

(** A value that is the element [i] of the vector; [w] is the first element that is equal to it. *)
Theorem C158_vector_own_exactly : forall V (equal : V -> V -> bool) moved l1 w l2 i x,
  nth_error (l1 ++ w :: l2) i = Some x -> equal x x = true -> (forall v, In v l1 -> equal x v = false) -> equal x w = true ->
  erase_equal equal moved (l1 ++ w :: l2) (Element i) = l1 ++ compared_with_own equal (i - length l1) x l2.
Proof.
  intros V equal moved l1 w l2 i x Hi Hx H1 H2. unfold erase_equal. rewrite (find_skip equal (Element i) _ x (w :: l2) l1 Hi H1 0). cbn [find_match Nat.add]. unfold matches at 1. cbn [read]. rewrite Hi, H2.
  assert (length l1 <= i). { destruct (le_lt_dec (length l1) i) as [|Hlt]; [assumption|]. rewrite nth_error_app1 in Hi by exact Hlt. apply nth_error_In, H1 in Hi. congruence. }
  pose proof (compact_own equal moved i x l2 Hx l1 [w] ltac:(discriminate) Hi ltac:(assumption)) as H'. cbn [app length] in H'.
  replace (length (l1 ++ w :: l2) - S (length l1)) with (length l2) by (rewrite app_length; cbn; lia). rewrite Nat.add_1_r in H'.
  destruct (compact _ _ _ _ _ _ _) as [cells n]. exact H'.
Qed.
Print Assumptions C158_vector_own_exactly.

(** It works when no other element takes the place of the element while there are still elements to look at. *)
Theorem C158_vector_own : forall V (equal : V -> V -> bool) moved vs i x,
  nth_error vs i = Some x -> equal x x = true -> length (filter (fun v => negb (equal x v)) vs) <= i ->
  erase_equal equal moved vs (Element i) = filter (fun v => negb (equal x v)) vs.
Proof.
  intros V equal moved vs i x Hi Hx Hn. destruct (first_equal equal x vs) as [H|(l1 & w & l2 & -> & H1 & H2)].
  - apply nth_error_In, H in Hi. congruence.
  - rewrite (C158_vector_own_exactly V equal moved l1 w l2 i x Hi Hx H1 H2). rewrite filter_app in Hn |- *. cbn [filter] in Hn |- *. rewrite H2 in Hn |- *. cbn [negb] in Hn |- *.
    rewrite (filter_none equal x l1 H1) in Hn |- *. f_equal. rewrite app_length in Hn.
    assert (Hk : length (filter (fun v => negb (equal x v)) l2) <= i - length l1) by lia. clear - Hk. revert Hk. generalize (i - length l1) as j.
    induction l2 as [|v l2 IH]; intros j Hk; cbn in *; [reflexivity|]. destruct (equal x v); cbn in *; [now apply IH|].
    destruct j as [|j]; [lia|]. f_equal. apply IH. lia.
Qed.
Print Assumptions C158_vector_own.

(** Not otherwise: erase(v, v[0]) of 1, 2, 1, 2 leaves 2, 1. *)
Theorem C158_vector_own_refuted : ~ forall V (equal : V -> V -> bool) moved vs i x, nth_error vs i = Some x -> (forall a, equal a a = true) ->
  erase_equal equal moved vs (Element i) = filter (fun v => negb (equal x v)) vs.
Proof. intros H. specialize (H nat Nat.eqb (fun v => v) [1; 2; 1; 2] 0 1 eq_refl Nat.eqb_refl). vm_compute in H. discriminate. Qed.
Print Assumptions C158_vector_own_refuted.

Example C158_vector_case : erase_equal Nat.eqb (fun _ => 0) [5; 1; 2; 1; 2; 1] (Element 5) = [5; 2; 2] /\ erase_equal Nat.eqb (fun _ => 0) [1; 2; 1; 2] (Element 0) = [2; 1] /\
  erase_equal Nat.eqb (fun _ => 0) [3; 1; 3; 2; 1; 3; 4; 2; 3] (Element 2) = [1; 2; 1; 3; 4; 2; 3].
Proof.
  split; [|split].
  - rewrite (C158_vector_own nat Nat.eqb (fun _ => 0) [5; 1; 2; 1; 2; 1] 5 1 eq_refl eq_refl); [reflexivity|cbn; lia].
  - exact (C158_vector_own_exactly nat Nat.eqb (fun _ => 0) [] 1 [2; 1; 2] 0 1 eq_refl eq_refl ltac:(intros v []) eq_refl).
  - vm_compute. reflexivity.
Qed.

(** An element that is not equal to itself, a NaN for instance, is not removed, and the reference to it stays good. *)
Theorem C158_list_own_unequal : forall V (equal : V -> V -> bool) z (m : bmemory V) s l1 p v l2, valid m -> sized_at z m s (l1 ++ (p, v) :: l2) -> equal v v = false ->
  exists z' m', sized_remove equal s p z m = SReturned (length (filter (fun e => equal v (snd e)) (l1 ++ (p, v) :: l2))) z' m' /\ valid m' /\
    sized_at z' m' s (filter (fun e => negb (equal v (snd e))) (l1 ++ (p, v) :: l2)) /\ sizes_kept [s] m z z' /\ same_except (s :: names_of (l1 ++ (p, v) :: l2)) m m'.
Proof.
  intros V equal z m s l1 p v l2 Hv Hl He. unfold sized_remove. rewrite (lift_bind _ _ _ _ _ _ (begin_ok m s _ (proj1 Hl))).
  pose proof (list_length m s _ Hv (proj1 Hl)) as Hlen. rewrite app_length in Hlen. cbn [length] in Hlen. unfold swith_fuel.
  replace (S (names m)) with (length l1 + S (length l2 + S (names m - length l1 - length l2 - 1))) by lia.
  assert (Hp : exists links, object_at m p = Some (Node links v)) by (apply (proj1 (proj2 (proj1 Hl))); apply in_or_app; right; now left).
  assert (Hn : ~ In p (names_of l1) /\ ~ In p (names_of l2)).
  { destruct (proj1 Hl) as (_ & _ & N & _). rewrite names_app in N. cbn in N. inversion N as [|? ? _ N']; subst. apply NoDup_remove_2 in N'. split; intros H; apply N'; apply in_or_app; auto. }
  destruct Hn as [Hna Hnb].
  destruct (remove_prefix equal p v s ((p, v) :: l2) l1 z m [] (S (length l2 + S (names m - length l1 - length l2 - 1))) 0 Hv Hl Hp Hna) as (z1 & m1 & c & H1 & Hc & Hv1 & Hl1 & Hz1 & [links Hb1] & Hs1 & Hn1).
  rewrite H1. clear H1. cbn [app] in Hl1, Hs1. cbn [sized_remove_loop first_of fst].
  assert (Hps : p <> s) by (eapply not_sentinel; [apply Hl|]; rewrite names_app; apply in_or_app; right; now left).
  unfold list_end at 1. rewrite (proj2 (Nat.eqb_neq p s) Hps), !(lift_bind _ _ _ _ _ _ (value_node m1 p links v Hb1)), He.
  rewrite (lift_bind _ _ _ _ _ _ (next_ok m1 s _ p v l2 (proj1 Hl1))).
  destruct (remove_prefix equal p v s [] l2 z1 m1 (filter (fun e => negb (equal v (snd e))) l1 ++ [(p, v)]) (S (names m - length l1 - length l2 - 1)) c Hv1) as (z2 & m2 & c2 & H2 & Hc2 & Hv2 & Hl2 & Hz2 & _ & Hs2 & Hn2).
  { rewrite app_nil_r, <- app_assoc. exact Hl1. } { eauto. } { exact Hnb. }
  rewrite app_nil_r in H2, Hl2, Hs2. rewrite H2. cbn [sized_remove_loop first_of]. unfold list_end. rewrite Nat.eqb_refl. rewrite <- app_assoc in Hl2, Hs2. cbn [app] in Hl2, Hs2.
  exists z2, m2. rewrite !filter_app. cbn [filter snd]. rewrite He. cbn [negb]. rewrite app_length.
  split; [unfold sret; f_equal; lia|]. split; [exact Hv2|]. split; [exact Hl2|]. split; [apply (below_kept _ _ _ _ Hv); eapply below_trans; eassumption|].
  eapply same_weaken; [eapply same_trans; [exact Hs1|exact Hs2]|]. intros r. unfold names_of. rewrite !map_app. cbn [map fst In]. rewrite !in_app_iff. cbn [In].
  pose proof (filter_names (fun e => negb (equal v (snd e))) l1 r) as Hf. rewrite ?in_app_iff in *. cbn [map fst In] in *. tauto.
Qed.
Print Assumptions C158_list_own_unequal.
Example C158_list_own_unequal_case : forall z m, valid m -> sized_at z m 0 three_elements ->
  exists z' m', sized_remove (fun a b => (b =? 30) || negb (a =? 10) && (a =? b)) 0 1 z m = SReturned 1 z' m' /\ list_at m' 0 [(1, 10); (2, 20)].
Proof.
  intros z m Hv Hl. destruct (C158_list_own_unequal nat (fun a b => (b =? 30) || negb (a =? 10) && (a =? b)) z m 0 [] 1 10 [(2, 20); (3, 30)] Hv Hl eq_refl) as (z' & m' & H & _ & [Hl' _] & _).
  exists z', m'. split; [exact H|exact Hl'].
Qed.
