(** * Decision trees: order facts and memory *)

From Coq Require Import List Arith Bool Lia Permutation.
From Verif Require Import Mem MemLemmas SpecVec Sort SpecSort.
Import ListNotations.
Local Open Scope nat_scope.

(** ** Strict weak orders *)
Section Order.
Context {V : Type} (lt : V -> V -> bool) (Hlt : strict_weak_order lt).

Lemma lt_irrefl a : lt a a = false.
Proof. apply Hlt. Qed.
Lemma lt_trans a b c : lt a b = true -> lt b c = true -> lt a c = true.
Proof. apply Hlt. Qed.
Lemma lt_asym a b : lt a b = true -> lt b a = false.
Proof.
  intros H. destruct (lt b a) eqn:E; auto. pose proof (lt_trans _ _ _ H E) as K. now rewrite lt_irrefl in K.
Qed.
Lemma ge_trans a b c : lt b a = false -> lt c b = false -> lt c a = false.
Proof.
  intros H1 H2. destruct (lt c a) eqn:E; auto.
  destruct (lt a b) eqn:E1. { now rewrite (lt_trans _ _ _ E E1) in H2. }
  destruct (lt b c) eqn:E2. { rewrite (lt_trans _ _ _ E2 E) in H1. discriminate. }
  assert (K : equivalent lt a c = true).
  { apply Hlt with b; unfold equivalent; [now rewrite E1, H1|now rewrite E2, H2]. }
  unfold equivalent in K. rewrite E, andb_false_r in K. discriminate.
Qed.
Lemma lt_ge_trans a b c : lt a b = true -> lt c b = false -> lt a c = true.
Proof.
  intros H1 H2. destruct (lt a c) eqn:E; auto.
  rewrite (ge_trans b c a H2 E) in H1. discriminate.
Qed.
Lemma ge_lt_trans a b c : lt b a = false -> lt b c = true -> lt a c = true.
Proof.
  intros H1 H2. destruct (lt a c) eqn:E; auto.
  rewrite (ge_trans c a b E H1) in H2. discriminate.
Qed.

Lemma ordered_nil : ordered lt [].
Proof. intros i j a b _ H. now destruct i. Qed.
Lemma ordered_cons a l : ordered lt (a :: l) <-> (forall b, In b l -> lt b a = false) /\ ordered lt l.
Proof.
  split.
  - intros H. split.
    + intros b Hb. apply In_nth_error in Hb as [j Hj]. apply (H 0 (S j) a b); auto. lia.
    + intros i j x y Hij Hx Hy. apply (H (S i) (S j) x y); auto. lia.
  - intros [H1 H2] i j x y Hij Hx Hy. destruct j as [|j]; [lia|]. cbn in Hy. destruct i as [|i]; cbn in Hx.
    + injection Hx as <-. apply H1. eapply nth_error_In; eauto.
    + apply (H2 i j); auto. lia.
Qed.
Lemma ordered_app l1 l2 :
  ordered lt (l1 ++ l2) <-> ordered lt l1 /\ ordered lt l2 /\ (forall a b, In a l1 -> In b l2 -> lt b a = false).
Proof.
  induction l1 as [|x l1 IH]; cbn.
  - split; [intros H; split; [apply ordered_nil|split; auto; contradiction]|tauto].
  - rewrite !ordered_cons, IH. split.
    + intros (H1 & H2 & H3 & H4). split; [|split]; auto.
      * split; auto. intros b Hb. apply H1, in_or_app. auto.
      * intros a b [<-|Ha] Hb; auto. apply H1, in_or_app. auto.
    + intros ((H1 & H2) & H3 & H4). split; [|split; [|split]]; auto.
      intros b Hb. apply in_app_or in Hb as [Hb|Hb]; auto.
Qed.

End Order.

(** ** Indices as a total order *)
Section Indices.
Context {V : Type} (lt : V -> V -> bool) (Hlt : strict_weak_order lt) (x : nat -> V).

(** [before a b]: element [a] comes before element [b] in the stable sorting. *)
Definition before (a b : nat) : Prop := lt (x a) (x b) = true \/ lt (x b) (x a) = false /\ a < b.
Lemma before_trans a b c : before a b -> before b c -> before a c.
Proof.
  intros [H1|[H1 L1]] [H2|[H2 L2]].
  - left. eapply lt_trans; eauto.
  - left. eapply lt_ge_trans; eauto.
  - left. eapply ge_lt_trans; eauto.
  - right. split; [|lia]. eapply ge_trans; eauto.
Qed.
Lemma before_ge a b : before a b -> lt (x b) (x a) = false.
Proof. intros [H|[H _]]; auto. eapply lt_asym; eauto. Qed.

Fixpoint linked (R : nat -> nat -> Prop) (p : list nat) : Prop :=
  match p with
  | a :: (b :: _) as q => R a b /\ linked R q
  | _ => True
  end.
Lemma linked_all (R : nat -> nat -> Prop) a p :
  (forall a b c, R a b -> R b c -> R a c) -> linked R (a :: p) -> forall b, In b p -> R a b.
Proof.
  intros T. revert a. induction p as [|c p IH]; intros a H b Hb; [contradiction|].
  destruct H as [H1 H2]. destruct Hb as [<-|Hb]; auto. apply T with c; auto.
Qed.
Lemma linked_ordered p : linked (fun a b => lt (x b) (x a) = false) p -> ordered lt (map x p).
Proof.
  induction p as [|a p IH]; intros H; cbn. { apply ordered_nil. }
  apply ordered_cons. split.
  - intros b Hb. apply in_map_iff in Hb as (c & <- & Hc).
    apply (linked_all _ _ _ (fun a b c H1 H2 => ge_trans lt Hlt _ _ _ H1 H2) H c Hc).
  - apply IH. destruct p; [exact I|apply H].
Qed.
Lemma linked_weaken (R R' : nat -> nat -> Prop) p : (forall a b, R a b -> R' a b) -> linked R p -> linked R' p.
Proof.
  intros H. induction p as [|a [|b p] IH]; auto. intros [H1 H2]. split; auto.
Qed.
(** Filtering by an equivalence class leaves increasing indices. *)
Lemma class_increasing z a b : before a b -> equivalent lt z (x a) = true -> equivalent lt z (x b) = true -> a < b.
Proof.
  intros [H|[_ H]] Ha Hb; auto.
  destruct Hlt as (_ & _ & E). assert (K : equivalent lt (x a) (x b) = true).
  { apply E with z; auto. unfold equivalent in *. now rewrite andb_comm. }
  unfold equivalent in K. rewrite H in K. discriminate.
Qed.
End Indices.

(** An increasing list of indices is determined by its elements. *)
Inductive increasing : list nat -> Prop :=
| inc_nil : increasing []
| inc_cons a l : (forall b, In b l -> a < b) -> increasing l -> increasing (a :: l).
Lemma increasing_unique l l' : increasing l -> increasing l' -> (forall a, In a l <-> In a l') -> l = l'.
Proof.
  intros H. revert l'. induction H as [|a l Ha H IH]; intros l' H' E.
  - destruct l' as [|b l']; auto. destruct (proj2 (E b)). now left.
  - destruct H' as [|b l' Hb H']. { destruct (proj1 (E a)). now left. }
    assert (a = b) as <-.
    { destruct (proj1 (E a) (or_introl eq_refl)) as [->|K]; auto.
      destruct (proj2 (E b) (or_introl eq_refl)) as [K'|K']; auto.
      pose proof (Hb _ K). pose proof (Ha _ K'). lia. }
    f_equal. apply IH; auto. intros c. split; intros Hc.
    + destruct (proj1 (E c) (or_intror Hc)) as [->|]; auto. pose proof (Ha _ Hc). lia.
    + destruct (proj2 (E c) (or_intror Hc)) as [->|]; auto. pose proof (Hb _ Hc). lia.
Qed.
Lemma increasing_seq i n : increasing (seq i n).
Proof.
  revert i. induction n; intros i; cbn; constructor; auto. intros b Hb. apply in_seq in Hb. lia.
Qed.
Lemma increasing_filter f l : increasing l -> increasing (filter f l).
Proof.
  intros H. induction H as [|a l Ha H IH]; cbn. { constructor. }
  destruct (f a); auto. constructor; auto. intros b Hb. apply filter_In in Hb as [Hb _]. auto.
Qed.

Lemma map_nth_seq {A} (l : list A) d : map (fun i => nth i l d) (seq 0 (length l)) = l.
Proof.
  induction l as [|a l IH]; cbn; auto. f_equal. rewrite <- seq_shift, map_map. exact IH.
Qed.
Lemma filter_map_comm {A B} (f : B -> bool) (g : A -> B) l : filter f (map g l) = map g (filter (fun a => f (g a)) l).
Proof. induction l as [|a l IH]; cbn; auto. destruct (f (g a)); cbn; now rewrite IH. Qed.

Section Stable.
Context {V : Type} (lt : V -> V -> bool) (Hlt : strict_weak_order lt).
Lemma sorting_by_index (l : list V) d p :
  Permutation p (seq 0 (length l)) -> linked (fun a b => lt (nth b l d) (nth a l d) = false) p ->
  sorting lt l (map (fun i => nth i l d) p).
Proof.
  intros HP HL. split.
  - rewrite <- (map_nth_seq l d) at 1. apply Permutation_map. now apply Permutation_sym.
  - now apply linked_ordered.
Qed.
Lemma stable_by_index (l : list V) d p :
  Permutation p (seq 0 (length l)) -> linked (before lt (fun i => nth i l d)) p ->
  stable_sorting lt l (map (fun i => nth i l d) p).
Proof.
  intros HP HL. split.
  - apply sorting_by_index; auto. eapply linked_weaken; [|exact HL]. intros a b. exact (before_ge lt Hlt (fun i => nth i l d) a b).
  - intros z. pose proof (map_nth_seq l d) as HM.
    transitivity (filter (equivalent lt z) (map (fun i => nth i l d) (seq 0 (length l)))); [|now rewrite HM].
    rewrite !filter_map_comm. f_equal.
    apply increasing_unique.
    + clear HP. induction p as [|a p IH]; cbn. { constructor. }
      assert (HL' : linked (before lt (fun i => nth i l d)) p) by (destruct p; [exact I|apply HL]).
      destruct (equivalent lt z (nth a l d)) eqn:E; auto. constructor; auto.
      intros b Hb. apply filter_In in Hb as [Hb Eb].
      apply (class_increasing lt Hlt (fun i => nth i l d) z); auto.
      apply (linked_all (before lt (fun i => nth i l d)) a p); auto. intros ? ? ?. apply (before_trans lt Hlt).
    + apply increasing_filter, increasing_seq.
    + intros a. rewrite !filter_In. split; intros [Ha Ea]; split; auto.
      * eapply Permutation_in; eauto.
      * eapply Permutation_in; [apply Permutation_sym|]; eauto.
Qed.
End Stable.

(** ** Checking a tree: from the comparisons on the way to a leaf the order of the leaf must follow *)
Definition fact : Set := (nat * nat * bool)%type.
Definition edge (stable : bool) (fs : list fact) (a b : nat) : bool :=
  existsb (fun f : fact => match f with (i, j, c) =>
    if c then (i =? a) && (j =? b) else (i =? b) && (j =? a) && (negb stable || (a <? b)) end) fs.
Fixpoint reach (fuel : nat) (e : nat -> nat -> bool) (n : nat) (a b : nat) : bool :=
  e a b || match fuel with
           | 0 => false
           | S fuel => existsb (fun c => e a c && reach fuel e n c b) (seq 0 n)
           end.
Definition impossible (fuel n : nat) (fs : list fact) : bool :=
  existsb (fun f : fact => match f with (i, j, c) => c && reach fuel (edge false fs) n j i end) fs.
Fixpoint chained (e : nat -> nat -> bool) (p : list nat) : bool :=
  match p with
  | a :: (b :: _) as q => e a b && chained e q
  | _ => true
  end.
Definition is_perm (n : nat) (p : list nat) : bool :=
  (length p =? n) && forallb (fun i => existsb (Nat.eqb i) p) (seq 0 n).

(** Running the operations on indices instead of elements. *)
Fixpoint arot (ref : nat) (args : list nat) (s : list (option nat)) : option (nat * list (option nat)) :=
  match args with
  | [] => Some (ref, s)
  | a :: args =>
      match nth_error s ref, nth_error s a with
      | Some None, Some (Some v) => arot a args (set_nth (set_nth s a None) ref (Some v))
      | _, _ => None
      end
  end.
Definition aop (o : op) (s : list (option nat)) : option (list (option nat)) :=
  match o with
  | Swap i j =>
      match nth_error s i, nth_error s j with
      | Some (Some a), Some (Some b) => Some (set_nth (set_nth s i (Some b)) j (Some a))
      | _, _ => None
      end
  | Rotate i js =>
      match nth_error s i with
      | Some (Some a) =>
          match arot i js (set_nth s i None) with
          | Some (k, s) => match nth_error s k with Some None => Some (set_nth s k (Some a)) | _ => None end
          | None => None
          end
      | _ => None
      end
  end.
Fixpoint aops (os : list op) (s : list (option nat)) : option (list (option nat)) :=
  match os with
  | [] => Some s
  | o :: os => match aop o s with Some s => aops os s | None => None end
  end.
Fixpoint aout (js : list nat) (s : list (option nat)) : option (list (option nat)) :=
  match js with
  | [] => Some s
  | j :: js => match nth_error s j with Some (Some v) => if v =? j then aout js (set_nth s j None) else None | _ => None end
  end.
Fixpoint all_some (s : list (option nat)) : option (list nat) :=
  match s with
  | [] => Some []
  | Some a :: s => match all_some s with Some p => Some (a :: p) | None => None end
  | None :: _ => None
  end.
Definition all_none (s : list (option nat)) : bool := forallb (fun c => match c with None => true | Some _ => false end) s.
Definition leaf (in_place : bool) (n : nat) (t : tree) : option (list nat) :=
  match t with
  | Do ops => if in_place then match aops ops (map Some (seq 0 n)) with Some s => all_some s | None => None end else None
  | Out js => if in_place then None else match aout js (map Some (seq 0 n)) with Some s => if all_none s then Some js else None | None => None end
  | If _ _ _ _ => None
  end.
Fixpoint check (stable in_place : bool) (fuel n : nat) (t : tree) (fs : list fact) : bool :=
  match t with
  | If i j yes no => (i <? n) && (j <? n) &&
      check stable in_place fuel n yes ((i, j, true) :: fs) && check stable in_place fuel n no ((i, j, false) :: fs)
  | _ => impossible fuel n fs ||
      match leaf in_place n t with
      | Some p => is_perm n p && chained (reach fuel (edge stable fs) n) p
      | None => false
      end
  end.

Section Check.
Context {V : Type} (lt : V -> V -> bool) (Hlt : strict_weak_order lt) (x : nat -> V).
Definition true_of (f : fact) : Prop := match f with (i, j, c) => lt (x i) (x j) = c end.
Definition rel (stable : bool) : nat -> nat -> Prop :=
  if stable then before lt x else fun a b => lt (x b) (x a) = false.
Lemma rel_trans stable a b c : rel stable a b -> rel stable b c -> rel stable a c.
Proof. destruct stable; [apply (before_trans lt Hlt)|]. cbn. intros H1 H2. eapply ge_trans; eauto. Qed.
Lemma edge_rel stable fs a b : Forall true_of fs -> edge stable fs a b = true -> rel stable a b.
Proof.
  intros F H. apply existsb_exists in H as ([[i j] c] & Hin & H).
  rewrite Forall_forall in F. specialize (F _ Hin). cbn in F. destruct c.
  - apply andb_prop in H as [H1 H2]. apply Nat.eqb_eq in H1, H2. subst.
    destruct stable; cbn; [now left|]. now apply (lt_asym lt Hlt).
  - apply andb_prop in H as [H H3]. apply andb_prop in H as [H1 H2]. apply Nat.eqb_eq in H1, H2. subst.
    destruct stable; cbn; auto. right. split; auto. apply Nat.ltb_lt. exact H3.
Qed.
Lemma reach_rel stable fs fuel n a b : Forall true_of fs -> reach fuel (edge stable fs) n a b = true -> rel stable a b.
Proof.
  intros F. revert a b. induction fuel as [|fuel IH]; intros a b H; cbn in H; apply orb_prop in H as [H|H].
  - eapply edge_rel; eauto.
  - discriminate.
  - eapply edge_rel; eauto.
  - apply existsb_exists in H as (c & _ & H). apply andb_prop in H as [H1 H2].
    eapply rel_trans; [eapply edge_rel; eauto|auto].
Qed.
Lemma impossible_false fuel n fs : Forall true_of fs -> impossible fuel n fs = true -> False.
Proof.
  intros F H. apply existsb_exists in H as ([[i j] c] & Hin & H). apply andb_prop in H as [-> H].
  apply (reach_rel false) in H; auto. cbn in H. rewrite Forall_forall in F. specialize (F _ Hin). cbn in F. congruence.
Qed.
Lemma chained_linked stable fs fuel n p :
  Forall true_of fs -> chained (reach fuel (edge stable fs) n) p = true -> linked (rel stable) p.
Proof.
  intros F. induction p as [|a [|b p] IH]; intros H; cbn; auto.
  cbn in H. apply andb_prop in H as [H1 H2]. split; [eapply reach_rel; eauto|]. apply IH, H2.
Qed.
Lemma is_perm_spec n p : is_perm n p = true -> Permutation p (seq 0 n).
Proof.
  intros H. apply andb_prop in H as [H1 H2]. apply Nat.eqb_eq in H1. rewrite forallb_forall in H2.
  apply Permutation_sym, NoDup_Permutation_bis.
  - apply seq_NoDup.
  - rewrite seq_length. lia.
  - intros i Hi. apply H2 in Hi. apply existsb_exists in Hi as (j & Hj & E). apply Nat.eqb_eq in E. now subst.
Qed.
(** The leaf a tree arrives at. *)
Fixpoint decide (t : tree) : tree :=
  match t with
  | If i j yes no => if lt (x i) (x j) then decide yes else decide no
  | _ => t
  end.
Lemma check_decide stable ip fuel n t fs :
  Forall true_of fs -> check stable ip fuel n t fs = true ->
  exists p, leaf ip n (decide t) = Some p /\ Permutation p (seq 0 n) /\ linked (rel stable) p.
Proof.
  revert fs. induction t as [i j yes IHy no IHn|ops|js]; intros fs F H.
  - cbn in H. rewrite !andb_true_iff in H. destruct H as [[[Hi Hj] Hy] Hn]. cbn [decide].
    destruct (lt (x i) (x j)) eqn:E; [apply (IHy ((i, j, true) :: fs))|apply (IHn ((i, j, false) :: fs))]; auto.
  - cbn [check] in H. apply orb_prop in H as [H|H]. { destruct (impossible_false _ _ _ F H). }
    cbn [decide]. destruct (leaf ip n (Do ops)) as [p|]; [|discriminate]. exists p.
    apply andb_prop in H as [H1 H2]. split; [|split]; auto; [now apply is_perm_spec|eapply chained_linked; eauto].
  - cbn [check] in H. apply orb_prop in H as [H|H]. { destruct (impossible_false _ _ _ F H). }
    cbn [decide]. destruct (leaf ip n (Out js)) as [p|]; [|discriminate]. exists p.
    apply andb_prop in H as [H1 H2]. split; [|split]; auto; [now apply is_perm_spec|eapply chained_linked; eauto].
Qed.
Fixpoint in_range (n : nat) (t : tree) : Prop :=
  match t with If i j yes no => i < n /\ j < n /\ in_range n yes /\ in_range n no | _ => True end.
Lemma check_in_range stable ip fuel n t fs : check stable ip fuel n t fs = true -> in_range n t.
Proof.
  revert fs. induction t as [i j yes IHy no IHn|ops|js]; intros fs H; cbn; auto.
  cbn in H. rewrite !andb_true_iff in H. destruct H as [[[Hi Hj] Hy] Hn]. apply Nat.ltb_lt in Hi, Hj.
  split; [|split; [|split]]; eauto.
Qed.
End Check.

(** The trees of the library. All are stable but the branchless one for four elements. *)
Lemma in_place_checked n t : in_place_tree n = Some t -> check true true 0 n t [] = true.
Proof. do 6 (destruct n as [|n]; [try discriminate; injection 1 as <-; vm_compute; reflexivity|]). discriminate. Qed.
Lemma relocate_checked cheap n t : relocate_tree cheap n = Some t -> check (negb (cheap && (n =? 4))) false n n t [] = true.
Proof. do 5 (destruct n as [|n]; [try discriminate; destruct cheap; injection 1 as <-; vm_compute; reflexivity|]). discriminate. Qed.
