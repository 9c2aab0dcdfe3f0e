(** * Sorting a fixed number of elements, on memory *)

From Coq Require Import List Arith Bool Lia Permutation.
From Verif Require Import Mem MemLemmas SpecVec VecLemmas Sort SpecSort SortLemmas.
Import ListNotations.
Local Open Scope nat_scope.

Lemma set_nth_comm_map {A B} (f : A -> B) l i a : map f (set_nth l i a) = set_nth (map f l) i (f a).
Proof. revert i. induction l as [|x l IH]; intros [|i]; cbn; auto. now rewrite IH. Qed.
Lemma nth_lt {A} (l : list A) i a : nth_error l i = Some a -> i < length l.
Proof. intros H. apply nth_error_Some. now rewrite H. Qed.
Lemma nth_set_same {A} (l : list A) i a c : nth_error l i = Some c -> nth_error (set_nth l i a) i = Some a.
Proof.
  intros H. rewrite nth_error_set_nth, Nat.eqb_refl.
  assert (L : i < length l) by (eapply nth_lt; eauto). apply Nat.ltb_lt in L. now rewrite L.
Qed.
Lemma nth_set_other {A} (l : list A) i a j : j <> i -> nth_error (set_nth l i a) j = nth_error l j.
Proof. intros H. rewrite nth_error_set_nth. apply Nat.eqb_neq in H. now rewrite H. Qed.
Lemma nth_error_split_at {A} (l : list A) i a :
  nth_error l i = Some a -> exists l1 l2, l = l1 ++ a :: l2 /\ length l1 = i /\ forall c, set_nth l i c = l1 ++ c :: l2.
Proof.
  intros H. destruct (nth_error_split l i H) as (l1 & l2 & -> & L). exists l1, l2. split; [|split]; auto.
  intros c. apply set_nth_app. auto.
Qed.

(** The cells of a block at the places [refs]. *)
Definition holds {A} (cs : list A) (refs : list nat) (cells : list A) : Prop :=
  Forall2 (fun q c => nth_error cs q = Some c) refs cells.
Definition frame {A} (refs : list nat) (cs cs' : list A) : Prop :=
  length cs' = length cs /\ forall j, ~ In j refs -> nth_error cs' j = nth_error cs j.
Lemma frame_refl {A} refs (cs : list A) : frame refs cs cs.
Proof. split; auto. Qed.
Lemma holds_nth {A} (cs : list A) refs cells i q :
  holds cs refs cells -> nth_error refs i = Some q -> nth_error cs q = nth_error cells i.
Proof.
  intros H. revert i. induction H as [|r c refs cells H1 H IH]; intros [|i] E; try discriminate; cbn in *.
  - injection E as <-. exact H1.
  - now apply IH.
Qed.
Lemma holds_other {A} (cs : list A) refs cells q c :
  holds cs refs cells -> ~ In q refs -> holds (set_nth cs q c) refs cells.
Proof.
  intros H. induction H as [|r d refs cells H1 H IH]; intros Hq; constructor.
  - rewrite nth_set_other; auto. intros ->. apply Hq. now left.
  - apply IH. intros K. apply Hq. now right.
Qed.
Lemma holds_set {A} (cs : list A) refs cells i q c :
  NoDup refs -> holds cs refs cells -> nth_error refs i = Some q -> holds (set_nth cs q c) refs (set_nth cells i c).
Proof.
  intros N H. revert i N. induction H as [|r d refs cells H1 H IH]; intros [|i] N E; try discriminate; cbn in *;
    inversion N as [|? ? N1 N2]; subst.
  - injection E as <-. constructor.
    + eapply nth_set_same; eauto.
    + now apply holds_other.
  - constructor; [|now apply IH].
    rewrite nth_set_other; auto. intros ->. apply N1. eapply nth_error_In; eauto.
Qed.
Lemma frame_set {A} refs (cs0 cs : list A) i q c :
  frame refs cs0 cs -> nth_error refs i = Some q -> frame refs cs0 (set_nth cs q c).
Proof.
  intros [L F] E. split; [now rewrite length_set_nth|].
  intros j Hj. rewrite nth_set_other; auto. intros ->. apply Hj. eapply nth_error_In; eauto.
Qed.
Lemma nth_error_ext {A} (l l' : list A) : (forall i, nth_error l i = nth_error l' i) -> l = l'.
Proof.
  revert l'. induction l as [|a l IH]; intros [|b l'] H; auto.
  - specialize (H 0). discriminate.
  - specialize (H 0). discriminate.
  - pose proof (H 0) as H0. injection H0 as ->. f_equal. apply IH. intros i. apply (H (S i)).
Qed.
(** For places in a row. *)
Lemma holds_seq {A} (pre cells post : list A) : holds (pre ++ cells ++ post) (seq (length pre) (length cells)) cells.
Proof.
  revert pre. induction cells as [|c cells IH]; intros pre; cbn; constructor.
  - now apply nth_error_mid.
  - specialize (IH (pre ++ [c])). rewrite app_length in IH. cbn in IH. rewrite Nat.add_1_r in IH.
    rewrite <- app_assoc in IH. exact IH.
Qed.
Lemma frame_seq {A} (pre cells cells' post : list A) cs :
  length cells' = length cells ->
  frame (seq (length pre) (length cells)) (pre ++ cells ++ post) cs -> holds cs (seq (length pre) (length cells)) cells' ->
  cs = pre ++ cells' ++ post.
Proof.
  intros L [F1 F2] H. apply nth_error_ext. intros i.
  destruct (le_lt_dec (length pre) i) as [G|G]; [destruct (lt_dec i (length pre + length cells)) as [G'|G']|].
  - assert (E : nth_error (seq (length pre) (length cells)) (i - length pre) = Some i).
    { rewrite (nth_error_nth' _ 0) by (rewrite seq_length; lia). f_equal. rewrite seq_nth by lia. lia. }
    rewrite (holds_nth _ _ _ _ _ H E). rewrite nth_error_app2 by lia. rewrite nth_error_app1 by lia. reflexivity.
  - rewrite F2 by (rewrite in_seq; lia). rewrite !nth_error_app2 by lia. f_equal. lia.
  - rewrite F2 by (rewrite in_seq; lia). now rewrite !nth_error_app1 by lia.
Qed.

Section Proofs.
Context {V : Type} (moved : V -> V) (lt : V -> V -> bool) (quiet : Prop).
Local Notation M := (M V).
Local Notation world := (world V).
Local Notation at_ := (@at_ V quiet).

Lemma wp_less_at {X} b i b' j cs cs' u v h (x : X) w (Q : X -> bool -> world -> Prop) (E : X -> world -> Prop) :
  at_ w h -> h b = Some cs -> nth_error cs i = Some (Some u) -> h b' = Some cs' -> nth_error cs' j = Some (Some v) ->
  (forall w', at_ w' h -> Q x (lt u v) w') -> (forall w', ~ quiet -> at_ w' h -> E x w') ->
  wp (less_at lt (Some b) i (Some b') j) x w Q E.
Proof.
  intros H Hb Hi Hb' Hj HQ HE. unfold less_at. apply wp_bind. eapply wp_load; eauto.
  apply wp_bind. eapply wp_load; eauto. apply wp_bind. eapply wp_may_throw; eauto.
Qed.
(** The same primitives with the cells by index. *)
Lemma wp_store_nth {X} b i cs v v' h (x : X) w (Q : X -> unit -> world -> Prop) (E : X -> world -> Prop) :
  at_ w h -> h b = Some cs -> nth_error cs i = Some (Some v') ->
  (forall w', at_ w' (upd h b (Some (set_nth cs i (Some v)))) -> Q x tt w') -> wp (store (Some b) i v) x w Q E.
Proof.
  intros H Hb Hi HQ. destruct (nth_error_split_at _ _ _ Hi) as (l1 & l2 & -> & L & S).
  eapply wp_store; eauto. intros w' H'. apply HQ. now rewrite S.
Qed.
Lemma wp_destroy_nth {X} b i cs v' h (x : X) w (Q : X -> unit -> world -> Prop) (E : X -> world -> Prop) :
  at_ w h -> h b = Some cs -> nth_error cs i = Some (Some v') ->
  (forall w', at_ w' (upd h b (Some (set_nth cs i None))) -> Q x tt w') -> wp (destroy (Some b) i) x w Q E.
Proof.
  intros H Hb Hi HQ. destruct (nth_error_split_at _ _ _ Hi) as (l1 & l2 & -> & L & S).
  eapply wp_destroy; eauto. intros w' H'. apply HQ. now rewrite S.
Qed.
Lemma wp_begin_life_nth {X} b i cs v h (x : X) w (Q : X -> unit -> world -> Prop) (E : X -> world -> Prop) :
  at_ w h -> h b = Some cs -> nth_error cs i = Some None ->
  (forall w', at_ w' (upd h b (Some (set_nth cs i (Some v)))) -> Q x tt w') -> wp (begin_life (Some b) i v) x w Q E.
Proof.
  intros H Hb Hi HQ. destruct (nth_error_split_at _ _ _ Hi) as (l1 & l2 & -> & L & S).
  eapply wp_begin_life; eauto. intros w' H'. apply HQ. now rewrite S.
Qed.
Lemma wp_require_raw_nth {X} b i cs h (x : X) w (Q : X -> unit -> world -> Prop) (E : X -> world -> Prop) :
  at_ w h -> h b = Some cs -> nth_error cs i = Some None -> Q x tt w -> wp (require_raw (Some b) i) x w Q E.
Proof.
  intros H Hb Hi HQ. destruct (nth_error_split_at _ _ _ Hi) as (l1 & l2 & -> & L & S).
  eapply wp_require_raw; eauto.
Qed.
Lemma wp_relocate_nth {X} b i cs v h (x : X) w (Q : X -> V -> world -> Prop) (E : X -> world -> Prop) :
  at_ w h -> h b = Some cs -> nth_error cs i = Some (Some v) ->
  (forall w', at_ w' (upd h b (Some (set_nth cs i None))) -> Q x v w') -> wp (relocate (Some b) i) x w Q E.
Proof.
  intros H Hb Hi HQ. unfold relocate. apply wp_bind. eapply wp_load; eauto.
  apply wp_bind. eapply wp_destroy_nth; eauto.
Qed.

(** ** Through references *)
Section View.
Context (h : @contents V) (b : nat) (refs : list nat) (cs0 : block V) (N : NoDup refs).

(** In [w] the places [refs] of block [b] hold [cells]; elsewhere memory is [h] with [cs0] in [b]. *)
Definition view (w : world) (cells : list (option V)) : Prop :=
  exists cs, at_ w (upd h b (Some cs)) /\ holds cs refs cells /\ frame refs cs0 cs.

Lemma view_load {X} w cells i v (x : X) (Q : X -> V -> world -> Prop) E :
  view w cells -> nth_error cells i = Some (Some v) -> Q x v w -> wp (load (Some b) (ref refs i)) x w Q E.
Proof.
  intros (cs & H & Hh & F) Hi HQ.
  assert (Er : nth_error refs i = Some (ref refs i)).
  { unfold ref. apply nth_error_nth'. rewrite (Forall2_len _ _ _ Hh). eapply nth_lt; eauto. }
  eapply wp_load; [exact H|apply upd_same|rewrite (holds_nth _ _ _ _ _ Hh Er); exact Hi|exact HQ].
Qed.
Lemma view_ref w cells i c : view w cells -> nth_error cells i = Some c -> nth_error refs i = Some (ref refs i).
Proof.
  intros (cs & H & Hh & F) Hi. unfold ref. apply nth_error_nth'.
  rewrite (Forall2_len _ _ _ Hh). eapply nth_lt; eauto.
Qed.
Lemma view_set w w' cells cs i c d :
  holds cs refs cells -> frame refs cs0 cs -> nth_error refs i = Some (ref refs i) -> nth_error cells i = Some d ->
  at_ w' (upd (upd h b (Some cs)) b (Some (set_nth cs (ref refs i) c))) -> view w cells -> view w' (set_nth cells i c).
Proof.
  intros Hh F Er Hi H' _. exists (set_nth cs (ref refs i) c). split; [|split].
  - eapply at_ext; [exact H'|apply upd_upd].
  - now apply holds_set.
  - eapply frame_set; eauto.
Qed.
Lemma view_store {X} w cells i v v' (x : X) (Q : X -> unit -> world -> Prop) E :
  view w cells -> nth_error cells i = Some (Some v') -> (forall w', view w' (set_nth cells i (Some v)) -> Q x tt w') ->
  wp (store (Some b) (ref refs i) v) x w Q E.
Proof.
  intros W Hi HQ. pose proof (view_ref _ _ _ _ W Hi) as Er. pose proof W as (cs & H & Hh & F).
  eapply wp_store_nth; [exact H|apply upd_same|rewrite (holds_nth _ _ _ _ _ Hh Er); exact Hi|].
  intros w' H'. apply HQ. eapply view_set; eauto.
Qed.
Lemma view_destroy {X} w cells i v' (x : X) (Q : X -> unit -> world -> Prop) E :
  view w cells -> nth_error cells i = Some (Some v') -> (forall w', view w' (set_nth cells i None) -> Q x tt w') ->
  wp (destroy (Some b) (ref refs i)) x w Q E.
Proof.
  intros W Hi HQ. pose proof (view_ref _ _ _ _ W Hi) as Er. pose proof W as (cs & H & Hh & F).
  eapply wp_destroy_nth; [exact H|apply upd_same|rewrite (holds_nth _ _ _ _ _ Hh Er); exact Hi|].
  intros w' H'. apply HQ. eapply view_set; eauto.
Qed.
Lemma view_begin_life {X} w cells i v (x : X) (Q : X -> unit -> world -> Prop) E :
  view w cells -> nth_error cells i = Some None -> (forall w', view w' (set_nth cells i (Some v)) -> Q x tt w') ->
  wp (begin_life (Some b) (ref refs i) v) x w Q E.
Proof.
  intros W Hi HQ. pose proof (view_ref _ _ _ _ W Hi) as Er. pose proof W as (cs & H & Hh & F).
  eapply wp_begin_life_nth; [exact H|apply upd_same|rewrite (holds_nth _ _ _ _ _ Hh Er); exact Hi|].
  intros w' H'. apply HQ. eapply view_set; eauto.
Qed.
Lemma view_require_raw {X} w cells i (x : X) (Q : X -> unit -> world -> Prop) E :
  view w cells -> nth_error cells i = Some None -> Q x tt w -> wp (require_raw (Some b) (ref refs i)) x w Q E.
Proof.
  intros W Hi HQ. pose proof (view_ref _ _ _ _ W Hi) as Er. pose proof W as (cs & H & Hh & F).
  eapply wp_require_raw_nth; [exact H|apply upd_same|rewrite (holds_nth _ _ _ _ _ Hh Er); exact Hi|exact HQ].
Qed.
Lemma view_less {X} w cells i j u v (x : X) (Q : X -> bool -> world -> Prop) (E : X -> world -> Prop) :
  view w cells -> nth_error cells i = Some (Some u) -> nth_error cells j = Some (Some v) ->
  (forall w', view w' cells -> Q x (lt u v) w') -> (forall w', ~ quiet -> view w' cells -> E x w') ->
  wp (less_at lt (Some b) (ref refs i) (Some b) (ref refs j)) x w Q E.
Proof.
  intros W Hi Hj HQ HE.
  pose proof (view_ref _ _ _ _ W Hi) as Ei. pose proof (view_ref _ _ _ _ W Hj) as Ej. pose proof W as (cs & H & Hh & F).
  eapply wp_less_at; [exact H|apply upd_same|rewrite (holds_nth _ _ _ _ _ Hh Ei); exact Hi
    |apply upd_same|rewrite (holds_nth _ _ _ _ _ Hh Ej); exact Hj| |].
  - intros w' H'. apply HQ. now exists cs.
  - intros w' Hq H'. apply HE; auto. now exists cs.
Qed.

(** ** Operations, from their effect on indices *)
Context (x : nat -> V).
Local Notation vals s := (map (option_map x) s).
Lemma vals_nth s i c : nth_error s i = Some c -> nth_error (vals s) i = Some (option_map x c).
Proof. intros H. rewrite nth_error_map, H. reflexivity. Qed.

Lemma view_rotate {Y} (y : Y) r args s k s' w (Q : Y -> nat -> world -> Prop) E :
  view w (vals s) -> arot r args s = Some (k, s') -> (forall w', view w' (vals s') -> Q y (ref refs k) w') ->
  wp (rotate_loop moved (Some b) (ref refs r) (map (ref refs) args)) y w Q E.
Proof.
  revert r s w. induction args as [|a args IH]; intros r s w W H HQ; cbn in *.
  - injection H as <- <-. auto.
  - destruct (nth_error s r) as [[?|]|] eqn:Er; try discriminate.
    destruct (nth_error s a) as [[v|]|] eqn:Ea; try discriminate.
    apply wp_bind. unfold construct_at. apply wp_bind.
    eapply view_require_raw; [exact W|exact (vals_nth _ _ _ Er)|].
    apply wp_bind. cbn [make]. unfold relocate. apply wp_bind.
    eapply view_load; [exact W|exact (vals_nth _ _ _ Ea)|].
    apply wp_bind. eapply view_destroy; [exact W|exact (vals_nth _ _ _ Ea)|]. intros w1 W1.
    apply wp_ret. assert (r <> a) by congruence.
    change (@None V) with (option_map x None) in W1. rewrite <- set_nth_comm_map in W1.
    eapply view_begin_life; [exact W1| |].
    { rewrite (vals_nth _ r None); [reflexivity|]. rewrite nth_set_other; auto. }
    intros w2 W2. change (Some (x v)) with (option_map x (Some v)) in W2. rewrite <- set_nth_comm_map in W2.
    eapply IH; eauto.
Qed.
Lemma view_op {Y} (y : Y) o s s' w (Q : Y -> unit -> world -> Prop) E :
  view w (vals s) -> aop o s = Some s' -> (forall w', view w' (vals s') -> Q y tt w') ->
  wp (run_op moved (Some b) refs o) y w Q E.
Proof.
  intros W H HQ. destruct o as [i j|i js]; cbn in *.
  - destruct (nth_error s i) as [[u|]|] eqn:Ei; try discriminate.
    destruct (nth_error s j) as [[v|]|] eqn:Ej; try discriminate. injection H as <-.
    unfold swap_at. apply wp_bind. eapply view_load; [exact W|exact (vals_nth _ _ _ Ei)|].
    apply wp_bind. eapply view_load; [exact W|exact (vals_nth _ _ _ Ej)|].
    apply wp_bind. eapply view_store; [exact W|exact (vals_nth _ _ _ Ei)|]. intros w1 W1.
    change (Some (x v)) with (option_map x (Some v)) in W1. rewrite <- set_nth_comm_map in W1.
    assert (K : exists z, nth_error (set_nth s i (Some v)) j = Some (Some z)).
    { destruct (Nat.eq_dec j i) as [->|D]; [exists v; eapply nth_set_same; eauto|].
      exists v. rewrite nth_set_other; auto. }
    destruct K as [z K]. eapply view_store; [exact W1|exact (vals_nth _ _ _ K)|]. intros w2 W2.
    change (Some (x u)) with (option_map x (Some u)) in W2. rewrite <- set_nth_comm_map in W2. auto.
  - destruct (nth_error s i) as [[u|]|] eqn:Ei; try discriminate.
    destruct (arot i js (set_nth s i None)) as [[k s1]|] eqn:R; try discriminate.
    destruct (nth_error s1 k) as [[?|]|] eqn:Ek; try discriminate. injection H as <-.
    unfold rotate_one. apply wp_bind. unfold relocate. apply wp_bind.
    eapply view_load; [exact W|exact (vals_nth _ _ _ Ei)|].
    apply wp_bind. eapply view_destroy; [exact W|exact (vals_nth _ _ _ Ei)|]. intros w1 W1.
    change (@None V) with (option_map x None) in W1. rewrite <- set_nth_comm_map in W1.
    apply wp_ret. apply wp_bind. eapply view_rotate; eauto. intros w2 W2.
    eapply view_begin_life; [exact W2|exact (vals_nth _ _ _ Ek)|]. intros w3 W3.
    change (Some (x u)) with (option_map x (Some u)) in W3. rewrite <- set_nth_comm_map in W3. auto.
Qed.
Lemma view_ops {Y} (y : Y) os s s' w (Q : Y -> unit -> world -> Prop) E :
  view w (vals s) -> aops os s = Some s' -> (forall w', view w' (vals s') -> Q y tt w') ->
  wp (run_ops moved (Some b) refs os) y w Q E.
Proof.
  revert s w. induction os as [|o os IH]; intros s w W H HQ; cbn in *.
  - injection H as <-. auto.
  - destruct (aop o s) as [s1|] eqn:E1; try discriminate. apply wp_bind. eapply view_op; eauto.
Qed.
Lemma all_some_map s p : all_some s = Some p -> s = map Some p.
Proof.
  revert p. induction s as [|[a|] s IH]; intros p H; cbn in H; try discriminate.
  - injection H as <-. reflexivity.
  - destruct (all_some s) as [q|]; try discriminate. injection H as <-. cbn. now rewrite (IH q).
Qed.
Lemma vals_some p : vals (map Some p) = map Some (map x p).
Proof. now rewrite !map_map. Qed.

Lemma view_run_in_place {Y} (y : Y) n t p0 it w (Q : Y -> unit -> world -> Prop) (E : Y -> world -> Prop) :
  in_range n t -> view w (map Some (map x (seq 0 n))) ->
  (exists p, leaf true n (decide lt x t) = Some p /\
     forall w', view w' (map Some (map x p)) -> Q y tt w') ->
  (forall w', ~ quiet -> view w' (map Some (map x (seq 0 n))) -> E y w') ->
  wp (run moved lt (Some b) refs p0 it t) y w Q E.
Proof.
  revert w. induction t as [i j yes IHy no IHn|ops|js]; intros w R W (p & L & HQ) HE.
  - destruct R as (Ri & Rj & Ry & Rn). cbn [run]. apply wp_bind.
    assert (G : forall k, k < n -> nth_error (map Some (map x (seq 0 n))) k = Some (Some (x k))).
    { intros k Hk. rewrite !nth_error_map. rewrite (nth_error_nth' _ 0) by (rewrite seq_length; lia).
      rewrite seq_nth by lia. reflexivity. }
    eapply view_less; [exact W|now apply G|now apply G| |exact HE].
    intros w1 W1. cbn [decide] in L. destruct (lt (x i) (x j)); [apply IHy|apply IHn]; eauto.
  - cbn [run decide] in *. cbn [leaf] in L. destruct (aops ops (map Some (seq 0 n))) as [s|] eqn:A; try discriminate.
    apply all_some_map in L. subst s.
    eapply view_ops; [|exact A|]. { rewrite vals_some. exact W. }
    intros w1 W1. rewrite vals_some in W1. auto.
  - discriminate.
Qed.
End View.

Lemma wp_in_place {Y} (y : Y) b pre l post n t h w (Q : Y -> unit -> world -> Prop) (E : Y -> world -> Prop) :
  strict_weak_order lt -> in_place_tree n = Some t -> n = length l ->
  at_ w h -> h b = Some (pre ++ map Some l ++ post) ->
  (forall l' w', stable_sorting lt l l' -> at_ w' (upd h b (Some (pre ++ map Some l' ++ post))) -> Q y tt w') ->
  (forall w', ~ quiet -> at_ w' h -> E y w') ->
  wp (sort_exactly_n_in_place moved lt (Some b) (length pre) n) y w Q E.
Proof.
  intros Hlt Ht Hn H Hb HQ HE. unfold sort_exactly_n_in_place. rewrite Ht.
  pose proof (in_place_checked _ _ Ht) as C.
  destruct l as [|d l0]. { cbn in Hn. subst n. discriminate. }
  set (l := d :: l0) in *. set (x := fun i => nth i l d).
  assert (Hx : map x (seq 0 n) = l). { subst n. apply (map_nth_seq l d). }
  assert (U : eqh (upd h b (Some (pre ++ map Some l ++ post))) h) by (now apply upd_id).
  destruct (check_decide lt Hlt x true true 0 n t [] (Forall_nil _) C) as (p & Lp & Pp & Kp).
  assert (Hv : view h b (seq (length pre) n) (pre ++ map Some l ++ post) w (map Some (map x (seq 0 n)))).
  { exists (pre ++ map Some l ++ post). split; [|split].
    - eapply at_ext; [exact H|now apply eqh_sym].
    - rewrite Hx. rewrite Hn. rewrite <- (map_length Some l). apply holds_seq.
    - apply frame_refl. }
  assert (Hback : forall l' w', length l' = n -> view h b (seq (length pre) n) (pre ++ map Some l ++ post) w' (map Some l') ->
    at_ w' (upd h b (Some (pre ++ map Some l' ++ post)))).
  { intros l' w' L (cs & H' & Hh & F).
    rewrite Hn in Hh, F. rewrite <- (map_length Some l) in Hh, F.
    eapply frame_seq in Hh; [|now rewrite !map_length, L|exact F]. now subst cs. }
  eapply view_run_in_place with (x := x) (n := n); [apply seq_NoDup|eapply check_in_range; eauto|exact Hv| |].
  - exists p. split; [exact Lp|]. intros w' W'. eapply HQ.
    + apply (stable_by_index lt Hlt l d p); [now rewrite <- Hn|exact Kp].
    + apply Hback; auto. rewrite map_length, (Permutation_length Pp). apply seq_length.
  - intros w' Hq W'. apply HE; auto. rewrite Hx in W'. apply Hback in W'; [|auto].
    eapply at_ext; [exact W'|exact U].
Qed.

(** ** Relocating to other storage *)
Section Out.
Context (h : @contents V) (b b' : nat) (refs : list nat) (cs0 : block V) (N : NoDup refs) (D : b <> b') (x : nat -> V).
Local Notation vals s := (map (option_map x) s).
Local Notation vw outs w cells := (view (upd h b' (Some outs)) b refs cs0 w cells).

Lemma view_out {Y} (y : Y) js s s' r1 r2 w (Q : Y -> unit -> world -> Prop) E :
  vw (r1 ++ repeat None (length js) ++ r2) w (vals s) -> aout js s = Some s' ->
  (forall w', vw (r1 ++ map Some (map x js) ++ r2) w' (vals s') -> Q y tt w') ->
  wp (relocate_in_order moved (Some b') (length r1) (Some b) (map (ref refs) js)) y w Q E.
Proof.
  revert s r1 w. induction js as [|j js IH]; intros s r1 w W H HQ; cbn in *.
  - injection H as <-. auto.
  - destruct (nth_error s j) as [[v|]|] eqn:Ej; try discriminate.
    destruct (v =? j) eqn:Ev; try discriminate. apply Nat.eqb_eq in Ev. subst v.
    apply wp_bind. unfold construct_at. apply wp_bind.
    pose proof W as (cs & H0 & Hh & F).
    eapply wp_require_raw; [exact H0|rewrite upd_other, upd_same by congruence; reflexivity|reflexivity|].
    apply wp_bind. cbn [make]. unfold relocate. apply wp_bind.
    eapply view_load; [exact W|exact (vals_nth x _ _ _ Ej)|]. apply wp_bind.
    eapply view_destroy; [exact N|exact W|exact (vals_nth x _ _ _ Ej)|]. intros w1 W1. apply wp_ret.
    change (@None V) with (option_map x None) in W1. rewrite <- set_nth_comm_map in W1.
    destruct W1 as (cs1 & H1 & Hh1 & F1).
    eapply wp_begin_life; [exact H1|rewrite upd_other, upd_same by congruence; reflexivity|reflexivity|].
    intros w2 H2. replace (S (length r1)) with (length (r1 ++ [Some (x j)])) by (rewrite app_length; cbn; lia).
    eapply IH; [|exact H|].
    + exists cs1. split; [|split]; auto. rewrite <- app_assoc. eapply at_ext; [exact H2|].
      intros k. unfold upd. destruct (k =? b') eqn:K1; destruct (k =? b) eqn:K2; auto.
      apply Nat.eqb_eq in K1, K2. congruence.
    + intros w3 W3. apply HQ. rewrite <- app_assoc in W3. exact W3.
Qed.
Lemma view_run_out {Y} (y : Y) n t w r1 r2 (Q : Y -> unit -> world -> Prop) (E : Y -> world -> Prop) :
  in_range n t -> vw (r1 ++ repeat None n ++ r2) w (map Some (map x (seq 0 n))) ->
  (exists p, leaf false n (decide lt x t) = Some p /\ length p = n /\
     forall w', vw (r1 ++ map Some (map x p) ++ r2) w' (repeat None n) -> Q y tt w') ->
  (forall w', ~ quiet -> vw (r1 ++ repeat None n ++ r2) w' (map Some (map x (seq 0 n))) -> E y w') ->
  wp (run moved lt (Some b) refs (Some b') (length r1) t) y w Q E.
Proof.
  revert w. induction t as [i j yes IHy no IHn|ops|js]; intros w R W (p & L & Lp & HQ) HE.
  - destruct R as (Ri & Rj & Ry & Rn). cbn [run]. apply wp_bind.
    assert (G : forall k, k < n -> nth_error (map Some (map x (seq 0 n))) k = Some (Some (x k))).
    { intros k Hk. rewrite !nth_error_map. rewrite (nth_error_nth' _ 0) by (rewrite seq_length; lia).
      rewrite seq_nth by lia. reflexivity. }
    eapply view_less; [exact W|now apply G|now apply G| |exact HE].
    intros w1 W1. cbn [decide] in L. destruct (lt (x i) (x j)); [apply IHy|apply IHn]; eauto.
  - discriminate.
  - cbn [run decide] in *. cbn [leaf] in L.
    destruct (aout js (map Some (seq 0 n))) as [s|] eqn:A; try discriminate.
    destruct (all_none s) eqn:An; try discriminate. injection L as <-.
    eapply view_out; [|exact A|]. { rewrite vals_some, Lp. exact W. }
    intros w1 W1. apply HQ.
    assert (Es : vals s = repeat None n).
    { assert (Ls : length s = n).
      { clear - A. assert (K : forall js s s', aout js s = Some s' -> length s' = length s).
        { clear. induction js as [|j js IH]; intros s s' H; cbn in H. { now injection H as <-. }
          destruct (nth_error s j) as [[v|]|]; try discriminate. destruct (v =? j); try discriminate.
          apply IH in H. rewrite H. apply length_set_nth. }
        apply K in A. rewrite A, map_length. apply seq_length. }
      rewrite <- Ls. clear - An. induction s as [|[a|] s IH]; cbn in *; auto; try discriminate. now rewrite IH. }
    now rewrite <- Es.
Qed.
End Out.

Definition sorting_as (stable : bool) (l l' : list V) : Prop :=
  if stable then stable_sorting lt l l' else sorting lt l l'.
Lemma wp_relocate_sort {Y} (y : Y) cheap b pre l post n t b' r1 r2 h w (Q : Y -> nat -> world -> Prop) (E : Y -> world -> Prop) :
  strict_weak_order lt -> relocate_tree cheap n = Some t -> n = length l -> b <> b' ->
  at_ w h -> h b = Some (pre ++ map Some l ++ post) -> h b' = Some (r1 ++ repeat None n ++ r2) ->
  (forall l' w', sorting_as (negb (cheap && (n =? 4))) l l' ->
     at_ w' (upd (upd h b (Some (pre ++ repeat None n ++ post))) b' (Some (r1 ++ map Some l' ++ r2))) -> Q y (length pre + n) w') ->
  (forall w', ~ quiet -> at_ w' h -> E y w') ->
  wp (sort_exactly_n_relocate moved lt cheap (Some b) (length pre) n (Some b') (length r1)) y w Q E.
Proof.
  intros Hlt Ht Hn D H Hb Hb' HQ HE. unfold sort_exactly_n_relocate. rewrite Ht.
  pose proof (relocate_checked _ _ _ Ht) as C. apply wp_bind.
  destruct l as [|d l0]. { cbn in Hn. subst n. discriminate. }
  set (l := d :: l0) in *. set (x := fun i => nth i l d).
  assert (Hx : map x (seq 0 n) = l). { subst n. apply (map_nth_seq l d). }
  destruct (check_decide lt Hlt x _ false n n t [] (Forall_nil _) C) as (p & Lp & Pp & Kp).
  assert (Np : length p = n). { rewrite (Permutation_length Pp). apply seq_length. }
  assert (U : eqh (upd h b' (Some (r1 ++ repeat None n ++ r2))) h) by (now apply upd_id).
  assert (Hback : forall outs cells w', length cells = n ->
    view (upd h b' (Some outs)) b (seq (length pre) n) (pre ++ map Some l ++ post) w' cells ->
    at_ w' (upd (upd h b (Some (pre ++ cells ++ post))) b' (Some outs))).
  { intros outs cells w' L (cs & H' & Hh & F).
    rewrite Hn in Hh, F. rewrite <- (map_length Some l) in Hh, F.
    eapply frame_seq in Hh; [|rewrite map_length; etransitivity; [exact L|exact Hn]|exact F]. subst cs.
    eapply at_ext; [exact H'|]. apply upd_comm. congruence. }
  eapply view_run_out with (x := x) (n := n) (cs0 := pre ++ map Some l ++ post) (h := h) (r2 := r2);
    [apply seq_NoDup|exact D|eapply check_in_range; eauto| | |].
  - exists (pre ++ map Some l ++ post). split; [|split].
    + eapply at_ext; [exact H|]. apply eqh_sym. eapply eqh_trans; [apply upd_id|exact U]. rewrite upd_other; auto.
    + rewrite Hx. rewrite Hn. rewrite <- (map_length Some l). apply holds_seq.
    + apply frame_refl.
  - exists p. split; [exact Lp|]. split; [exact Np|]. intros w' W'. apply wp_ret. eapply HQ.
    2:{ apply Hback; [apply repeat_length|exact W']. }
    unfold sorting_as. destruct (negb (cheap && (n =? 4))).
    + apply (stable_by_index lt Hlt l d p); [now rewrite <- Hn|exact Kp].
    + apply (sorting_by_index lt Hlt l d p); [now rewrite <- Hn|exact Kp].
  - intros w' Hq W'. apply HE; auto. rewrite Hx in W'. apply Hback in W'; [|now rewrite map_length].
    eapply at_ext; [exact W'|]. eapply eqh_trans; [apply upd_eqh, upd_id; exact Hb|exact U].
Qed.

(** ** sort_exactly_n and what is built on it *)
Lemma wp_with_buffer {Y A} n (body : ptr -> M Y A) (y : Y) h w (Q : Y -> A -> world -> Prop) (E : Y -> world -> Prop) :
  at_ w h ->
  (forall b w', h b = None -> at_ w' (upd h b (Some (repeat None n))) ->
     wp (body (Some b)) y w'
       (fun y a w'' => exists h', at_ w'' (upd h' b (Some (repeat None n))) /\ forall w3, at_ w3 (upd h' b None) -> Q y a w3)
       (fun y w'' => exists h', at_ w'' (upd h' b (Some (repeat None n))) /\ forall w3, at_ w3 (upd h' b None) -> E y w3)) ->
  wp (with_buffer n body) y w Q E.
Proof.
  intros H Hbody. unfold with_buffer. apply wp_local. eapply wp_new_block; [exact H|].
  intros w1 b Hb H1. specialize (Hbody b w1 Hb H1). unfold wp in Hbody. unfold wp at 1. cbn [fst snd].
  destruct (body (Some b) y w1) as [y2 a w2|y2 w2|]; [| |contradiction]; destruct Hbody as (h' & H2 & H3); cbn [fst snd];
    (change (wp (deallocate (Some b) n : M nat unit) b w2) with (wp (@deallocate V nat (Some b) n) b w2) ||
     idtac); (eapply wp_deallocate; [exact H2|apply upd_same|]); intros w3 K; apply H3; (eapply at_ext; [exact K|apply upd_upd]).
Qed.
End Proofs.
