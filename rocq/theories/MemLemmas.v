(** * Reasoning about the storage model of Mem.v *)

From Coq Require Import List Arith Bool Lia.
From Verif Require Import Mem.
Import ListNotations.

(** ** Lists *)
Lemma set_nth_app {A} (l1 : list A) x l2 y i :
  i = length l1 -> set_nth (l1 ++ x :: l2) i y = l1 ++ y :: l2.
Proof. intros ->. induction l1; cbn; congruence. Qed.
Lemma nth_error_mid {A} (l1 : list A) x l2 i :
  i = length l1 -> nth_error (l1 ++ x :: l2) i = Some x.
Proof. intros ->. rewrite nth_error_app2 by lia. now rewrite Nat.sub_diag. Qed.
Lemma length_set_nth {A} (l : list A) i a : length (set_nth l i a) = length l.
Proof. revert i; induction l; intros [|i]; cbn; auto. Qed.
Lemma nth_error_set_nth {A} (l : list A) i a j :
  nth_error (set_nth l i a) j = if (j =? i) && (i <? length l) then Some a else nth_error l j.
Proof.
  revert i j; induction l; intros [|i] [|j]; cbn; auto.
  - now rewrite andb_false_r.
  - rewrite IHl. reflexivity.
Qed.
Lemma repeat_snoc {A} (a : A) n : repeat a (S n) = repeat a n ++ [a].
Proof. induction n; cbn; f_equal; auto. Qed.
Lemma repeat_plus {A} (a : A) n m : repeat a (n + m) = repeat a n ++ repeat a m.
Proof. induction n; cbn; congruence. Qed.
Lemma repeat_app_cons {A} (a : A) n l : repeat a n ++ a :: l = a :: repeat a n ++ l.
Proof. induction n; cbn; congruence. Qed.
Lemma app_cons_assoc {A} (l1 : list A) x l2 : l1 ++ x :: l2 = (l1 ++ [x]) ++ l2.
Proof. now rewrite <- app_assoc. Qed.

Lemma Forall2_weaken {A B} (P Q : A -> B -> Prop) l l' : (forall a b, P a b -> Q a b) -> Forall2 P l l' -> Forall2 Q l l'.
Proof. intros H F. induction F; constructor; auto. Qed.

Lemma Forall2_len {A B} (P : A -> B -> Prop) l l' : Forall2 P l l' -> length l = length l'.
Proof. intros F. induction F; cbn; auto. Qed.

Section Lemmas.
Context {V : Type} (moved : V -> V) (quiet : Prop).
Local Notation M := (M V).
Local Notation world := (world V).
Local Notation block := (block V).
Local Notation maker := (maker V).
Local Notation construct_at := (construct_at moved).
Local Notation assign_at := (assign_at moved).
Local Notation uninitialized_copy := (uninitialized_copy moved).
Local Notation copy_loop := (copy_loop moved).
Local Notation uninitialized_relocate := (uninitialized_relocate moved).
Local Notation uninitialized_relocate_reversed := (uninitialized_relocate_reversed moved).

(** ** Weakest preconditions *)
Definition wp {X A} (m : M X A) (x : X) (w : world) (Q : X -> A -> world -> Prop) (E : X -> world -> Prop) : Prop :=
  match m x w with
  | Ret x a w => Q x a w
  | Exc x w => E x w
  | Bad _ => False
  end.

Lemma wp_conseq {X A} (m : M X A) x w (Q Q' : X -> A -> world -> Prop) (E E' : X -> world -> Prop) :
  wp m x w Q E -> (forall x a w, Q x a w -> Q' x a w) -> (forall x w, E x w -> E' x w) -> wp m x w Q' E'.
Proof. unfold wp. destruct (m x w); auto. Qed.
Lemma wp_ret {X A} (a : A) (x : X) w (Q : X -> A -> world -> Prop) E : Q x a w -> wp (ret a) x w Q E.
Proof. auto. Qed.
Lemma wp_throw {X A} (x : X) w (Q : X -> A -> world -> Prop) (E : X -> world -> Prop) : E x w -> wp throw x w Q E.
Proof. auto. Qed.
Lemma wp_get {X} (x : X) w (Q : X -> X -> world -> Prop) E : Q x x w -> wp get x w Q E.
Proof. auto. Qed.
Lemma wp_put {X} (x y : X) w (Q : X -> unit -> world -> Prop) E : Q y tt w -> wp (put y) x w Q E.
Proof. auto. Qed.
Lemma wp_require {X} b (x : X) w (Q : X -> unit -> world -> Prop) E : b = true -> Q x tt w -> wp (require b) x w Q E.
Proof. intros ->. auto. Qed.
Lemma wp_bind {X A B} (m : M X A) (k : A -> M X B) x w Q E :
  wp m x w (fun x a w => wp (k a) x w Q E) E -> wp (bind m k) x w Q E.
Proof. unfold wp, bind. destruct (m x w); auto. Qed.
Lemma wp_rethrow {X A} (m : M X A) h x w Q E :
  wp m x w Q (fun x w => wp h x w (fun x _ w => E x w) E) -> wp (rethrow_after m h) x w Q E.
Proof. unfold wp, rethrow_after. destruct (m x w); auto. destruct (h x0 w0); auto. Qed.
Lemma wp_local {X Y A} (ctor : M X Y) dtor (body : M (X * Y) A) x w Q E :
  wp ctor x w (fun x y w =>
    wp body (x, y) w
      (fun p a w => wp dtor (snd p) w (fun _ _ w => Q (fst p) a w) (fun _ _ => False))
      (fun p w => wp dtor (snd p) w (fun _ _ w => E (fst p) w) (fun _ _ => False))) E ->
  wp (with_local ctor dtor body) x w Q E.
Proof.
  unfold wp, with_local. destruct (ctor x w); auto.
  destruct (body (x0, a) w0) as [[? ?]|[? ?]|]; auto; cbn;
    match goal with |- context [dtor ?y ?w] => destruct (dtor y w); auto end.
Qed.
Lemma wp_fst {X Y A} (m : M X A) (p : X * Y) w Q E :
  wp m (fst p) w (fun x a w => Q (x, snd p) a w) (fun x w => E (x, snd p) w) -> wp (on_fst m) p w Q E.
Proof. unfold wp, on_fst. destruct (m (fst p) w); auto. Qed.
Lemma wp_snd {X Y A} (m : M Y A) (p : X * Y) w Q E :
  wp m (snd p) w (fun x a w => Q (fst p, x) a w) (fun x w => E (fst p, x) w) -> wp (on_snd m) p w Q E.
Proof. unfold wp, on_snd. destruct (m (snd p) w); auto. Qed.
Lemma wp_unit {X A} (m : M unit A) (x : X) w Q E :
  wp m tt w (fun _ a w => Q x a w) (fun _ w => E x w) -> wp (on_unit m) x w Q E.
Proof. unfold wp, on_unit. destruct (m tt w); auto. Qed.

(** ** What is in memory *)
Definition contents : Type := nat -> option block.
Definition upd (h : contents) (b : nat) (cs : option block) : contents :=
  fun b' => if b' =? b then cs else h b'.
Definition eqh (h h' : contents) : Prop := forall b, h b = h' b.
(** [quiet]: the outside world decides that nothing throws. *)
Definition at_ (w : world) (h : contents) : Prop :=
  eqh (heap w) h /\ (forall b, next w <= b -> h b = None) /\ (quiet -> ~ In true (script w)).

Lemma upd_same h b cs : upd h b cs b = cs.
Proof. unfold upd. now rewrite Nat.eqb_refl. Qed.
Lemma upd_other h b cs b' : b' <> b -> upd h b cs b' = h b'.
Proof. intros H. unfold upd. apply Nat.eqb_neq in H. now rewrite H. Qed.
Lemma upd_upd h b cs cs' : eqh (upd (upd h b cs) b cs') (upd h b cs').
Proof. intros x. unfold upd. now destruct (x =? b). Qed.
Lemma upd_comm h b b' cs cs' : b <> b' -> eqh (upd (upd h b cs) b' cs') (upd (upd h b' cs') b cs).
Proof.
  intros H x. unfold upd. destruct (x =? b) eqn:E1; destruct (x =? b') eqn:E2; auto.
  apply Nat.eqb_eq in E1, E2. congruence.
Qed.
Lemma upd_id h b cs : h b = cs -> eqh (upd h b cs) h.
Proof. intros H x. unfold upd. destruct (x =? b) eqn:E; auto. apply Nat.eqb_eq in E. now subst. Qed.
Lemma upd_eqh h h' b cs : eqh h h' -> eqh (upd h b cs) (upd h' b cs).
Proof. intros H x. unfold upd. destruct (x =? b); auto. Qed.
Lemma eqh_sym h h' : eqh h h' -> eqh h' h.
Proof. intros H b. symmetry. apply H. Qed.
Lemma eqh_trans h1 h2 h3 : eqh h1 h2 -> eqh h2 h3 -> eqh h1 h3.
Proof. intros H1 H2 b. now rewrite H1. Qed.
Lemma eqh_refl h : eqh h h.
Proof. now intros b. Qed.
Lemma at_ext w h h' : at_ w h -> eqh h h' -> at_ w h'.
Proof. intros (H1 & H2 & H3) H. split; [|split]; auto. - intros b. now rewrite H1. - intros b Hb. rewrite <- H. auto. Qed.

Lemma find_at w h b i cs c :
  at_ w h -> h b = Some cs -> nth_error cs i = Some c -> find_cell w (Some b) i = Some (b, cs, c).
Proof. intros [H _] Hb Hi. unfold find_cell. rewrite H, Hb, Hi. reflexivity. Qed.
Lemma at_set w h b cs cs' :
  at_ w h -> h b = Some cs -> at_ (set_block w b cs') (upd h b cs').
Proof.
  intros (H1 & H2 & H3) Hb. split; [|split]; cbn; auto.
  - intros x. unfold upd. destruct (x =? b); [reflexivity|apply H1].
  - intros x Hx. unfold upd. destruct (x =? b) eqn:E; auto.
    apply Nat.eqb_eq in E. subst. rewrite H2 in Hb by lia. discriminate.
Qed.

Lemma wp_load {X} b i cs v h (x : X) w (Q : X -> V -> world -> Prop) (E : X -> world -> Prop) :
  at_ w h -> h b = Some cs -> nth_error cs i = Some (Some v) -> Q x v w -> wp (load (Some b) i) x w Q E.
Proof. intros H Hb Hi HQ. unfold wp, load. erewrite find_at by eauto. exact HQ. Qed.
Lemma wp_store {X} b i l1 l2 v v' h (x : X) w (Q : X -> unit -> world -> Prop) (E : X -> world -> Prop) :
  at_ w h -> h b = Some (l1 ++ Some v' :: l2) -> i = length l1 ->
  (forall w', at_ w' (upd h b (Some (l1 ++ Some v :: l2))) -> Q x tt w') ->
  wp (store (Some b) i v) x w Q E.
Proof.
  intros H Hb Hi HQ. unfold wp, store. rewrite (find_at _ _ _ _ _ _ H Hb (nth_error_mid _ _ _ _ Hi)).
  apply HQ. rewrite set_nth_app by assumption. eapply at_set; eauto.
Qed.
Lemma wp_destroy {X} b i l1 l2 v h (x : X) w (Q : X -> unit -> world -> Prop) (E : X -> world -> Prop) :
  at_ w h -> h b = Some (l1 ++ Some v :: l2) -> i = length l1 ->
  (forall w', at_ w' (upd h b (Some (l1 ++ None :: l2))) -> Q x tt w') ->
  wp (destroy (Some b) i) x w Q E.
Proof.
  intros H Hb Hi HQ. unfold wp, destroy. rewrite (find_at _ _ _ _ _ _ H Hb (nth_error_mid _ _ _ _ Hi)).
  apply HQ. rewrite set_nth_app by assumption. eapply at_set; eauto.
Qed.
Lemma wp_require_raw {X} b i l1 l2 h (x : X) w (Q : X -> unit -> world -> Prop) (E : X -> world -> Prop) :
  at_ w h -> h b = Some (l1 ++ None :: l2) -> i = length l1 ->
  Q x tt w -> wp (require_raw (Some b) i) x w Q E.
Proof.
  intros H Hb Hi HQ. unfold wp, require_raw. rewrite (find_at _ _ _ _ _ _ H Hb (nth_error_mid _ _ _ _ Hi)). exact HQ.
Qed.
Lemma wp_begin_life {X} b i l1 l2 v h (x : X) w (Q : X -> unit -> world -> Prop) (E : X -> world -> Prop) :
  at_ w h -> h b = Some (l1 ++ None :: l2) -> i = length l1 ->
  (forall w', at_ w' (upd h b (Some (l1 ++ Some v :: l2))) -> Q x tt w') ->
  wp (begin_life (Some b) i v) x w Q E.
Proof.
  intros H Hb Hi HQ. unfold wp, begin_life. rewrite (find_at _ _ _ _ _ _ H Hb (nth_error_mid _ _ _ _ Hi)).
  apply HQ. rewrite set_nth_app by assumption. eapply at_set; eauto.
Qed.

Lemma wp_may_throw {X} h (x : X) w (Q : X -> unit -> world -> Prop) (E : X -> world -> Prop) :
  at_ w h -> (forall w', at_ w' h -> Q x tt w') -> (forall w', ~ quiet -> at_ w' h -> E x w') -> wp may_throw x w Q E.
Proof.
  intros (H1 & H2 & H3) HQ HE. unfold wp, may_throw. destruct (script w) as [|[] s] eqn:Hs.
  - apply HQ. split; [|split]; auto. now rewrite Hs.
  - apply HE. { intros q. apply (H3 q). now left. } split; [|split]; auto. cbn. intros q. elim (H3 q). now left.
  - apply HQ. split; [|split]; auto. cbn. intros q Hin. apply (H3 q). now right.
Qed.
Lemma wp_new_block {X} n h (x : X) w (Q : X -> nat -> world -> Prop) (E : X -> world -> Prop) :
  at_ w h -> (forall w' b, h b = None -> at_ w' (upd h b (Some (repeat None n))) -> Q x b w') -> wp (new_block n) x w Q E.
Proof.
  intros (H1 & H2 & H3) HQ. unfold wp, new_block. apply HQ. { apply H2. lia. }
  split; [|split]; cbn; auto.
  - intros b. unfold upd. destruct (b =? next w); [reflexivity|apply H1].
  - intros b Hb. unfold upd. destruct (b =? next w) eqn:E0. { apply Nat.eqb_eq in E0. lia. } apply H2. lia.
Qed.
Lemma wp_allocate {X} n h (x : X) w (Q : X -> nat -> world -> Prop) (E : X -> world -> Prop) :
  at_ w h -> (forall w' b, h b = None -> at_ w' (upd h b (Some (repeat None n))) -> Q x b w') ->
  (forall w', ~ quiet -> at_ w' h -> E x w') -> wp (allocate n) x w Q E.
Proof.
  intros H HQ HE. unfold allocate. apply wp_bind. eapply wp_may_throw; eauto.
  intros w' H'. eapply wp_new_block; eauto.
Qed.
Lemma forallb_none n : forallb (fun c : cell V => match c with None => true | Some _ => false end) (repeat None n) = true.
Proof. induction n; cbn; auto. Qed.
Lemma wp_deallocate {X} b n h (x : X) w (Q : X -> unit -> world -> Prop) (E : X -> world -> Prop) :
  at_ w h -> h b = Some (repeat None n) ->
  (forall w', at_ w' (upd h b None) -> Q x tt w') -> wp (deallocate (Some b) n) x w Q E.
Proof.
  intros H Hb HQ. unfold wp, deallocate. pose proof H as (H1 & _ & _). rewrite H1, Hb.
  rewrite repeat_length, Nat.eqb_refl, forallb_none. cbn.
  apply HQ. eapply at_set; eauto.
Qed.

(** ** Making elements *)

(** [yields h mk v]: in memory [h] the maker produces the value [v] and disturbs nothing. *)
Definition yields (h : contents) (mk : maker) (v : V) : Prop :=
  match mk with
  | Supply v' => v' = v
  | CopyOf (Some b) i => exists cs, h b = Some cs /\ nth_error cs i = Some (Some v)
  | _ => False
  end.
Lemma wp_make {X} mk v h (x : X) w (Q : X -> V -> world -> Prop) (E : X -> world -> Prop) :
  at_ w h -> yields h mk v ->
  (forall w', at_ w' h -> Q x v w') -> (forall w', ~ quiet -> at_ w' h -> E x w') -> wp (make moved mk) x w Q E.
Proof.
  intros H Hy HQ HE. destruct mk as [v'|[b|] i|[b|] i|[b|] i]; cbn [yields] in Hy; try contradiction.
  - subst. cbn [make]. apply wp_bind. eapply wp_may_throw; eauto.
  - destruct Hy as (cs & Hb & Hi). cbn [make]. apply wp_bind. eapply wp_load; eauto.
    apply wp_bind. eapply wp_may_throw; eauto.
Qed.
Lemma wp_construct {X} b i l1 l2 mk v h (x : X) w (Q : X -> unit -> world -> Prop) (E : X -> world -> Prop) :
  at_ w h -> h b = Some (l1 ++ None :: l2) -> i = length l1 -> yields h mk v ->
  (forall w', at_ w' (upd h b (Some (l1 ++ Some v :: l2))) -> Q x tt w') ->
  (forall w', ~ quiet -> at_ w' h -> E x w') ->
  wp (construct_at (Some b) i mk) x w Q E.
Proof.
  intros H Hb Hi Hy HQ HE. unfold construct_at. apply wp_bind. eapply wp_require_raw; eauto.
  apply wp_bind. eapply wp_make; eauto. intros w' H'. eapply wp_begin_life; eauto.
Qed.
Lemma wp_relocate {X} b i l1 l2 v h (x : X) w (Q : X -> V -> world -> Prop) (E : X -> world -> Prop) :
  at_ w h -> h b = Some (l1 ++ Some v :: l2) -> i = length l1 ->
  (forall w', at_ w' (upd h b (Some (l1 ++ None :: l2))) -> Q x v w') ->
  wp (relocate (Some b) i) x w Q E.
Proof.
  intros H Hb Hi HQ. unfold relocate. apply wp_bind. eapply wp_load; eauto. { now apply nth_error_mid. }
  apply wp_bind. eapply wp_destroy; eauto.
Qed.
(** Relocation between two blocks. *)
Lemma wp_relocate_to {X} b i l1 l2 v b' j r1 r2 h (x : X) w (Q : X -> unit -> world -> Prop) (E : X -> world -> Prop) :
  at_ w h -> b <> b' ->
  h b = Some (l1 ++ Some v :: l2) -> i = length l1 ->
  h b' = Some (r1 ++ None :: r2) -> j = length r1 ->
  (forall w', at_ w' (upd (upd h b (Some (l1 ++ None :: l2))) b' (Some (r1 ++ Some v :: r2))) -> Q x tt w') ->
  wp (construct_at (Some b') j (Relocate (Some b) i)) x w Q E.
Proof.
  intros H Hn Hb Hi Hb' Hj HQ. unfold construct_at. apply wp_bind. eapply wp_require_raw; eauto.
  apply wp_bind. cbn [make]. eapply wp_relocate; eauto. intros w' H'.
  eapply wp_begin_life; eauto. rewrite upd_other by congruence. eassumption.
Qed.
(** Relocation inside one block, towards the end. *)
Lemma wp_relocate_up {X} b i j l1 l2 l3 v h (x : X) w (Q : X -> unit -> world -> Prop) (E : X -> world -> Prop) :
  at_ w h -> h b = Some (l1 ++ Some v :: l2 ++ None :: l3) ->
  i = length l1 -> j = length l1 + 1 + length l2 ->
  (forall w', at_ w' (upd h b (Some (l1 ++ None :: l2 ++ Some v :: l3))) -> Q x tt w') ->
  wp (construct_at (Some b) j (Relocate (Some b) i)) x w Q E.
Proof.
  intros H Hb Hi Hj HQ. unfold construct_at. apply wp_bind.
  assert (Hs : forall c d : cell V, l1 ++ c :: l2 ++ d :: l3 = (l1 ++ c :: l2) ++ d :: l3).
  { intros c d. now rewrite <- app_assoc. }
  eapply wp_require_raw; eauto. { rewrite Hb, Hs. reflexivity. } { rewrite app_length; cbn; lia. }
  apply wp_bind. cbn [make]. eapply wp_relocate; eauto. intros w' H'.
  eapply wp_begin_life; eauto. { rewrite upd_same, Hs. reflexivity. } { rewrite app_length; cbn; lia. }
  intros w'' H''. apply HQ. rewrite <- Hs in H''. eapply at_ext; [exact H''|]. apply upd_upd.
Qed.
(** Relocation inside one block, towards the beginning. *)
Lemma wp_relocate_down {X} b i j l1 l2 l3 v h (x : X) w (Q : X -> unit -> world -> Prop) (E : X -> world -> Prop) :
  at_ w h -> h b = Some (l1 ++ None :: l2 ++ Some v :: l3) ->
  j = length l1 -> i = length l1 + 1 + length l2 ->
  (forall w', at_ w' (upd h b (Some (l1 ++ Some v :: l2 ++ None :: l3))) -> Q x tt w') ->
  wp (construct_at (Some b) j (Relocate (Some b) i)) x w Q E.
Proof.
  intros H Hb Hj Hi HQ. unfold construct_at. apply wp_bind.
  assert (Hs : forall c d : cell V, l1 ++ c :: l2 ++ d :: l3 = (l1 ++ c :: l2) ++ d :: l3).
  { intros c d. now rewrite <- app_assoc. }
  eapply wp_require_raw; eauto.
  apply wp_bind. cbn [make]. eapply wp_relocate; eauto. { rewrite Hb, Hs. reflexivity. } { rewrite app_length; cbn; lia. }
  intros w' H'.
  eapply wp_begin_life; eauto. { rewrite upd_same, <- Hs. reflexivity. }
  intros w'' H''. apply HQ. eapply at_ext; eauto. apply upd_upd.
Qed.

(** ** Loops *)
Lemma wp_destroy_range {X} b from vs l1 l2 h (x : X) w (Q : X -> unit -> world -> Prop) (E : X -> world -> Prop) n :
  at_ w h -> h b = Some (l1 ++ map Some vs ++ l2) -> from = length l1 -> n = length vs ->
  (forall w', at_ w' (upd h b (Some (l1 ++ repeat None n ++ l2))) -> Q x tt w') ->
  wp (destroy_range (Some b) from n) x w Q E.
Proof.
  intros H Hb -> -> HQ. unfold destroy_range.
  revert l1 h w H Hb HQ. induction vs as [|v vs IH]; intros l1 h w H Hb HQ; cbn.
  - apply HQ. eapply at_ext; eauto. apply eqh_sym, upd_id. exact Hb.
  - apply wp_bind. eapply wp_destroy; eauto. { exact Hb. }
    intros w1 H1. replace (S (length l1)) with (length (l1 ++ [@None V])) by (rewrite app_length; cbn; lia).
    eapply IH. { exact H1. } { rewrite upd_same. now rewrite app_cons_assoc. }
    intros w2 H2. apply HQ. eapply at_ext; eauto.
    rewrite <- app_cons_assoc. apply upd_upd.
Qed.

(** The elements made so far are in [l1 ++ done]; on an exception they are destroyed again. *)
Lemma wp_copy_loop {X} b from dn vs ds mks l1 l2 h0 h (x : X) w (Q : X -> unit -> world -> Prop) (E : X -> world -> Prop) :
  at_ w h -> h b = Some (l1 ++ map Some ds ++ repeat None (length mks) ++ l2) ->
  eqh (upd h b (Some (l1 ++ repeat None (length ds + length mks) ++ l2))) h0 ->
  from = length l1 -> dn = length ds ->
  Forall2 (yields h) mks vs ->
  (forall w', at_ w' (upd h0 b (Some (l1 ++ map Some (ds ++ vs) ++ l2))) -> Q x tt w') ->
  (forall w', ~ quiet -> at_ w' h0 -> E x w') ->
  wp (copy_loop (Some b) from dn mks) x w Q E.
Proof.
  intros H Hb Hh Hf Hd Hy HQ HE. revert ds dn Hd h w H Hb Hh vs Hy HQ.
  induction mks as [|mk mks IH]; intros ds dn Hd h w H Hb Hh vs Hy HQ; inversion Hy as [|? v ? vs' Hv Hvs]; subst; cbn [copy_loop Mem.copy_loop].
  - apply wp_ret. apply HQ. eapply at_ext; eauto. apply eqh_sym.
    eapply eqh_trans. { apply upd_eqh. apply eqh_sym. exact Hh. }
    eapply eqh_trans. { apply upd_upd. } apply upd_id. rewrite Hb. cbn. now rewrite app_nil_r.
  - apply wp_bind. apply wp_rethrow.
    cbn [length repeat] in Hb.
    assert (Hb' : h b = Some ((l1 ++ map Some ds) ++ None :: (repeat None (length mks) ++ l2))).
    { rewrite Hb. now rewrite <- app_assoc. }
    eapply wp_construct; eauto. { rewrite app_length, map_length. lia. }
    + intros w1 H1. eapply IH with (ds := ds ++ [v]) (vs := vs').
      * rewrite app_length. cbn. lia.
      * exact H1.
      * rewrite upd_same, map_app. cbn [map]. rewrite <- !app_assoc. reflexivity.
      * eapply eqh_trans. { apply upd_upd. } rewrite app_length. cbn [length] in *.
        replace (length ds + 1 + length mks) with (length ds + S (length mks)) by lia. exact Hh.
      * eapply Forall2_weaken; [|exact Hvs]. intros m u Hu. destruct m as [v'|[b'|] i|[b'|] i|[b'|] i]; cbn in *; auto.
        destruct Hu as (cs & Hc & Hi). destruct (Nat.eq_dec b' b) as [->|Hn].
        -- rewrite upd_same. eexists. split; [reflexivity|].
           rewrite Hb' in Hc. injection Hc as <-.
           set (k := length (l1 ++ map Some ds)) in *.
           destruct (lt_eq_lt_dec i k) as [[Hlt|Heq]|Hgt].
           ++ rewrite nth_error_app1 in * by assumption. exact Hi.
           ++ rewrite nth_error_mid in Hi by assumption. discriminate.
           ++ rewrite nth_error_app2 in * by lia. fold k in Hi |- *.
              destruct (i - k) as [|r] eqn:Er; [lia|]. exact Hi.
        -- rewrite upd_other by assumption. eauto.
      * rewrite <- app_assoc. exact HQ.
    + intros w1 Hq H1. eapply wp_destroy_range; eauto.
      intros w2 H2. apply HE; auto. eapply at_ext; eauto.
      eapply eqh_trans; [|exact Hh]. cbn [length].
      rewrite repeat_plus, <- app_assoc. apply eqh_refl.
Qed.
Lemma wp_uninitialized_copy {X} b from vs mks l1 l2 h (x : X) w (Q : X -> unit -> world -> Prop) (E : X -> world -> Prop) :
  at_ w h -> h b = Some (l1 ++ repeat None (length mks) ++ l2) ->
  from = length l1 -> Forall2 (yields h) mks vs ->
  (forall w', at_ w' (upd h b (Some (l1 ++ map Some vs ++ l2))) -> Q x tt w') ->
  (forall w', ~ quiet -> at_ w' h -> E x w') ->
  wp (uninitialized_copy (Some b) from mks) x w Q E.
Proof.
  intros H Hb Hf Hy HQ HE. unfold Mem.uninitialized_copy.
  eapply wp_copy_loop with (ds := []) (h0 := h); eauto; [exact Hb|]. apply upd_id. exact Hb.
Qed.
Lemma wp_uninitialized_copy_nil {X} p from (x : X) w (Q : X -> unit -> world -> Prop) (E : X -> world -> Prop) :
  Q x tt w -> wp (uninitialized_copy p from []) x w Q E.
Proof. auto. Qed.

Lemma wp_uninitialized_relocate {X} b i b' j vs l1 l2 r1 r2 h (x : X) w (Q : X -> unit -> world -> Prop) (E : X -> world -> Prop) n :
  at_ w h -> b <> b' ->
  h b = Some (l1 ++ map Some vs ++ l2) -> i = length l1 -> n = length vs ->
  h b' = Some (r1 ++ repeat None n ++ r2) -> j = length r1 ->
  (forall w', at_ w' (upd (upd h b (Some (l1 ++ repeat None n ++ l2))) b' (Some (r1 ++ map Some vs ++ r2))) -> Q x tt w') ->
  wp (uninitialized_relocate (Some b) i n (Some b') j) x w Q E.
Proof.
  intros H Hn Hb -> -> Hb' -> HQ.
  revert l1 r1 h w H Hb Hb' HQ. induction vs as [|v vs IH]; intros l1 r1 h w H Hb Hb' HQ; cbn.
  - apply HQ. eapply at_ext; eauto. apply eqh_sym. eapply eqh_trans; [|apply upd_id; exact Hb'].
    apply upd_eqh. apply upd_id. exact Hb.
  - apply wp_bind. eapply wp_relocate_to; eauto. { exact Hb. } { exact Hb'. }
    intros w1 H1.
    replace (S (length l1)) with (length (l1 ++ [@None V])) by (rewrite app_length; cbn; lia).
    replace (S (length r1)) with (length (r1 ++ [@Some V v])) by (rewrite app_length; cbn; lia).
    eapply IH. { exact H1. }
    + rewrite upd_other, upd_same by assumption. now rewrite app_cons_assoc.
    + rewrite upd_same. now rewrite app_cons_assoc.
    + intros w2 H2. apply HQ. eapply at_ext; eauto.
      rewrite <- !app_cons_assoc. cbn [map app].
      eapply eqh_trans.
      { apply upd_eqh. apply upd_comm. congruence. }
      eapply eqh_trans. { apply upd_upd. }
      apply upd_eqh. apply upd_upd.
Qed.
Lemma wp_uninitialized_relocate_0 {X} p i p' j (x : X) w (Q : X -> unit -> world -> Prop) (E : X -> world -> Prop) :
  Q x tt w -> wp (uninitialized_relocate p i 0 p' j) x w Q E.
Proof. auto. Qed.

(** Shifting towards the beginning by [k + 1] inside one block. *)
Lemma wp_shift_down {X} b i j vs k l1 l2 h (x : X) w (Q : X -> unit -> world -> Prop) (E : X -> world -> Prop) n :
  at_ w h ->
  h b = Some (l1 ++ repeat None (S k) ++ map Some vs ++ l2) ->
  j = length l1 -> i = length l1 + S k -> n = length vs ->
  (forall w', at_ w' (upd h b (Some (l1 ++ map Some vs ++ repeat None (S k) ++ l2))) -> Q x tt w') ->
  wp (uninitialized_relocate (Some b) i n (Some b) j) x w Q E.
Proof.
  intros H Hb -> -> -> HQ.
  revert l1 h w H Hb HQ. induction vs as [|v vs IH]; intros l1 h w H Hb HQ; cbn [length map Mem.uninitialized_relocate].
  - apply wp_ret. apply HQ. eapply at_ext; eauto. apply eqh_sym, upd_id. exact Hb.
  - apply wp_bind.
    eapply wp_relocate_down with (l1 := l1) (l2 := repeat None k) (l3 := map Some vs ++ l2) (v := v); eauto.
    { rewrite repeat_length. lia. }
    intros w1 H1.
    replace (S (length l1 + S k)) with (length (l1 ++ [Some v]) + S k) by (rewrite app_length; cbn; lia).
    replace (S (length l1)) with (length (l1 ++ [Some v])) by (rewrite app_length; cbn; lia).
    eapply IH. { exact H1. }
    + rewrite upd_same. rewrite <- app_cons_assoc. f_equal. f_equal. f_equal.
      cbn [repeat app]. now rewrite repeat_app_cons.
    + intros w2 H2. apply HQ. eapply at_ext; eauto. rewrite <- app_cons_assoc. apply upd_upd.
Qed.
(** Shifting towards the end by [k + 1] inside one block. *)
Lemma wp_shift_up {X} b i j vs k l1 l2 h (x : X) w (Q : X -> unit -> world -> Prop) (E : X -> world -> Prop) n :
  at_ w h ->
  h b = Some (l1 ++ map Some vs ++ repeat None (S k) ++ l2) ->
  i = length l1 -> j = length l1 + S k -> n = length vs ->
  (forall w', at_ w' (upd h b (Some (l1 ++ repeat None (S k) ++ map Some vs ++ l2))) -> Q x tt w') ->
  wp (uninitialized_relocate_reversed (Some b) i n (Some b) j) x w Q E.
Proof.
  intros H Hb -> -> -> HQ.
  revert l2 h w H Hb HQ. induction vs as [|v vs IH] using rev_ind; intros l2 h w H Hb HQ.
  - cbn. apply HQ. eapply at_ext; eauto. apply eqh_sym, upd_id. exact Hb.
  - rewrite app_length. cbn [length]. rewrite Nat.add_1_r. cbn [Mem.uninitialized_relocate_reversed].
    apply wp_bind.
    eapply wp_relocate_up with (l1 := l1 ++ map Some vs) (l2 := repeat None k) (l3 := l2) (v := v); eauto.
    { rewrite Hb. rewrite map_app. cbn [map]. rewrite <- !app_assoc. cbn [app repeat].
      f_equal. f_equal. f_equal. f_equal. now rewrite repeat_app_cons. }
    { rewrite app_length, map_length. lia. }
    { rewrite app_length, map_length, repeat_length. lia. }
    intros w1 H1. eapply IH. { exact H1. }
    + rewrite upd_same. rewrite <- app_assoc. cbn [repeat app]. reflexivity.
    + intros w2 H2. apply HQ. eapply at_ext; eauto.
      eapply eqh_trans; [apply upd_upd|]. rewrite map_app. cbn [map]. rewrite <- !app_assoc. cbn [app]. apply eqh_refl.
Qed.

End Lemmas.
