(** * What an operation does to the world besides the memory: allocations and the script *)

From Coq Require Import List Arith Bool Lia.
From Verif Require Import Mem Vec.
Import ListNotations.

Section Cost.
Context {V : Type} (moved : V -> V).
Local Notation world := (world V).
Local Notation M := (M V).

(** [R k w w']: the world may go from [w] to [w'] with at most [k] new blocks. *)
Record evolution (R : nat -> world -> world -> Prop) : Prop := {
  ev_refl : forall w, R 0 w w;
  ev_trans : forall a b w w' w'', R a w w' -> R b w' w'' -> R (a + b) w w'';
  ev_weaken : forall a b w w', a <= b -> R a w w' -> R b w w';
  ev_set : forall w b cs, R 0 w (set_block w b cs);
  ev_new : forall w h, R 1 w (World h (S (next w)) (script w));
  ev_tail : forall w b s, script w = b :: s -> R 0 w (World (heap w) (next w) s)
}.

Context (R : nat -> world -> world -> Prop) (EV : evolution R).

Definition evolves (k : nat) {X A} (m : M X A) : Prop :=
  forall x w, match m x w with Ret _ _ w' | Exc _ w' => R k w w' | Bad _ => True end.

Lemma evolves_weaken a b {X A} (m : M X A) : evolves a m -> a <= b -> evolves b m.
Proof. intros H Hab x w. specialize (H x w). destruct (m x w); auto; eapply (ev_weaken R EV); eauto. Qed.
Lemma evolves_bind a b {X A A'} (m : M X A) (k : A -> M X A') :
  evolves a m -> (forall v, evolves b (k v)) -> evolves (a + b) (bind m k).
Proof.
  intros Hm Hk x w. unfold bind. specialize (Hm x w). destruct (m x w) as [x' v w'|x' w'|]; auto.
  - specialize (Hk v x' w'). destruct (k v x' w'); auto; eapply (ev_trans R EV); eauto.
  - eapply (ev_weaken R EV); [|exact Hm]. lia.
Qed.
Lemma evolves_bind0 b {X A A'} (m : M X A) (k : A -> M X A') :
  evolves 0 m -> (forall v, evolves b (k v)) -> evolves b (bind m k).
Proof. intros. now apply (evolves_bind 0 b). Qed.
Lemma evolves_rethrow {X A} (m : M X A) h : evolves 0 m -> evolves 0 h -> evolves 0 (rethrow_after m h).
Proof.
  intros Hm Hh x w. unfold rethrow_after. specialize (Hm x w). destruct (m x w) as [x' v w'|x' w'|]; auto.
  specialize (Hh x' w'). destruct (h x' w'); auto; now apply (ev_trans R EV 0 0 w w').
Qed.
Lemma evolves_local a b {X Y A} (c : M X Y) d (body : M (X * Y) A) :
  evolves a c -> evolves 0 d -> evolves b body -> evolves (a + b) (with_local c d body).
Proof.
  intros Hc Hd Hb x w. unfold with_local. specialize (Hc x w). destruct (c x w) as [x1 y w1|x1 w1|]; auto.
  2:{ eapply (ev_weaken R EV); [|exact Hc]. lia. }
  specialize (Hb (x1, y) w1). destruct (body (x1, y) w1) as [[x2 y2] v w2|[x2 y2] w2|]; auto;
  specialize (Hd y2 w2); destruct (d y2 w2); auto;
  (replace (a + b) with (a + (b + 0)) by lia; eapply (ev_trans R EV); [exact Hc|]; eapply (ev_trans R EV); eauto).
Qed.
Lemma evolves_fst k {X Y A} (m : M X A) : evolves k m -> evolves k (on_fst (Y := Y) m).
Proof. intros H p w. unfold on_fst. specialize (H (fst p) w). destruct (m (fst p) w); auto. Qed.
Lemma evolves_snd k {X Y A} (m : M Y A) : evolves k m -> evolves k (on_snd (X := X) m).
Proof. intros H p w. unfold on_snd. specialize (H (snd p) w). destruct (m (snd p) w); auto. Qed.
Lemma evolves_unit k {X A} (m : M unit A) : evolves k m -> evolves k (on_unit (X := X) m).
Proof. intros H p w. unfold on_unit. specialize (H tt w). destruct (m tt w); auto. Qed.
Lemma evolves_ret {X A} (a : A) : evolves 0 (ret (X := X) a). Proof. intros x w. apply (ev_refl R EV). Qed.
Lemma evolves_get {X} : evolves 0 (get (X := X)). Proof. intros x w. apply (ev_refl R EV). Qed.
Lemma evolves_put {X} (x : X) : evolves 0 (put x). Proof. intros y w. apply (ev_refl R EV). Qed.
Lemma evolves_throw {X A} : evolves 0 (throw (X := X) (A := A)). Proof. intros x w. apply (ev_refl R EV). Qed.
Lemma evolves_bad {X A} e : evolves 0 (bad (X := X) (A := A) e). Proof. intros x w. exact I. Qed.
Lemma evolves_require {X} b : evolves 0 (require (X := X) b).
Proof. destruct b; [apply evolves_ret|apply evolves_bad]. Qed.
Lemma evolves_may_throw {X} : evolves 0 (may_throw (X := X)).
Proof.
  intros x w. unfold may_throw. destruct (script w) as [|[] s] eqn:Hs; [apply (ev_refl R EV)|eapply (ev_tail R EV); eauto..].
Qed.
Ltac find_it p i := intros x w; unfold load, store, destroy, require_raw, begin_life;
  destruct (find_cell w p i) as [[[? ?] [?|]]|]; exact I || apply (ev_refl R EV) || apply (ev_set R EV).
Lemma evolves_load {X} p i : evolves 0 (load (X := X) p i). Proof. find_it p i. Qed.
Lemma evolves_store {X} p i v : evolves 0 (store (X := X) p i v). Proof. find_it p i. Qed.
Lemma evolves_destroy {X} p i : evolves 0 (destroy (X := X) p i). Proof. find_it p i. Qed.
Lemma evolves_require_raw {X} p i : evolves 0 (require_raw (X := X) p i). Proof. find_it p i. Qed.
Lemma evolves_begin_life {X} p i v : evolves 0 (begin_life (X := X) p i v). Proof. find_it p i. Qed.
Lemma evolves_allocate {X} n : evolves 1 (allocate (X := X) n).
Proof. unfold allocate. apply evolves_bind0; [apply evolves_may_throw|intros _]. intros x w. apply (ev_new R EV). Qed.
Lemma evolves_deallocate {X} p n : evolves 0 (deallocate (X := X) p n).
Proof.
  intros x w. unfold deallocate. destruct p as [b|]; auto. destruct (heap w b) as [cs|]; auto. destruct (negb _); auto.
  match goal with |- context [forallb ?f cs] => destruct (forallb f cs) end; auto. apply (ev_set R EV).
Qed.
Lemma evolves_make {X} mk : evolves 0 (make (X := X) moved mk).
Proof.
  destruct mk; cbn [make]; unfold relocate;
  repeat (apply evolves_bind0; [|intros ?]); auto using evolves_may_throw, evolves_load, evolves_store, evolves_destroy, evolves_ret.
Qed.
Lemma evolves_construct_at {X} p i mk : evolves 0 (construct_at (X := X) moved p i mk).
Proof. unfold construct_at. apply evolves_bind0; [apply evolves_require_raw|intros _]. apply evolves_bind0; [apply evolves_make|intros v; apply evolves_begin_life]. Qed.
Lemma evolves_assign_at {X} p i mk : evolves 0 (assign_at (X := X) moved p i mk).
Proof. unfold assign_at. apply evolves_bind0; [apply evolves_make|intros v; apply evolves_store]. Qed.
Lemma evolves_for_each {X} from n (body : nat -> M X unit) : (forall i, evolves 0 (body i)) -> evolves 0 (for_each from n body).
Proof. intros H. revert from. induction n as [|n IH]; intros from; cbn; [apply evolves_ret|]. apply evolves_bind0; auto. Qed.
Lemma evolves_destroy_range {X} p i n : evolves 0 (destroy_range (X := X) p i n).
Proof. apply evolves_for_each. intros. apply evolves_destroy. Qed.
Lemma evolves_copy {X} p i mks : evolves 0 (uninitialized_copy (X := X) moved p i mks).
Proof.
  unfold uninitialized_copy. generalize 0 at 2. induction mks as [|mk mks IH]; intros d; cbn; [apply evolves_ret|].
  apply evolves_bind0; auto. apply evolves_rethrow; [apply evolves_construct_at|apply evolves_destroy_range].
Qed.
Lemma evolves_relocate {X} p i n q j : evolves 0 (uninitialized_relocate (X := X) moved p i n q j).
Proof. revert i j. induction n as [|n IH]; intros; cbn; [apply evolves_ret|]. apply evolves_bind0; auto using evolves_construct_at. Qed.
Lemma evolves_relocate_reversed {X} p i n q j : evolves 0 (uninitialized_relocate_reversed (X := X) moved p i n q j).
Proof. revert i j. induction n as [|n IH]; intros; cbn; [apply evolves_ret|]. apply evolves_bind0; auto using evolves_construct_at. Qed.

Ltac ev0 := repeat first
  [ apply evolves_construct_at | apply evolves_assign_at | apply evolves_destroy_range | apply evolves_copy | apply evolves_relocate
  | apply evolves_relocate_reversed | apply evolves_deallocate
  | apply evolves_bind0; [|intros ?] | apply evolves_rethrow | apply evolves_ret | apply evolves_get | apply evolves_put | apply evolves_throw
  | apply evolves_require | apply evolves_bad | apply evolves_may_throw | apply evolves_load | apply evolves_destroy ].

Section Vector.
Context (minc maxc : nat).
Local Notation C := (bounded_vector (V := V) moved minc maxc).

Lemma evolves_deallocate_storage {X} s : evolves 0 (deallocate_storage (X := X) s).
Proof. unfold deallocate_storage. destruct (u_pointer s); ev0. Qed.
Lemma evolves_allocate_storage {X} n : evolves 1 (allocate_storage (X := X) n).
Proof. unfold allocate_storage. apply (evolves_bind 1 0); [apply evolves_allocate|intros b; ev0]. Qed.
Lemma evolves_capacity : evolves 0 (bv_capacity (V := V) minc maxc).
Proof. unfold bv_capacity, storage_capacity. ev0. destruct (minc =? maxc); ev0. Qed.
Lemma evolves_set_size n : evolves 0 (bv_set_size (V := V) minc maxc n).
Proof. unfold bv_set_size. apply evolves_bind0; [apply evolves_capacity|intros c]. ev0. Qed.
Lemma evolves_default : evolves 1 (bv_default (V := V) minc).
Proof.
  unfold bv_default, bv_initial_storage. apply (evolves_bind 1 0); [|intros s; ev0].
  destruct (minc =? 0); [eapply (evolves_weaken 0); [ev0|lia]|apply evolves_allocate_storage].
Qed.
Lemma evolves_default_0 : minc = 0 -> evolves 0 (bv_default (V := V) minc).
Proof. intros ->. unfold bv_default, bv_initial_storage. cbn. ev0. Qed.
Lemma evolves_bv_destroy : evolves 0 (bv_destroy (V := V)).
Proof. unfold bv_destroy. ev0. apply evolves_deallocate_storage. Qed.
Lemma evolves_move_assign : evolves 0 (bv_move_assign (V := V)).
Proof. unfold bv_move_assign. ev0. apply evolves_deallocate_storage. Qed.
Lemma evolves_reservation {X} n : evolves 0 (reservation_size (V := V) (X := X) minc maxc n).
Proof. unfold reservation_size. ev0. Qed.
Lemma evolves_reserve n : evolves 1 (bv_reserve moved minc maxc n).
Proof.
  unfold bv_reserve. apply evolves_bind0; [apply evolves_capacity|intros c]. destruct (n <=? c); [eapply (evolves_weaken 0); [ev0|lia]|].
  apply evolves_bind0; [apply evolves_reservation|intros k].
  apply (evolves_local 1 0); [apply evolves_allocate_storage|ev0; apply evolves_deallocate_storage|]. ev0. apply evolves_deallocate_storage.
Qed.

(** Growth: the temporary of [d] blocks and one more. *)
Context (d : nat) (Hd : evolves d (bv_default (V := V) minc)).

Ltac ev := cbn [bounded_vector c_capacity c_set_size c_default c_destroy c_move_assign c_data c_size]; repeat first
  [ apply evolves_set_size | apply evolves_capacity | apply evolves_bv_destroy | apply evolves_move_assign
  | apply evolves_construct_at | apply evolves_assign_at | apply evolves_destroy_range | apply evolves_copy | apply evolves_relocate
  | apply evolves_relocate_reversed
  | apply evolves_bind0; [|intros ?] | apply evolves_rethrow | apply evolves_ret | apply evolves_get | apply evolves_throw
  | apply evolves_require | apply evolves_bad | apply evolves_may_throw | apply evolves_load | apply evolves_destroy
  | apply evolves_fst | apply evolves_snd ].

Lemma evolves_into_capacity mk : evolves 0 (lazy_push_back_into_capacity moved C mk).
Proof. unfold lazy_push_back_into_capacity. ev. Qed.
Lemma evolves_push_back mk : evolves (d + 1) (push_back moved C mk).
Proof.
  unfold push_back, lazy_push_back. destruct (c_max C =? 0); [eapply (evolves_weaken 0); [ev|lia]|].
  apply evolves_bind0; [ev|intros o]. apply evolves_bind0; [ev|intros cap]. destruct (_ <? cap).
  { eapply (evolves_weaken 0); [apply evolves_into_capacity|lia]. }
  cbn [bounded_vector c_reserve]. destruct (minc =? maxc); [eapply (evolves_weaken 0); [ev|lia]|].
  apply (evolves_local d 1); [apply evolves_unit, Hd|ev|].
  apply evolves_bind0; [unfold assume_capacity; ev|intros _].
  apply (evolves_bind 1 0); [apply evolves_snd, evolves_reserve|intros _]. ev.
Qed.
Lemma evolves_force_reserve cap n : evolves 1 (exponential_force_reserve C (bv_reserve moved minc maxc) cap n).
Proof.
  unfold exponential_force_reserve. apply evolves_bind0; [ev|intros c]. apply evolves_bind0; [ev|intros _]. apply evolves_bind0; [ev|intros _].
  apply evolves_bind0; [unfold check_capacity; destruct (_ <=? _); ev|intros _]. apply evolves_reserve.
Qed.
Lemma evolves_pop_back : evolves 0 (pop_back C).
Proof. unfold pop_back. ev. destruct (_ =? _); ev. Qed.
Lemma evolves_clear : evolves 0 (clear C). Proof. unfold clear. ev. Qed.
Lemma evolves_erase_to_end n : evolves 0 (erase_to_end C n). Proof. unfold erase_to_end. ev. Qed.
Lemma evolves_erase_loop p t n s l : evolves 0 (erase_loop (O := bvector) moved p t n s l).
Proof. revert t s. induction n as [|n IH]; intros; cbn; ev. destruct (_ =? _); ev. apply IH. Qed.
Lemma evolves_erase i j : evolves 0 (erase moved C i j).
Proof. unfold erase. destruct (i =? j); ev. { apply evolves_erase_loop. } destruct (negb _); ev. Qed.
Lemma evolves_find_if p i n q : evolves 0 (find_if (O := bvector) p i n q).
Proof. revert i. induction n as [|n IH]; intros; cbn; ev. destruct (q _); ev. apply IH. Qed.
Lemma evolves_erase_if_loop p i n l r q : evolves 0 (erase_if_loop (O := bvector) moved p i n l r q).
Proof. revert i l r. induction n as [|n IH]; intros; cbn; ev. destruct (q _); ev; apply IH. Qed.
Lemma evolves_erase_if q : evolves 0 (erase_if moved C q).
Proof.
  unfold erase_if. apply evolves_bind0; [ev|intros o]. apply evolves_bind0; [apply evolves_find_if|intros n]. destruct (_ =? _); [ev|].
  apply evolves_bind0; [apply evolves_erase_if_loop|intros nr]. apply evolves_bind0; [apply evolves_erase_to_end|intros _; ev].
Qed.
Lemma evolves_append_sized mks : evolves (d + 1) (append moved C (Source mks true)).
Proof.
  unfold append. cbn [bounded_vector c_reserve]. destruct (minc =? maxc).
  - eapply (evolves_weaken 0); [|lia]. ev. unfold checked_uninitialized_copy. cbn [s_sized]. ev. destruct (_ <? _); ev.
  - cbn [s_sized]. apply evolves_bind0; [ev|intros o]. apply evolves_bind0; [ev|intros cap].
    replace (d + 1) with (d + 1 + 0) by lia. apply evolves_bind; [|intros _; ev].
    destruct (_ <=? cap). { eapply (evolves_weaken 0); [ev|lia]. }
    apply evolves_local; [apply evolves_unit, Hd|ev|].
    apply (evolves_bind 1 0); [apply evolves_snd, evolves_force_reserve|intros _]. ev.
Qed.
Lemma evolves_resize n mk : evolves (d + 1) (resize moved C n mk).
Proof.
  unfold resize. apply evolves_bind0; [ev|intros o]. destruct (_ <=? _). { eapply (evolves_weaken 0); [apply evolves_erase_to_end|lia]. }
  apply evolves_append_sized.
Qed.
Lemma evolves_insert i mks : evolves (d + 1) (insert moved C i mks).
Proof.
  unfold insert. apply evolves_bind0; [ev|intros o]. apply evolves_bind0; [ev|intros _]. apply evolves_bind0; [ev|intros cap].
  destruct (_ <=? cap). { eapply (evolves_weaken 0); [unfold insert_without_reallocation; ev|lia]. }
  cbn [bounded_vector c_reserve]. destruct (minc =? maxc); [eapply (evolves_weaken 0); [ev|lia]|].
  unfold insert_with_reallocation. apply evolves_local; [apply evolves_unit, Hd|ev|].
  apply evolves_bind0; [ev|intros ot]. apply evolves_bind0; [ev|intros c].
  apply (evolves_bind 1 0); [apply evolves_snd, evolves_force_reserve|intros _]. ev.
Qed.
Lemma evolves_shrink n : evolves (d + 1) (shrink_to_fit moved C n).
Proof.
  unfold shrink_to_fit. cbn [bounded_vector c_reserve]. destruct (minc =? maxc); [eapply (evolves_weaken 0); [ev|lia]|].
  apply evolves_bind0; [ev|intros o]. apply evolves_bind0; [ev|intros cap].
  destruct (_ =? cap); [eapply (evolves_weaken 0); [ev|lia]|]. destruct (_ && _); [eapply (evolves_weaken 0); [ev|lia]|].
  apply evolves_local; [apply evolves_unit, Hd|ev|].
  apply (evolves_bind 1 0); [apply evolves_snd, evolves_reserve|intros _]. ev.
Qed.
Lemma evolves_copy_truncate p i n mks k : evolves 0 (copy_truncate (O := bvector) moved p i n mks k).
Proof. revert i mks k. induction n as [|n IH]; intros i [|mk mks] k; cbn; ev. apply IH. Qed.
Lemma evolves_assign fits mks : evolves (d + 1) (assign moved C false fits (Source mks true)).
Proof.
  unfold assign. apply evolves_bind0; [ev|intros o]. apply evolves_bind0; [apply evolves_copy_truncate|intros n].
  apply evolves_bind0; [apply evolves_erase_to_end|intros _]. apply evolves_append_sized.
Qed.
End Vector.
End Cost.

(** The two uses. *)
Definition new_blocks {V} (k : nat) (w w' : world V) : Prop := next w <= next w' <= next w + k.
Lemma new_blocks_evolution {V} : evolution (@new_blocks V).
Proof.
  constructor; unfold new_blocks.
  - lia. - lia. - lia. - intros w b cs. cbn. lia. - intros w h. cbn. lia. - intros w b s _. cbn. lia.
Qed.
Definition less_script {V} (k : nat) (w w' : world V) : Prop := incl (script w') (script w).
Lemma less_script_evolution {V} : evolution (@less_script V).
Proof.
  constructor; unfold less_script.
  - intros w. apply incl_refl.
  - intros a b w w' w'' H1 H2. eapply incl_tran; eauto.
  - auto.
  - intros w b cs. apply incl_refl.
  - intros w h. apply incl_refl.
  - intros w b s H. rewrite H. cbn. apply incl_tl, incl_refl.
Qed.
