(** * What the operations of sbo_vector never do to the world: they take exceptions only from the script
    and never reuse a name *)

From Coq Require Import List Arith Bool NArith Lia.
From Verif Require Import Mem MemLemmas Vec VecCost SpecVec SpecHistory Sbo SpecPrograms.
Import ListNotations.

Definition later {V} (k : nat) (w w' : world V) : Prop := incl (script w') (script w) /\ next w <= next w'.
Lemma later_evolution {V} : evolution (@later V).
Proof.
  constructor; unfold later.
  - intros w. split; [apply incl_refl|lia].
  - intros a b w w' w'' [H1 H2] [H3 H4]. split; [eapply incl_tran; eauto|lia].
  - auto.
  - intros w b cs. split; [apply incl_refl|cbn; lia].
  - intros w h. split; [apply incl_refl|cbn; lia].
  - intros w b s H. split; [rewrite H; cbn; apply incl_tl, incl_refl|cbn; lia].
Qed.

Section Calm.
Context {V : Type} (moved : V -> V) (small max : nat).
Local Notation C := (sbo_vector (V := V) moved small max).
Local Notation EV := (@later_evolution V).
Definition calm_m {X A} (m : M V X A) : Prop := evolves (@later V) 0 m.

Lemma calm_any {X A} k (m : M V X A) : evolves (@later V) k m -> calm_m m.
Proof. intros H x w. specialize (H x w). destruct (m x w); auto. Qed.
Lemma calm_bind {X A B} (m : M V X A) (k : A -> M V X B) : calm_m m -> (forall a, calm_m (k a)) -> calm_m (bind m k).
Proof. intros H1 H2. apply (evolves_bind0 _ EV); auto. Qed.
Lemma calm_new_block {X} n : calm_m (new_block (V := V) (X := X) n).
Proof. intros x w. apply (ev_new _ EV). Qed.
Lemma calm_allocate {X} n : calm_m (allocate (V := V) (X := X) n).
Proof. apply (calm_any 1). apply (evolves_allocate _ EV). Qed.
Lemma calm_local {X Y A} (c : M V X Y) d (body : M V (X * Y) A) : calm_m c -> calm_m d -> calm_m body -> calm_m (with_local c d body).
Proof. intros. apply (evolves_local _ EV 0 0); auto. Qed.
Local Opaque with_local.

Ltac ev := repeat first
  [ apply calm_new_block | apply calm_allocate
  | apply (evolves_construct_at moved _ EV) | apply (evolves_assign_at moved _ EV) | apply (evolves_destroy_range _ EV) | apply (evolves_copy moved _ EV)
  | apply (evolves_relocate moved _ EV) | apply (evolves_relocate_reversed moved _ EV)
  | apply (evolves_deallocate _ EV) | apply (evolves_destroy _ EV) | apply (evolves_load _ EV) | apply (evolves_may_throw _ EV)
  | apply calm_bind; [|intros ?] | apply calm_local | apply (evolves_rethrow _ EV) | apply (evolves_ret _ EV) | apply (evolves_get _ EV) | apply (evolves_put _ EV)
  | apply (evolves_throw _ EV) | apply (evolves_require _ EV) | apply evolves_bad
  | apply (evolves_fst _ 0) | apply (evolves_snd _ 0) | apply (evolves_unit _ 0) ].

Lemma calm_capacity : calm_m (sb_capacity (V := V) small max).
Proof. unfold sb_capacity. ev. destruct (s_is_large a), (s_state a); ev. Qed.
Local Opaque sb_capacity.
Lemma calm_set_size n : calm_m (sb_set_size (V := V) small max n).
Proof. unfold sb_set_size. ev. destruct (s_is_large a), (s_state a); ev. Qed.
Local Opaque sb_set_size.
Lemma calm_default : calm_m (sb_default (V := V) small).
Proof. unfold sb_default. ev. Qed.
Local Opaque sb_default.
Lemma calm_construct_state s : calm_m (construct_state (V := V) s).
Proof.
  unfold construct_state. ev. intros x w. unfold require_buffer_free. destruct (heap w (s_place a)) as [cs|]; auto.
  match goal with |- context [forallb ?f cs] => destruct (forallb f cs) end; auto. apply (ev_refl _ EV).
Qed.
Local Opaque construct_state.
Lemma calm_deallocate_large : calm_m (sb_deallocate_large (V := V)).
Proof. unfold sb_deallocate_large. ev. destruct (s_is_large a), (s_state a); ev. Qed.
Local Opaque sb_deallocate_large.
Lemma calm_destroy_contents : calm_m (sb_destroy_contents (V := V)).
Proof. unfold sb_destroy_contents. ev. apply calm_deallocate_large. Qed.
Local Opaque sb_destroy_contents.
Lemma calm_destroy : calm_m (sb_destroy (V := V) small).
Proof. unfold sb_destroy. apply calm_bind; [apply calm_destroy_contents|intros _; ev]. Qed.
Local Opaque sb_destroy.
Lemma calm_to_small : calm_m (sb_relocate_to_small moved small).
Proof. unfold sb_relocate_to_small. ev. destruct (s_is_large a), (s_state a); ev. apply calm_construct_state. Qed.
Local Opaque sb_relocate_to_small.
Lemma calm_to_large n : calm_m (sb_relocate_to_large moved max n).
Proof. unfold sb_relocate_to_large. ev. apply calm_deallocate_large. apply calm_construct_state. Qed.
Local Opaque sb_relocate_to_large.
Lemma calm_reserve n : calm_m (sb_reserve moved small max n).
Proof.
  unfold sb_reserve. apply calm_bind; [apply calm_capacity|intros c]. destruct (n <=? c); [ev|]. destruct (n <=? small); [apply calm_to_small|].
  ev. apply calm_to_large.
Qed.
Local Opaque sb_reserve.
Lemma calm_to_empty : calm_m (sb_move_assign_to_empty moved small).
Proof.
  unfold sb_move_assign_to_empty. ev.
  - destruct (s_is_large (snd a)), (s_state (snd a)); ev; apply calm_construct_state.
  - apply calm_construct_state.
Qed.
Local Opaque sb_move_assign_to_empty.
Lemma calm_move_assign : calm_m (sb_move_assign moved small).
Proof. unfold sb_move_assign. apply calm_bind; [apply (evolves_fst _ 0), calm_destroy_contents|intros _; apply calm_to_empty]. Qed.
Local Opaque sb_move_assign.
Lemma calm_move : calm_m (sb_move moved small).
Proof.
  unfold sb_move. apply calm_bind; [apply (evolves_unit _ 0), calm_default|intros o]. ev. intros x w.
  pose proof (calm_to_empty (o, a) w) as H. destruct (sb_move_assign_to_empty moved small (o, a) w); auto.
Qed.
Local Opaque sb_move.
Lemma calm_replace n : calm_m (sb_replace_empty_allocation (V := V) small max n).
Proof.
  unfold sb_replace_empty_allocation, set_is_large. ev. { apply calm_deallocate_large. }
  destruct (n <=? small); ev; apply calm_construct_state.
Qed.
Local Opaque sb_replace_empty_allocation.

Ltac ev2 := cbn [sbo_vector c_capacity c_set_size c_data c_size c_default c_destroy c_move_assign c_reserve c_replace];
  repeat first [ apply calm_capacity | apply calm_set_size | apply calm_default | apply calm_destroy | apply calm_move_assign | apply calm_reserve
    | apply calm_replace | progress ev ].

Lemma calm_push_back mk : calm_m (push_back moved C mk).
Proof.
  unfold push_back, lazy_push_back. destruct (_ =? 0); [ev2|]. ev2. destruct (_ <? _).
  { unfold lazy_push_back_into_capacity. ev2. }
  unfold assume_capacity. ev2.
Qed.
Lemma calm_pop_back : calm_m (pop_back C).
Proof. unfold pop_back. ev2. destruct (_ =? _); ev2. Qed.
Lemma calm_clear : calm_m (clear C). Proof. unfold clear. ev2. Qed.
Lemma calm_erase_to_end n : calm_m (erase_to_end C n). Proof. unfold erase_to_end. ev2. Qed.
Local Opaque erase_to_end.
Lemma calm_erase_loop p t n s l : calm_m (erase_loop (O := sbo) moved p t n s l).
Proof. revert t s. induction n as [|n IH]; intros; cbn; ev. destruct (_ =? _); ev. apply IH. Qed.
Local Opaque erase_loop.
Lemma calm_erase i j : calm_m (erase moved C i j).
Proof. unfold erase. destruct (i =? j); ev2. { apply calm_erase_loop. } destruct (negb _); ev2. Qed.
Lemma calm_find_if p i n q : calm_m (find_if (O := sbo) p i n q).
Proof. revert i. induction n as [|n IH]; intros; cbn; ev. destruct (q _); ev. apply IH. Qed.
Lemma calm_erase_if_loop p i n l r q : calm_m (erase_if_loop (O := sbo) moved p i n l r q).
Proof. revert i l r. induction n as [|n IH]; intros; cbn; ev. destruct (q _); ev; apply IH. Qed.
Lemma calm_erase_if q : calm_m (erase_if moved C q).
Proof.
  unfold erase_if. apply calm_bind; [ev2|intros o]. apply calm_bind; [apply calm_find_if|intros n]. destruct (_ =? _); [ev2|].
  apply calm_bind; [apply calm_erase_if_loop|intros nr]. apply calm_bind; [apply calm_erase_to_end|intros _; ev2].
Qed.
Lemma calm_force_reserve cap n : calm_m (exponential_force_reserve C (sb_reserve moved small max) cap n).
Proof. unfold exponential_force_reserve, check_capacity. ev2. destruct (_ <=? _); ev2. Qed.
Local Opaque exponential_force_reserve.
Lemma calm_append mks : calm_m (append moved C (Source mks true)).
Proof.
  unfold append. cbn [sbo_vector c_reserve s_sized]. ev2. destruct (_ <=? _); ev2. apply calm_force_reserve.
Qed.
Lemma calm_resize n mk : calm_m (resize moved C n mk).
Proof. unfold resize. apply calm_bind; [ev2|intros o]. destruct (_ <=? _); [apply calm_erase_to_end|apply calm_append]. Qed.
Lemma calm_insert i mks : calm_m (insert moved C i mks).
Proof.
  unfold insert. ev2. destruct (_ <=? _). { unfold insert_without_reallocation. ev2. }
  unfold insert_with_reallocation. ev2. apply calm_force_reserve.
Qed.
Lemma calm_shrink n : calm_m (shrink_to_fit moved C n).
Proof. unfold shrink_to_fit. ev2. destruct (_ =? _); ev2. destruct (_ && _); ev2. Qed.
Lemma calm_truncate p i n mks k : calm_m (copy_truncate (O := sbo) moved p i n mks k).
Proof. revert i mks k. induction n as [|n IH]; intros i [|mk mks] k; cbn; ev. apply IH. Qed.
Lemma calm_assign fits mks : calm_m (assign moved C false fits (Source mks true)).
Proof.
  unfold assign. apply calm_bind; [ev2|intros o]. apply calm_bind; [apply calm_truncate|intros n].
  apply calm_bind; [apply calm_erase_to_end|intros _]. apply calm_append.
Qed.
Lemma calm_from mks : calm_m (sb_from moved small max (Source mks true)).
Proof.
  intros x w. unfold sb_from, sb_constructor. pose proof (calm_default x w) as H1. destruct (sb_default small x w) as [x1 o w1|x1 w1|]; auto.
  assert (Hb : calm_m (assign_to_empty moved C false (Source mks true))).
  { unfold assign_to_empty, assign_to_empty_into_capacity, checked_uninitialized_copy, do_reserve. cbn [sbo_vector c_reserve s_sized].
    ev2; repeat (destruct (_ <=? _) || destruct (_ <? _) || destruct (_ =? _)); ev2. }
  specialize (Hb o w1). destruct (assign_to_empty moved C false (Source mks true) o w1) as [o2 [] w2|o2 w2|]; auto.
  - eapply (ev_trans _ EV 0 0); eauto.
  - pose proof (calm_destroy o2 w2) as H3. destruct (sb_destroy small o2 w2); auto.
    eapply (ev_trans _ EV 0 0); [exact H1|]. eapply (ev_trans _ EV 0 0); eauto.
Qed.
Lemma calm_swap : calm_m (sb_swap moved small).
Proof.
  intros p w. unfold sb_swap. pose proof (calm_move (fst p) w) as H1. destruct (sb_move moved small (fst p) w) as [a t w1|a w1|]; auto.
  pose proof (calm_move_assign (a, snd p) w1) as H2. destruct (sb_move_assign moved small (a, snd p) w1) as [[a2 b] [] w2|p2 w2|]; auto.
  pose proof (calm_move_assign (b, t) w2) as H3. destruct (sb_move_assign moved small (b, t) w2) as [[b3 t3] [] w3|p3 w3|]; auto.
  pose proof (calm_destroy t3 w3) as H4. destruct (sb_destroy small t3 w3); auto.
  eapply (ev_trans _ EV 0 0); [exact H1|]. eapply (ev_trans _ EV 0 0); [exact H2|]. eapply (ev_trans _ EV 0 0); [exact H3|]. exact H4.
Qed.

Lemma calm_call c : calm_m (do_call moved small max c).
Proof.
  destruct c; cbn [do_call].
  - apply calm_push_back. - apply calm_pop_back. - apply calm_clear.
  - apply calm_bind; [apply calm_erase|intros ?; ev].
  - apply calm_bind; [apply calm_erase_if|intros ?; ev].
  - apply calm_append.
  - apply calm_bind; [apply calm_insert|intros ?; ev].
  - apply calm_resize. - apply calm_reserve. - apply calm_shrink. - apply calm_assign.
Qed.

Lemma calm_among {A} i (m : M V sbo A) : calm_m m -> calm_m (among i m).
Proof. intros H os w. unfold among. destruct (nth_error os i) as [o|]; auto. specialize (H o w). destruct (m o w); auto. Qed.
Lemma calm_among_two {A} i j (m : M V (sbo * sbo) A) : calm_m m -> calm_m (among_two i j m).
Proof.
  intros H os w. unfold among_two. destruct (nth_error os i) as [o|]; auto. destruct (nth_error os j) as [t|]; auto.
  specialize (H (o, t) w). destruct (m (o, t) w); auto.
Qed.
Lemma calm_born m : calm_m m -> calm_m (born (V := V) m).
Proof. intros H. unfold born. ev. exact H. Qed.
Lemma calm_look {A} j (k : sbo -> M V (list sbo) A) : (forall o, calm_m (k o)) -> calm_m (look j k).
Proof. intros H. unfold look. ev. destruct (nth_error a j); [apply H|ev]. Qed.
Lemma calm_step s : calm_m (do_step moved small max s).
Proof.
  destruct s; cbn [do_step].
  - apply calm_born, calm_default.
  - apply calm_born, calm_from.
  - apply calm_look. intros o. apply calm_born, calm_from.
  - apply calm_bind; [apply calm_among, calm_move|intros o; ev].
  - apply calm_bind; [apply calm_among, calm_destroy|intros o; ev].
  - apply calm_among, calm_call.
  - apply calm_look. intros o. apply calm_among, calm_push_back.
  - apply calm_look. intros o. apply calm_among, calm_append.
  - apply calm_look. intros o. apply calm_bind; [apply calm_among, calm_insert|intros ?; ev].
  - apply calm_look. intros o. apply calm_among, calm_assign.
  - apply calm_among_two, calm_move_assign.
  - apply calm_among_two, calm_swap.
Qed.
End Calm.
