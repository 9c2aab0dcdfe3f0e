(** * C126: trivial_inplace_function *)

From Coq Require Import List Arith Bool NArith Lia Eqdep_dec.
From Verif Require Import Sbo SboLemmas InplaceFunction SpecInplaceFunction InplaceFunctionProofs.
Import ListNotations.

(** ** C126. A wrapper behaves like the function that is in it

    A program that makes function objects of any types, copies them, assigns them to each other and calls them, sees the same
    results and exceptions, and leaves the same world behind, when all the objects are wrapped: the state of a function is in its
    wrapper, and copies have a state of their own. *)
Theorem C126_same_behavior : forall A R G is_const capacity alignment (actions : list (action A R G)) g,
  all_wrapped is_const capacity alignment actions ->
  run_wrappers is_const capacity alignment actions [] g = run_objects actions [] g.
Proof. intros A R G is_const capacity alignment actions g H. apply run_stands; [exact H|constructor]. Qed.
Print Assumptions C126_same_behavior.

(** A wrapper is an array of [capacity] bytes with the function at its start: also after a call it has this size, and the bytes behind the function
    are as they were. *)
Theorem C126_stays_inside : forall A R G is_const capacity alignment (ft : function_type A R G) f x,
  is_type ft -> capacity <> 0 -> construct is_const capacity alignment ft f = Compiles x ->
  length (m_storage x) = capacity /\
  forall a g y, (exists r g', invoke x a g = Returned r y g') \/ (exists g', invoke x a g = Threw y g') ->
    length (m_storage y) = capacity /\ skipn (ft_size ft) (m_storage y) = skipn (ft_size ft) (m_storage x).
Proof.
  intros A R G is_const capacity alignment ft f x Ht Hcap Hx. unfold construct, make_storage, create_function_indirection in Hx.
  assert (Hs : use_single_indirection capacity alignment = false) by (unfold use_single_indirection; destruct (Nat.eqb_spec capacity 0); [contradiction|reflexivity]).
  rewrite Hs in Hx. destruct (trivially_storable capacity alignment ft); [|discriminate]. unfold bit_cast_padded in Hx.
  assert (Hu : forall f', length (if ft_is_empty ft then [] else ft_bytes ft f') = used_size ft) by (intros f'; exact (is_type_used ft f' Ht)).
  destruct (Nat.ltb_spec capacity (used_size ft)) as [|Hc]; [discriminate|]. destruct (negb _); [discriminate|].
  assert (Hl : length ((if ft_is_empty ft then [] else ft_bytes ft f) ++ repeat 0%N (capacity - used_size ft)) = capacity) by (rewrite app_length, Hu, repeat_length; lia).
  set (st := (if ft_is_empty ft then [] else ft_bytes ft f) ++ repeat 0%N (capacity - used_size ft)) in *. clearbody st.
  assert (Hus : used_size ft <= ft_size ft) by (unfold used_size; destruct (ft_is_empty ft); lia).
  assert (Hw : forall f', length (write ft st f') = capacity /\ skipn (ft_size ft) (write ft st f') = skipn (ft_size ft) st).
  { intros f'. unfold write. rewrite app_length, Hu, skipn_length. split; [lia|]. rewrite skipn_app, Hu, (skipn_all2 (n := ft_size ft)) by (rewrite Hu; lia). cbn [app].
    generalize Hc Hus Hl. clear. generalize (used_size ft). intros u Hc Hus _. replace (ft_size ft) with (u + (ft_size ft - u)) at 2 by lia.
    generalize (ft_size ft - u). clear. intros k. revert st. induction u as [|u IH]; intros st; [reflexivity|]. destruct st; cbn; [now rewrite skipn_nil|apply IH]. }
  destruct is_const.
  - destruct (ft_const_call ft) as [call|]; [|discriminate]. injection Hx as <-. split; [exact Hl|]. intros a g y Hy. unfold invoke in Hy. cbn [m_function_indirection m_storage] in *.
    destruct (readable alignment ft st); [|now destruct Hy as [(? & ? & Hy)|(? & Hy)]].
    destruct (call (read ft st) a g) as [r o g'|o g'|]; cbn [with_object] in Hy; destruct Hy as [(? & ? & Hy)|(? & Hy)]; try discriminate; injection Hy as; subst y; auto.
  - injection Hx as <-. split; [exact Hl|]. intros a g y Hy. unfold invoke in Hy. cbn [m_function_indirection m_storage] in *.
    destruct (readable alignment ft st); [|now destruct Hy as [(? & ? & Hy)|(? & Hy)]].
    destruct (ft_call ft (read ft st) a g) as [r o g'|o g'|]; cbn [with_object] in Hy; destruct Hy as [(? & ? & Hy)|(? & Hy)]; try discriminate; injection Hy as; subst y; apply Hw.
Qed.
Print Assumptions C126_stays_inside.

(** A wrapper with a function in it never looks like the tombstone that an optional uses, also after calls; the only exception is a
    null function pointer in a wrapper without storage. *)
Theorem C126_tombstone : forall A R G is_const capacity alignment (ft : function_type A R G) f x,
  construct is_const capacity alignment ft f = Compiles x -> (forall convert, ft_to_pointer ft = Some convert -> convert f <> None) ->
  tombstone_index x = None /\
  (forall a g r y g', invoke x a g = Returned r y g' -> tombstone_index y = None) /\
  (forall a g y g', invoke x a g = Threw y g' -> tombstone_index y = None) /\
  tombstone_index (make_tombstone (A := A) (R := R) (G := G) capacity alignment) = Some 0.
Proof.
  intros A R G is_const capacity alignment ft f x Hx Hp.
  assert (H : tombstone_index x = None).
  { destruct (tombstone_construct is_const capacity alignment ft f x Hx) as [H|(_ & convert & H1 & H2)]; [exact H|]. now elim (Hp convert H1). }
  split; [exact H|]. split; [|split].
  - intros a g r y g' E. rewrite <- H. apply (tombstone_invoke x a g). rewrite E. reflexivity.
  - intros a g y g' E. rewrite <- H. apply (tombstone_invoke x a g). rewrite E. reflexivity.
  - unfold make_tombstone, tombstone_index. cbn. now destruct (use_single_indirection capacity alignment).
Qed.
Print Assumptions C126_tombstone.

(** The alignment that is used when none is given is enough for every type that fits and is not extended beyond that of long double. *)
Theorem C126_default_alignment : forall A R G capacity (ft : function_type A R G),
  is_type ft -> ft_size ft <= capacity -> ft_align ft <= 16 -> ft_align ft <= alignment_for_capacity capacity.
Proof.
  intros A R G capacity ft (H1 & (k & Hk) & (n & Hn) & _) Hc Ha. rewrite Hk in *. apply natural_alignment; [exact Ha|].
  assert (2 ^ k <= ft_size ft). { destruct n; [lia|]. rewrite Hn. cbn. lia. } lia.
Qed.
Print Assumptions C126_default_alignment.

(** Which functions can be wrapped. A class with state: when it is trivially copyable, fits, and the capacity is a multiple of its
    alignment. A class without state always. A function pointer: without storage, or when it fits. *)
Theorem C126_wraps_class_partial : forall A R G is_const capacity (ft : function_type A R G) f,
  is_type ft -> ft_is_empty ft = false -> ft_result_same ft = true -> ft_trivial ft = true -> ft_size ft <= capacity -> ft_align ft <= 16 ->
  (exists k, capacity = k * ft_align ft) -> (is_const = true -> ft_const_call ft <> None) ->
  exists x, construct is_const capacity (alignment_for_capacity capacity) ft f = Compiles x.
Proof.
  intros A R G is_const capacity ft f Ht He Hr Htr Hs Ha Hm Hc.
  assert (Hcap : capacity <> 0). { destruct Ht as (H & _). lia. } assert (Hal : 1 <= ft_align ft). { destruct Ht as (_ & (k & ->) & _). pose proof (Nat.pow_nonzero 2 k). lia. }
  pose proof (C126_default_alignment A R G capacity ft Ht Hs Ha) as Hd.
  unfold construct, trivially_storable, trivially_storable_class. apply Nat.eqb_neq in Hcap as Hcap'. rewrite Hcap', Hr, Htr.
  rewrite (proj2 (Nat.leb_le _ _) Hs), (proj2 (Nat.leb_le _ _) Hd). rewrite orb_true_r. cbn [andb].
  unfold make_storage, create_function_indirection, use_single_indirection. rewrite Hcap'. cbn [andb].
  unfold bit_cast_padded, used_size. rewrite He. destruct (Nat.ltb_spec capacity (ft_size ft)) as [E|_]; [lia|].
  replace (Nat.max 1 capacity) with capacity by lia. rewrite round_up_multiple, Nat.eqb_refl by auto. cbn [negb].
  destruct is_const; [|eauto]. destruct (ft_const_call ft); [eauto|]. now elim Hc.
Qed.
Print Assumptions C126_wraps_class_partial.
Theorem C126_wraps_empty_class : forall A R G is_const capacity (ft : function_type A R G) f,
  is_type ft -> ft_is_empty ft = true -> ft_result_same ft = true -> ft_trivial ft = true -> ft_size ft = 1 ->
  (capacity = 0 -> ft_to_pointer ft <> None \/ ft_default ft <> None) -> (is_const = true -> ft_const_call ft <> None) ->
  exists x, construct is_const capacity (alignment_for_capacity capacity) ft f = Compiles x.
Proof.
  intros A R G is_const capacity ft f Ht He Hr Htr Hs Hz Hc.
  assert (Hal : ft_align ft = 1).
  { destruct Ht as (_ & (k & Hk) & (n & Hn) & _). rewrite Hs in Hn. destruct n as [|[|n]]; [discriminate|lia|]. pose proof (Nat.pow_nonzero 2 k). rewrite Hk in *. nia. }
  assert (Hd : ft_align ft <=? alignment_for_capacity capacity = true). { apply Nat.leb_le. rewrite Hal. apply (natural_alignment capacity 0); cbn; lia. }
  unfold construct, trivially_storable, trivially_storable_class. rewrite Hr, Htr, Hd, He, Hs.
  destruct capacity as [|c].
  - cbn. rewrite orb_true_r. unfold make_storage, create_function_indirection, use_single_indirection. cbn.
    destruct (ft_to_pointer ft), (ft_default ft); cbn; eauto. destruct (Hz eq_refl); contradiction.
  - cbn [Nat.eqb Nat.leb]. rewrite orb_true_r. cbn [andb].
    unfold make_storage, create_function_indirection, use_single_indirection. cbn [Nat.eqb andb].
    unfold bit_cast_padded, used_size. rewrite He, Hal. rewrite round_up_multiple; [|lia|exists (Nat.max 1 (S c)); lia]. rewrite Nat.eqb_refl. cbn [negb Nat.ltb Nat.leb].
    destruct is_const; [|eauto]. destruct (ft_const_call ft); [eauto|]. now elim Hc.
Qed.
Print Assumptions C126_wraps_empty_class.

(** A type of function pointers: an address of 8 bytes, and what is at that address. *)
Definition below (k : positive) : Type := { n : N | (n < N.pos k)%N }.
Lemma below_eq k (a b : below k) : proj1_sig a = proj1_sig b -> a = b.
Proof. destruct a as [a Ha], b as [b Hb]. cbn. intros E. revert Ha. rewrite E. intros Ha. f_equal. apply UIP_dec. decide equality. Qed.
Definition below_of (k : positive) (n : N) : below k := exist _ (n mod N.pos k)%N (N.mod_lt n (N.pos k) (fun H => ltac:(discriminate H))).
Lemma below_of_self k (a : below k) : below_of k (proj1_sig a) = a.
Proof. apply below_eq. destruct a as [n Hn]. cbn. now apply N.mod_small. Qed.
Definition address : Type := below (2 ^ 64).
Definition address_of : N -> address := below_of (2 ^ 64).
Section Pointers.
Context {A R G : Type} (code : N -> A -> G -> called (R := R) (G := G) unit).
Definition pointed (a : address) : fn_ptr A R G := if (proj1_sig a =? 0)%N then None else Some (code (proj1_sig a)).
Definition call_pointer (f : address) (a : A) (g : G) : called unit := match pointed f with Some p => p a g | None => Undefined end.
Definition function_pointer : function_type A R G :=
  FunctionType address true true 8 8 false true (Some (address_of 0)) (Some pointed)
    (fun f a g => with_object (fun _ => f) (call_pointer f a g)) (Some call_pointer)
    (fun f => bytes_of 8 (proj1_sig f)) (fun l => address_of (of_bytes l)).
End Pointers.
Lemma of_bytes_of k n : (n < 256 ^ N.of_nat k)%N -> of_bytes (bytes_of k n) = n.
Proof.
  revert n. induction k as [|k IH]; intros n Hn; [change (256 ^ N.of_nat 0)%N with 1%N in Hn; cbn; lia|]. cbn [bytes_of of_bytes]. rewrite IH.
  - pose proof (N.div_mod n 256). lia.
  - rewrite Nat2N.inj_succ, N.pow_succ_r' in Hn. apply N.div_lt_upper_bound; lia.
Qed.
Lemma length_bytes_of k n : length (bytes_of k n) = k.
Proof. revert n. induction k as [|k IH]; intros n; cbn; auto. Qed.
Theorem C126_wraps_function_pointer_partial : forall A R G (code : N -> A -> G -> called (R := R) (G := G) unit) is_const capacity f,
  let ft := function_pointer code in
  is_type ft /\ is_fn_pointer ft /\ pointer_is_the_same ft /\ const_is_the_same ft /\
  ((exists x, construct is_const capacity (alignment_for_capacity capacity) ft f = Compiles x) <-> exists k, capacity = k * 8).
Proof.
  intros A R G code is_const capacity f ft.
  split.
  { split; [cbn; lia|]. split; [now exists 3|]. split; [now exists 1|]. split.
    - intros _ p. split; [apply length_bytes_of|]. cbn [ft ft_of_bytes ft_bytes function_pointer].
      rewrite of_bytes_of by exact (proj2_sig p). apply below_of_self.
    - discriminate. }
  split. { split; [reflexivity|]. split; [reflexivity|]. split; [reflexivity|]. split; [reflexivity|]. split; [discriminate|reflexivity]. }
  split. { intros convert [= <-] p a g. cbn. unfold call_pointer. destruct (pointed code p); reflexivity. }
  split. { intros call [= <-] p a g. reflexivity. }
  subst ft. unfold construct. cbn [trivially_storable function_pointer ft_result_same ft_fn_pointer andb orb].
  unfold make_storage, create_function_indirection, use_single_indirection. destruct (Nat.eqb_spec capacity 0) as [->|Hz].
  { cbn. split; [exists 0; reflexivity|eauto]. }
  cbn [andb]. unfold bit_cast_padded, used_size. cbn [function_pointer ft_is_empty ft_size ft_align ft_const_call].
  replace (Nat.max 1 capacity) with capacity by lia.
  destruct (Nat.ltb_spec capacity 8) as [Hlt|Hge].
  { split; [intros (x & H); discriminate H|]. intros (k & Hk). destruct k; lia. }
  destruct (Nat.eqb_spec (round_up capacity 8) capacity) as [E|E]; cbn [negb].
  - split; [intros _; apply (round_up_back capacity 8); [lia|exact E]|]. intros _. destruct is_const; eauto.
  - split; [intros (x & H); discriminate H|]. intros H. elim E. apply round_up_multiple; [lia|exact H].
Qed.
Print Assumptions C126_wraps_function_pointer_partial.

(** What the constructor promises by its constraint, and what then does not compile: a function pointer that is larger than the
    capacity; a class that fits when the capacity is not a multiple of its alignment; a class that can only be called when it is not
    const, in a wrapper of a const signature; a class without state that is neither default constructible nor a function pointer. *)
Definition counter : function_type unit nat unit :=
  FunctionType (below (2 ^ 32)) true false 4 4 false true None None (fun n _ g => Returned (N.to_nat (proj1_sig n)) (below_of _ (proj1_sig n + 1)) g) None
    (fun n => bytes_of 4 (proj1_sig n)) (fun l => below_of _ (of_bytes l)).
Lemma counter_is_type : is_type counter.
Proof.
  split; [cbn; lia|]. split; [now exists 2|]. split; [now exists 1|]. split; [|discriminate]. intros _ n. split; [apply length_bytes_of|].
  cbn [counter ft_of_bytes ft_bytes]. rewrite of_bytes_of by exact (proj2_sig n). apply below_of_self.
Qed.
Definition captures_all : function_type unit nat unit :=
  FunctionType unit true false 1 1 true true None None (fun n _ g => Returned 1 n g) (Some (fun _ _ g => Returned 1 tt g)) (fun _ => [0%N]) (fun _ => tt).
Theorem C126_constraint_refuted : forall code : N -> unit -> unit -> called (R := nat) (G := unit) unit,
  (forall p, trivially_storable 4 (alignment_for_capacity 4) (function_pointer code) = true /\
             construct false 4 (alignment_for_capacity 4) (function_pointer code) p = Error) /\
  (trivially_storable 6 (alignment_for_capacity 6) counter = true /\ forall n, construct false 6 (alignment_for_capacity 6) counter n = Error) /\
  (trivially_storable 8 (alignment_for_capacity 8) counter = true /\ forall n, construct true 8 (alignment_for_capacity 8) counter n = Error) /\
  (trivially_storable 0 (alignment_for_capacity 0) captures_all = true /\ construct true 0 (alignment_for_capacity 0) captures_all tt = Error).
Proof. intros code. repeat split. Qed.
Print Assumptions C126_constraint_refuted.

(** A null function pointer in a wrapper without storage is taken for the empty state of an optional; with storage it is not. *)
Theorem C126_null_refuted : forall A R G (code : N -> A -> G -> called (R := R) (G := G) unit) is_const, exists x y,
  construct is_const 0 (alignment_for_capacity 0) (function_pointer code) (address_of 0) = Compiles x /\ tombstone_index x = Some 0 /\
  construct is_const 8 (alignment_for_capacity 8) (function_pointer code) (address_of 0) = Compiles y /\ tombstone_index y = None.
Proof. intros A R G code []; eexists; eexists; repeat split. Qed.
Print Assumptions C126_null_refuted.

(** A wrapper of a const signature calls the const operator() when it has storage and the other one when it has none. *)
Definition two_operators : function_type unit nat unit :=
  FunctionType unit true false 1 1 true true (Some tt) None (fun n _ g => Returned 1 n g) (Some (fun _ _ g => Returned 2 tt g)) (fun _ => [0%N]) (fun _ => tt).
Theorem C126_overload_refuted : exists x y,
  construct true 0 (alignment_for_capacity 0) two_operators tt = Compiles x /\ invoke x tt tt = Returned 1 x tt /\
  construct true 1 (alignment_for_capacity 1) two_operators tt = Compiles y /\ invoke y tt tt = Returned 2 y tt.
Proof. eexists; eexists; repeat split. Qed.
Print Assumptions C126_overload_refuted.

(** A counter in a wrapper of 24 bytes, its copy, and a function pointer assigned over it. *)
Definition code_example (n : N) (a : unit) (g : unit) : called (R := nat) (G := unit) unit := Returned (100 + N.to_nat n) tt g.
Example C126_example :
  let actions := [Make counter (below_of _ 5); Call 0 tt; Copy 0; Call 0 tt; Call 1 tt; Call 0 tt; Make (function_pointer code_example) (address_of 7);
                  Call 2 tt; Assign 0 2; Call 0 tt; Call 1 tt] in
  all_wrapped false 24 (alignment_for_capacity 24) actions /\
  run_wrappers false 24 (alignment_for_capacity 24) actions [] tt = Some ([Some 5; Some 6; Some 6; Some 7; Some 107; Some 107; Some 7], tt).
Proof.
  cbv zeta. split.
  - assert (P : match Make (function_pointer code_example) (address_of 7) with Make ft f => is_type ft /\ (ft_fn_pointer ft = true -> is_fn_pointer ft) /\ pointer_is_the_same ft /\
                                  (false = true -> const_is_the_same ft) /\ exists x, construct false 24 (alignment_for_capacity 24) ft f = Compiles x | _ => True end).
    { destruct (C126_wraps_function_pointer_partial unit nat unit code_example false 24 (address_of 7)) as (H1 & H2 & H3 & H4 & H5).
      repeat (split; auto). apply H5. now exists 3. }
    assert (Q : match Make counter (below_of _ 5) with Make ft f => is_type ft /\ (ft_fn_pointer ft = true -> is_fn_pointer ft) /\ pointer_is_the_same ft /\
                                  (false = true -> const_is_the_same ft) /\ exists x, construct false 24 (alignment_for_capacity 24) ft f = Compiles x | _ => True end).
    {split; [exact counter_is_type|]. split; [discriminate|]. split; [intros convert E; discriminate E|]. split; [discriminate|].
      apply C126_wraps_class_partial; auto using counter_is_type; try (cbn; lia); try discriminate. now exists 6. }
    unfold all_wrapped. repeat (constructor; [first [exact P|exact Q|exact I]|]). constructor.
  - vm_compute. reflexivity.
Qed.
