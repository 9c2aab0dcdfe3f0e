(** * Proofs about the model of trivial_inplace_function *)

From Coq Require Import List Arith Bool NArith Lia Eqdep_dec.
From Verif Require Import InplaceFunction SpecInplaceFunction.
Import ListNotations.

Section Proofs.
Context {A R G : Type} (is_const : bool) (capacity alignment : nat).
Notation function_type := (function_type A R G).
Notation wrapper := (wrapper A R G).
Notation construct := (construct is_const capacity alignment).
Notation single := (use_single_indirection capacity alignment).

(** The wrapper stands for the object. *)
Definition stands_for (x : wrapper) (o : object A R G) : Prop :=
  let ft := projT1 o in let f := projT2 o in
  is_type ft /\ pointer_is_the_same ft /\ (is_const = true -> const_is_the_same ft) /\
  create_function_indirection is_const capacity alignment ft f = Compiles (m_function_indirection x) /\
  if single then ft_to_pointer ft = None -> ft_is_empty ft = true
  else readable alignment ft (m_storage x) = true /\ read ft (m_storage x) = f.

Definition same_end {T U} (r : T -> U -> Prop) (c : called (R := R) (G := G) T) (d : called (R := R) (G := G) U) : Prop :=
  match c, d with
  | Returned a x g, Returned b y h => a = b /\ g = h /\ r x y
  | Threw x g, Threw y h => g = h /\ r x y
  | Undefined, Undefined => True
  | _, _ => False
  end.

Lemma is_type_used ft f : is_type ft -> length (if ft_is_empty ft then [] else ft_bytes ft f : list N) = @used_size A R G ft.
Proof. intros (_ & _ & _ & H & _). unfold used_size. destruct (ft_is_empty ft); [reflexivity|]. now apply (H eq_refl f). Qed.
Lemma firstn_bytes ft f rest : is_type ft ->
  firstn (@used_size A R G ft) ((if ft_is_empty ft then [] else ft_bytes ft f) ++ rest) = if ft_is_empty ft then [] else ft_bytes ft f.
Proof.
  intros H. rewrite firstn_app, (is_type_used ft f H), Nat.sub_diag. cbn. rewrite app_nil_r, <- (is_type_used ft f H). apply firstn_all.
Qed.
Lemma read_written ft f rest : is_type ft -> @read A R G ft ((if ft_is_empty ft then [] else ft_bytes ft f) ++ rest) = f.
Proof.
  intros H. unfold read. rewrite firstn_bytes by auto. destruct H as (_ & _ & _ & H1 & H2).
  destruct (ft_is_empty ft); [now apply H2|now apply (H1 eq_refl f)].
Qed.

Lemma construct_stands ft f x : is_type ft -> (ft_fn_pointer ft = true -> is_fn_pointer ft) -> pointer_is_the_same ft ->
  (is_const = true -> const_is_the_same ft) -> construct ft f = Compiles x -> stands_for x (existT _ ft f).
Proof.
  intros Ht Hfp Hp Hc. unfold InplaceFunction.construct. destruct (trivially_storable capacity alignment ft) eqn:Es; [|discriminate].
  destruct (make_storage capacity alignment ft f) as [| |storage] eqn:Em; try discriminate.
  destruct (create_function_indirection is_const capacity alignment ft f) as [| |ind] eqn:Ec; try discriminate.
  intros [= <-]. unfold stands_for. cbn [projT1 projT2 m_storage m_function_indirection]. repeat (split; [assumption|]).
  unfold make_storage in Em. unfold trivially_storable in Es. apply andb_true_iff in Es as (_ & Es).
  assert (Hs : ft_fn_pointer ft = false -> trivially_storable_class capacity alignment ft = true) by (intros E; rewrite E in Es; exact Es).
  destruct single eqn:Esingle.
  - intros E. unfold use_single_indirection in Esingle. apply andb_true_iff in Esingle as (Ecap & _).
    destruct (ft_fn_pointer ft).
    + destruct (Hfp eq_refl) as (_ & _ & _ & _ & _ & H). rewrite E in H. discriminate.
    + specialize (Hs eq_refl). unfold trivially_storable_class in Hs. rewrite Ecap in Hs. now destruct (ft_is_empty ft).
  - unfold bit_cast_padded in Em. destruct (capacity <? used_size ft) eqn:E1; [discriminate|]. apply Nat.ltb_ge in E1.
    destruct (negb _); [discriminate|]. injection Em as <-. split; [|now apply read_written].
    unfold readable. apply andb_true_iff. split.
    + apply Nat.leb_le. rewrite app_length, (is_type_used ft f Ht). lia.
    + apply Nat.leb_le. destruct (ft_fn_pointer ft).
      * destruct (Hfp eq_refl) as (_ & E & _). rewrite E. lia.
      * specialize (Hs eq_refl). unfold trivially_storable_class in Hs. apply andb_true_iff in Hs as (Hs & _).
        apply andb_true_iff in Hs as (_ & Hs). apply Nat.leb_le in Hs. lia.
Qed.

Lemma call_stands x o a g : stands_for x o -> same_end stands_for (invoke x a g) (call_object o a g).
Proof.
  destruct o as [ft f]. intros H. pose proof H as (Ht & Hp & Hc & Hind & Hrest). cbn [projT1 projT2] in *. unfold call_object. cbn [projT1 projT2].
  unfold create_function_indirection in Hind. destruct single eqn:Es.
  - destruct (ft_to_pointer ft) as [convert|] eqn:Ep.
    + injection Hind as Hind. rewrite (Hp convert Ep). unfold invoke. rewrite <- Hind.
      destruct (convert f) as [p|]; [|exact I]. destruct (p a g) as [r [] g'|[] g'|]; cbn; auto.
    + specialize (Hrest eq_refl). destruct (ft_default ft) as [d|] eqn:Ed; [|discriminate]. injection Hind as Hind.
      destruct Ht as (_ & _ & _ & _ & Hu). specialize (Hu Hrest). unfold invoke. rewrite <- Hind. rewrite (Hu f d).
      destruct (ft_call ft d a g) as [r d' g'|d' g'|]; cbn; auto; rewrite (Hu d' f); auto.
  - destruct Hrest as (Hr & Hf). destruct is_const eqn:Ei.
    + destruct (ft_const_call ft) as [call|] eqn:Ec; [|discriminate]. injection Hind as Hind. unfold invoke. rewrite <- Hind, Hr, Hf.
      rewrite (Hc eq_refl call Ec f a g).
      assert (K : stands_for {| m_storage := m_storage x; m_function_indirection := Double (Some (fun storage a g =>
            if readable alignment ft storage then with_object (fun _ => storage) (call (read ft storage) a g) else Undefined)) |} (existT _ ft f)).
      { destruct x as [st ind]. cbn [m_storage m_function_indirection] in *. rewrite Hind. exact H. }
      destruct (call f a g) as [r [] g'|[] g'|]; cbn; auto.
    + injection Hind as Hind. unfold invoke. rewrite <- Hind, Hr, Hf.
      assert (K : forall f', stands_for {| m_storage := write ft (m_storage x) f'; m_function_indirection := Double (Some (fun storage a g =>
            if readable alignment ft storage then with_object (write ft storage) (ft_call ft (read ft storage) a g) else Undefined)) |} (existT _ ft f')).
      { intros f'. unfold stands_for. cbn [projT1 projT2 m_storage m_function_indirection]. split; [exact Ht|]. split; [exact Hp|]. split; [rewrite Ei; exact Hc|].
        split; [unfold create_function_indirection; rewrite Es, Ei; reflexivity|]. rewrite Es. split; [|now apply read_written].
        unfold readable in *. apply andb_true_iff in Hr as (Hl & Ha). rewrite Ha, andb_true_r. apply Nat.leb_le. apply Nat.leb_le in Hl.
        unfold write. rewrite app_length, (is_type_used ft f' Ht). lia. }
      destruct (ft_call ft f a g) as [r f' g'|f' g'|]; cbn; auto.
Qed.

Lemma nth_stands xs os i : Forall2 stands_for xs os ->
  match nth_error xs i, nth_error os i with Some x, Some o => stands_for x o | None, None => True | _, _ => False end.
Proof. intros H. revert i. induction H as [|y p ys ps Hy _ IH]; intros [|i]; cbn; auto. apply IH. Qed.
Lemma replace_stands xs os i x o : Forall2 stands_for xs os -> stands_for x o -> Forall2 stands_for (replace i x xs) (replace i o os).
Proof.
  intros H Hx. unfold replace. revert i. induction H as [|y p ys ps Hy H' IH]; intros i.
  - rewrite !firstn_nil, !skipn_nil. constructor; auto.
  - destruct i as [|i]; cbn [firstn app skipn]; constructor; auto. apply (IH i).
Qed.

Lemma run_stands actions xs os g : all_wrapped is_const capacity alignment actions -> Forall2 stands_for xs os ->
  run_wrappers is_const capacity alignment actions xs g = run_objects actions os g.
Proof.
  unfold run_wrappers, run_objects. intros H. revert xs os g. induction H as [|s actions Hs _ IH]; intros xs os g Hx; [reflexivity|].
  destruct s as [ft f|i|i j|i a]; cbn [run].
  - destruct Hs as (Ht & Hfp & Hp & Hc & x & Hm). rewrite Hm. apply IH. apply Forall2_app; auto. constructor; auto. now apply construct_stands.
  - pose proof (nth_stands xs os i Hx) as Hi. destruct (nth_error xs i), (nth_error os i); try contradiction; [|reflexivity]. apply IH.
    apply Forall2_app; auto.
  - pose proof (nth_stands xs os i Hx) as Hi. destruct (nth_error xs i), (nth_error os i); try contradiction; [|reflexivity].
    pose proof (nth_stands xs os j Hx) as Hj. destruct (nth_error xs j), (nth_error os j); try contradiction; [|reflexivity]. apply IH.
    now apply replace_stands.
  - pose proof (nth_stands xs os i Hx) as Hi. destruct (nth_error xs i) as [x|], (nth_error os i) as [o|]; try contradiction; auto.
    pose proof (call_stands x o a g Hi) as Hc. destruct (invoke x a g) as [r x' g'|x' g'|], (call_object o a g) as [r' o' g''|o' g''|]; try contradiction; auto.
    + destruct Hc as (-> & -> & Hc). rewrite (IH _ (replace i o' os) g'' (replace_stands xs os i x' o' Hx Hc)). reflexivity.
    + destruct Hc as (-> & Hc). rewrite (IH _ (replace i o' os) g'' (replace_stands xs os i x' o' Hx Hc)). reflexivity.
Qed.

(** An optional with a wrapper in it. *)
Lemma tombstone_construct (ft : function_type) f x : construct ft f = Compiles x ->
  tombstone_index x = None \/ single = true /\ exists convert, ft_to_pointer ft = Some convert /\ convert f = None.
Proof.
  unfold InplaceFunction.construct. destruct (trivially_storable capacity alignment ft); [|discriminate].
  destruct (make_storage capacity alignment ft f) as [| |storage]; try discriminate.
  unfold create_function_indirection. destruct single.
  - destruct (ft_to_pointer ft) as [convert|].
    + intros [= <-]. cbn. destruct (convert f) eqn:E; [left; reflexivity|right]. split; auto. exists convert. auto.
    + destruct (ft_default ft); [|discriminate]. intros [= <-]. left. reflexivity.
  - destruct is_const; [destruct (ft_const_call ft); [|discriminate]|]; intros [= <-]; left; reflexivity.
Qed.
Lemma tombstone_invoke (x : wrapper) a g x' :
  match invoke x a g with Returned _ y _ => x' = y | Threw y _ => x' = y | Undefined => False end -> tombstone_index x' = tombstone_index x.
Proof.
  unfold invoke, tombstone_index. destruct (m_function_indirection x) as [[p|]|[p|]] eqn:E; try contradiction.
  - destruct (p a g); cbn; intros H; try contradiction; subst x'; now rewrite E.
  - destruct (p (m_storage x) a g); cbn; intros H; try contradiction; subst x'; now rewrite ?E.
Qed.
End Proofs.

(** Alignment *)
Lemma alignment_values c :
  alignment_for_capacity c = if 16 <=? c then 16 else if 8 <=? c then 8 else if 4 <=? c then 4 else if 2 <=? c then 2 else 1.
Proof.
  unfold alignment_for_capacity. cbn [helper_types filter fst].
  destruct (Nat.leb_spec 16 c); destruct (Nat.leb_spec 8 c); destruct (Nat.leb_spec 4 c); destruct (Nat.leb_spec 2 c); destruct (Nat.leb_spec 32 c);
    try lia; reflexivity.
Qed.
Lemma natural_alignment c k : 2 ^ k <= 16 -> 2 ^ k <= Nat.max c 1 -> 2 ^ k <= alignment_for_capacity c.
Proof.
  intros H1 H2. rewrite alignment_values.
  assert (Hk : k < 5). { destruct (Nat.lt_ge_cases k 5); auto. pose proof (Nat.pow_le_mono_r 2 5 k). cbn in *. lia. }
  destruct (Nat.leb_spec 16 c); destruct (Nat.leb_spec 8 c); destruct (Nat.leb_spec 4 c); destruct (Nat.leb_spec 2 c); try lia;
  destruct k as [|[|[|[|[|k]]]]]; cbn in *; lia.
Qed.
Lemma round_up_multiple n a : 1 <= a -> (exists k, n = k * a) -> round_up n a = n.
Proof.
  intros Ha (k & ->). unfold round_up. replace (k * a + a - 1) with (a - 1 + k * a) by lia. rewrite Nat.div_add by lia.
  rewrite Nat.div_small by lia. reflexivity.
Qed.
Lemma round_up_back n a : 1 <= a -> round_up n a = n -> exists k, n = k * a.
Proof. intros _ H. unfold round_up in H. eauto. Qed.
