(** * Lemmas about the comparison operators of containers *)

From Coq Require Import List ZArith Bool Lia.
From Verif Require Import Range Sequence SpecSequence SequenceProofs ContainerOperators SpecContainerOperators.
From Verif Require SpecSort SpecUnique SpecMap FlatMapProofs.
Import ListNotations.

Lemma forall2_mono {A B} (P Q : A -> B -> Prop) xs ys : (forall x y, P x y -> Q x y) -> Forall2 P xs ys -> Forall2 Q xs ys.
Proof. intros H F. induction F; constructor; auto. Qed.

Section Order.
Context {A : Type} (cmp : A -> A -> ordering) (G : good_order cmp).
Lemma good_any x y z o : cmp x y = o -> cmp y z = o -> cmp x z = o.
Proof.
  intros H1 H2. destruct o.
  - eapply o_transitive; eauto.
  - now rewrite (o_alike _ G _ _ z H1).
  - rewrite (o_opposite _ G z x). rewrite (o_opposite _ G) in H1, H2.
    enough (cmp z x = Less) as -> by reflexivity. apply (o_transitive _ G _ y); [now destruct (cmp z y)|now destruct (cmp y x)].
  - now destruct (o_total _ G x y).
Qed.
Lemma good_right x y z : cmp y z = Equivalent -> cmp x z = cmp x y.
Proof.
  intros H. rewrite (o_opposite _ G z x), (o_opposite _ G y x). f_equal. apply (o_alike _ G). now rewrite (o_opposite _ G y z), H.
Qed.
Lemma lexi_alike xs : forall ys zs, Forall2 (fun x y => cmp x y = Equivalent) xs ys -> lexi cmp xs zs = lexi cmp ys zs.
Proof.
  induction xs as [|x xs IH]; intros ys zs H; inversion H as [|? y ? ys' Hx Hxs]; subst; [reflexivity|].
  destruct zs as [|z zs]; [reflexivity|]. cbn. now rewrite (o_alike _ G _ _ z Hx), (IH ys' zs Hxs).
Qed.
Lemma lexi_total xs : forall ys, lexi cmp xs ys <> Unordered.
Proof.
  induction xs as [|x xs IH]; intros [|y ys]; cbn; try discriminate. destruct (cmp x y) eqn:E; cbn; auto; try discriminate.
  now destruct (o_total _ G x y).
Qed.
Lemma good_lexi : good_order (lexi cmp).
Proof.
  constructor.
  - intros xs ys. apply lexi_opposite. apply (o_opposite _ G).
  - intros xs ys zs. apply lexi_transitive; try discriminate; [apply good_any|apply (o_alike _ G)|apply good_right].
  - intros xs ys zs H. apply lexi_alike. now apply lexi_equivalent.
  - apply lexi_total.
Qed.
End Order.

Lemma good_map_value {K T} (ck : K -> K -> ordering) (ct : T -> T -> ordering) : good_order ck -> good_order ct -> good_order (map_value_three_way ck ct).
Proof.
  intros Gk Gt. unfold map_value_three_way. constructor.
  - intros [a s] [b t]. cbn [fst snd]. rewrite (o_opposite _ Gk a b). destruct (ck a b); cbn; auto. apply (o_opposite _ Gt).
  - intros [a s] [b t] [c u]. cbn [fst snd]. destruct (ck a b) eqn:E1; cbn; try discriminate; intros H1.
    + destruct (ck b c) eqn:E2; cbn; try discriminate; intros H2.
      * now rewrite (o_transitive _ Gk _ _ _ E1 E2).
      * now rewrite (good_right _ Gk _ _ _ E2), E1.
    + rewrite (o_alike _ Gk _ _ c E1). destruct (ck b c); cbn; auto. intros H2. eapply (o_transitive _ Gt); eauto.
  - intros [a s] [b t] [c u]. cbn [fst snd]. destruct (ck a b) eqn:E1; cbn; try discriminate; intros H1.
    now rewrite (o_alike _ Gk _ _ c E1), (o_alike _ Gt _ _ u H1).
  - intros [a s] [b t]. cbn [fst snd]. destruct (ck a b) eqn:E; cbn; try discriminate; [apply (o_total _ Gt)|now destruct (o_total _ Gk a b)].
Qed.

(** Increasing lists with the same elements are the same. *)
Section Flat.
Context {K T : Type} (less : K -> K -> bool) (W : SpecSort.strict_weak_order less).
Notation element_of := (SpecMap.element_of (SpecSort.equivalent less)).
Lemma flat_tail (e : K * T) m : SpecMap.flat less (e :: m) -> SpecMap.flat less m /\ forall a, In a m -> less (fst e) (fst a) = true.
Proof.
  intros H. split.
  - intros i j a b Hij Ha Hb. exact (H (S i) (S j) a b ltac:(lia) Ha Hb).
  - intros a Ha. apply In_nth_error in Ha as [i Hi]. exact (H 0%nat (S i) e a ltac:(lia) eq_refl Hi).
Qed.
Lemma flat_finds (e : K * T) m : SpecMap.flat less m -> In e m -> element_of m (fst e) = Some e.
Proof.
  destruct W as (Wi & Wt & _). induction m as [|a m IH]; intros Hm He; [destruct He|]. destruct (flat_tail _ _ Hm) as [Hm' Ha]. cbn [SpecMap.element_of].
  unfold SpecSort.equivalent at 1. destruct He as [<-|He].
  - now rewrite Wi.
  - rewrite (Ha e He). rewrite andb_false_r. auto.
Qed.
Lemma flat_same (xs ys : list (K * T)) : SpecMap.flat less xs -> SpecMap.flat less ys -> (forall e, In e xs <-> In e ys) -> xs = ys.
Proof.
  destruct W as (Wi & Wt & _). revert ys. induction xs as [|x xs IH]; intros [|y ys] Hx Hy H.
  - reflexivity.
  - destruct (proj2 (H y)); now left.
  - destruct (proj1 (H x)); now left.
  - destruct (flat_tail _ _ Hx) as [Hxs Fx], (flat_tail _ _ Hy) as [Hys Fy].
    assert (x = y) as <-.
    { destruct (proj1 (H x) (or_introl eq_refl)) as [E|E]; [auto|]. destruct (proj2 (H y) (or_introl eq_refl)) as [E'|E']; [auto|].
      pose proof (Wt _ _ _ (Fy _ E) (Fx _ E')) as C. rewrite Wi in C. discriminate. }
    f_equal. apply IH; auto. intros e. split; intros He.
    + destruct (proj1 (H e) (or_intror He)) as [<-|]; [|auto]. specialize (Fx _ He). rewrite Wi in Fx. discriminate.
    + destruct (proj2 (H e) (or_intror He)) as [<-|]; [|auto]. specialize (Fy _ He). rewrite Wi in Fy. discriminate.
Qed.
Lemma flat_lookups (xs ys : list (K * T)) : SpecMap.flat less xs -> SpecMap.flat less ys -> (forall k, element_of xs k = element_of ys k) -> xs = ys.
Proof.
  intros Hx Hy H. apply flat_same; auto. intros e. split; intros He.
  - pose proof (flat_finds _ _ Hx He) as E. rewrite H in E. now apply FlatMapProofs.element_in in E.
  - pose proof (flat_finds _ _ Hy He) as E. rewrite <- H in E. now apply FlatMapProofs.element_in in E.
Qed.
End Flat.
Lemma tells_lists {A} (eq : A -> A -> bool) : tells_apart eq -> forall xs ys, Forall2 (fun x y => eq x y = true) xs ys <-> xs = ys.
Proof.
  intros H xs ys. split.
  - intros F. induction F as [|x y xs ys E F IH]; [reflexivity|]. apply H in E. congruence.
  - intros <-. induction xs; constructor; auto. now apply H.
Qed.
Lemma tells_map_value {K T} (eqk : K -> K -> bool) (eqt : T -> T -> bool) : tells_apart eqk -> tells_apart eqt -> tells_apart (map_value_equal eqk eqt).
Proof.
  intros Hk Ht [a s] [b t]. unfold map_value_equal. cbn [fst snd]. rewrite andb_true_iff, (Hk a b), (Ht s t). split; [now intros [-> ->]|now intros [= -> ->]].
Qed.
Lemma forall2_lengths {A B} (P : A -> B -> Prop) xs ys : Forall2 P xs ys -> length xs = length ys.
Proof. intros F. induction F; cbn; auto. Qed.
