(** * Filling a vector one by one (for C40) *)

From Coq Require Import List Arith Bool Lia.
From Verif Require Import Mem SpecVec Vec VecProofs VecCost VecHistory FlatMemoryProofs2.
From Verif Require PropsVec.
Import ListNotations.
Local Open Scope nat_scope.

Section Fill.
Context {V : Type} (moved : V -> V) (maxc : nat) (Hpos : 1 <= maxc).
Local Notation C := (bounded_vector moved 0 maxc).
Lemma fit o (vs : list V) others w : is_vector 0 maxc o vs others w -> length vs <= capacity_of o <= maxc.
Proof.
  intros ((_ & H) & _). unfold capacity_of. destruct (u_pointer (b_storage o)).
  - destruct H as (_ & (spare & _ & H & H') & _). lia.
  - destruct H as (-> & H). cbn [length]. lia.
Qed.
Lemma push_too_many o (vs : list V) v others w : is_vector 0 maxc o vs others w -> length vs = capacity_of o -> maxc < 2 * length vs ->
  lazy_push_back moved C (Supply v) o w = Bad Broken.
Proof.
  intros H Hl Hm. pose proof (fit _ _ _ _ H) as Hf. unfold lazy_push_back. cbn [c_max bounded_vector]. destruct (Nat.eqb_spec maxc 0); [lia|].
  assert (Ecap : bv_capacity 0 maxc o w = Ret o (capacity_of o) w).
  { unfold bv_capacity, bind, get. destruct (Nat.eqb_spec 0 maxc); [lia|]. unfold storage_capacity.
    destruct (u_pointer (b_storage o)) as [b|] eqn:Eb; [reflexivity|].
    destruct H as ((_ & H) & _). rewrite Eb in H. destruct H as (-> & _). cbn [length] in Hm. lia. }
  assert (Es : b_size o = length vs) by apply H. assert (El : (b_size o <? capacity_of o) = false) by (apply Nat.ltb_ge; lia).
  unfold bind at 1, get at 1. unfold bind at 1. cbn [c_capacity bounded_vector c_size c_reserve]. rewrite Ecap, El.
  destruct (Nat.eqb_spec 0 maxc); [lia|]. unfold with_local, on_unit. cbn [c_default bounded_vector]. unfold bv_default, bv_initial_storage. cbn [Nat.eqb]. unfold ret, bind, assume_capacity. cbn [c_max bounded_vector].
  unfold reallocation_size, require. destruct (Nat.leb_spec (Nat.max 1 (capacity_of o * 2)) maxc); [lia|]. reflexivity.
Qed.
Lemma push_calm o (vs : list V) v others w : is_vector 0 maxc o vs others w -> ~ someone_throws w -> length vs < capacity_of o \/ 2 * length vs <= maxc ->
  exists o' w', lazy_push_back moved C (Supply v) o w = Ret o' tt w' /\ is_vector 0 maxc o' (vs ++ [v]) others w' /\ capacity_of o' = grown o (length vs + 1) /\ ~ someone_throws w'.
Proof.
  intros H Hw Hroom. pose proof (PropsVec.C30_push_back V moved 0 maxc (Supply v) v o vs others w (Nat.le_0_l _) H eq_refl) as Hp.
  pose proof (evolves_push_back moved _ less_script_evolution 0 maxc 1 (evolves_default _ less_script_evolution 0) (Supply v) o w) as He.
  unfold push_back in *. destruct (lazy_push_back moved C (Supply v) o w) as [o' [] w'|o' w'|]; cbn [ends] in Hp.
  - exists o', w'. split; [reflexivity|]. destruct Hp as [H1 H2]; [lia|]. rewrite app_length in H2. cbn [length] in H2. split; [exact H1|]. split; [exact H2|].
    intros Ht. apply Hw. apply He, Ht.
  - destruct Hp as (_ & [Hp|Hp]); [lia|contradiction|lia].
  - destruct Hp. lia.
Qed.
Lemma fill_fits k : maxc = 2 ^ k -> forall us o (vs : list V) others w, is_vector 0 maxc o vs others w -> zero_or_power (capacity_of o) -> ~ someone_throws w ->
  length vs + length us <= maxc ->
  exists o' w', each_push_back moved C (map Supply us) o w = Ret o' tt w' /\ is_vector 0 maxc o' (vs ++ us) others w'.
Proof.
  intros Hk us. induction us as [|u us IH]; intros o vs others w H Hz Hw Hl.
  - exists o, w. rewrite app_nil_r. split; [reflexivity|exact H].
  - cbn [map each_push_back length] in *. pose proof (fit _ _ _ _ H) as Hf.
    assert (length vs < capacity_of o \/ length vs = capacity_of o) as Hc by lia.
    assert (length vs < capacity_of o \/ 2 * length vs <= maxc) as Hroom.
    { destruct Hc as [Hc|Hc]; [now left|right]. rewrite Hc, Hk. pose proof (power_fits k _ Hz). lia. }
    destruct (push_calm o vs u others w H Hw Hroom) as (o1 & w1 & E & H1 & Hg & Hw1). unfold bind. rewrite E.
    destruct (IH o1 (vs ++ [u]) others w1 H1) as (o2 & w2 & E2 & H2); auto.
    + rewrite Hg. unfold grown. destruct (Nat.leb_spec (length vs + 1) (capacity_of o)); [exact Hz|]. replace (length vs + 1) with (S (capacity_of o)) by lia. now apply power_grows.
    + rewrite app_length. cbn [length]. lia.
    + exists o2, w2. split; [exact E2|]. now rewrite <- app_assoc in H2.
Qed.
Lemma filled_power us : forall o (vs : list V) others w o' w', is_vector 0 maxc o vs others w -> zero_or_power (capacity_of o) -> ~ someone_throws w ->
  each_push_back moved C (map Supply us) o w = Ret o' tt w' -> is_vector 0 maxc o' (vs ++ us) others w' /\ zero_or_power (capacity_of o').
Proof.
  induction us as [|u us IH]; intros o vs others w o' w' H Hz Hw E.
  - cbn in E. inversion E; subst. rewrite app_nil_r. auto.
  - cbn [map each_push_back] in E. unfold bind in E. pose proof (fit _ _ _ _ H) as Hf.
    destruct (Nat.le_gt_cases (2 * length vs) maxc) as [Hm|Hm]; [|destruct (Nat.eq_dec (length vs) (capacity_of o)) as [Hc|Hc]].
    2: { rewrite (push_too_many o vs u others w H Hc Hm) in E. discriminate. }
    all: destruct (push_calm o vs u others w H Hw) as (o1 & w1 & E1 & H1 & Hg & Hw1); [lia|]; rewrite E1 in E;
      specialize (IH o1 (vs ++ [u]) others w1 o' w' H1); rewrite <- app_assoc in IH; apply IH; auto;
      rewrite Hg; unfold grown; destruct (Nat.leb_spec (length vs + 1) (capacity_of o)); [exact Hz|];
      replace (length vs + 1) with (S (capacity_of o)) by lia; now apply power_grows.
Qed.
End Fill.
