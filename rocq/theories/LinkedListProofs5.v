(** * Proofs about bidirectional linked lists: copies *)

From Coq Require Import List Arith Bool Lia Permutation.
From Verif Require Import LinkedList SpecList LinkedListProofs LinkedListProofs2 LinkedListProofs3 LinkedListProofs4.
Import ListNotations.
Local Open Scope nat_scope.

Section Copy.
Context {V : Type}.
Notation memory := (memory (nat * nat) V).
Notation B := (M (nat * nat) V).
Notation names_of := (@names_of V).

Definition separate (s : nat) (l : list (nat * V)) (t : nat) (k : list (nat * V)) : Prop :=
  forall p, In p (s :: names_of l) -> In p (t :: names_of k) -> False.
Lemma list_at_separate (m m' : memory) t k ps : list_at m t k -> same_except ps m m' -> (forall p, In p ps -> In p (t :: names_of k) -> False) -> list_at m' t k.
Proof. intros Hk Hs Hd. eapply list_at_same; [exact Hk|]. intros p Hp. apply Hs. intros Hi. exact (Hd p Hi Hp). Qed.

Lemma move_ok (m : memory) t k : valid m -> list_at m t k ->
  exists s m', list_move t m = Returned s m' /\ object_at m s = None /\ valid m' /\ list_at m' s k /\ list_at m' t [] /\ same_except (s :: t :: names_of k) m m'.
Proof.
  intros Hv Hk. unfold list_move. destruct (default_ok m Hv) as (m1 & H1 & Hn1 & Hv1 & Hs1 & Ht1). rewrite (bind_returned _ _ _ _ _ H1).
  assert (Hb : forall p, In p (t :: names_of k) -> p < names m) by (intros p Hp; exact (names_below m t _ p Hv Hk Hp)).
  assert (Hk1 : list_at m1 t k) by (eapply list_at_same; [exact Hk|]; intros p Hp; apply Hs1; cbn; specialize (Hb p Hp); lia).
  destruct (swap_ok m1 (names m) t [] k Hv1 Ht1 Hk1) as (m2 & H2 & Hv2 & Hl2 & Hk2 & Hs2 & Hn2).
  { intros p [<-|[]] Hp. specialize (Hb _ Hp). lia. }
  rewrite (bind_returned _ _ _ _ _ H2). exists (names m), m2. split; [reflexivity|]. split; [apply fresh, Hv|]. split; [exact Hv2|]. split; [exact Hl2|]. split; [exact Hk2|].
  eapply same_weaken; [eapply same_trans; [exact Hs1 | exact Hs2]|]. intros q. cbn. tauto.
Qed.

(** Swapping a list with itself changes nothing. *)
Lemma self_swap (m : memory) s l : valid m -> list_at m s l ->
  exists m', list_swap s s m = Returned tt m' /\ valid m' /\ list_at m' s l /\ (forall q, object_at m' q = object_at m q) /\ names m' = names m.
Proof.
  intros Hv Hl. assert (Hin : In s (s :: names_of l)) by now left. destruct (linked_in m s l s Hl Hin) as (n & p & Hn & Hp & Inn & Inp).
  unfold list_swap. destruct (exchange_ok m s s p p n n Hp Hp Hn Hn _ (fun _ => bind (link_in s s) (fun _ => link_in s s))) as (m1 & H1 & R1). rewrite H1.
  assert (Hkind : forall q, In q (s :: names_of l) -> kind m q <> None).
  { intros q Hq. destruct (linked_in m s l q Hl Hq) as (a & _ & H & _). eapply next_kind, H. }
  assert (Step : forall m0 ns ps, relink m m0 ns ps -> (forall r, next_of m0 r = next_of m r) -> (forall r, previous_of m0 r = previous_of m r) -> incl (map fst ns ++ map fst ps) (s :: names_of l) ->
    exists m2 ns' ps', link_in s s m0 = Returned tt m2 /\ relink m m2 ns' ps' /\ (forall r, next_of m2 r = next_of m r) /\ (forall r, previous_of m2 r = previous_of m r) /\ incl (map fst ns' ++ map fst ps') (s :: names_of l)).
  { intros m0 ns ps R En Ep Hi. assert (Hp0 : previous_of m0 s = Some p) by now rewrite Ep. assert (Hn0 : next_of m0 s = Some n) by now rewrite En.
    unfold link_in. rewrite (bind_returned _ _ _ _ _ (run_previous _ _ _ Hp0)). destruct (ring_ends m s l Hl) as [(-> & Hn' & Hp')|(b & B1 & B2 & b' & E1 & E2 & Hn' & Hp' & Hbn & Hbp)].
    - assert (p = s) by congruence. assert (n = s) by congruence. subst p n. rewrite Nat.eqb_refl. rewrite (bind_returned _ _ _ _ _ (run_next _ _ _ Hn0)), require_true by apply Nat.eqb_refl.
      destruct (run_set_previous m m0 s s _ _ R (Hkind s Hin)) as (m2 & H2 & R2). rewrite (bind_returned _ _ _ _ _ H2).
      destruct (run_set_next m m2 s s _ _ R2 (Hkind s Hin)) as (m3 & H3 & R3). exists m3. eexists. eexists. split; [exact H3|]. split; [exact R3|]. split; [intros r|split; [intros r|]].
      + rewrite (r_next _ _ _ _ R3). cbn [over]. destruct (Nat.eqb_spec r s) as [->|Hne]; [congruence|]. rewrite <- (r_next _ _ _ _ R). apply En.
      + rewrite (r_previous _ _ _ _ R3). cbn [over]. destruct (Nat.eqb_spec r s) as [->|Hne]; [congruence|]. rewrite <- (r_previous _ _ _ _ R). apply Ep.
      + intros q Hq. apply in_app_or in Hq. destruct Hq as [[<-|Hq]|[<-|Hq]]; auto; apply Hi, in_or_app; auto.
    - assert (p = b') by congruence. assert (n = b) by congruence. subst p n.
      assert (Nb : b <> s) by (eapply not_sentinel; [exact Hl|]; rewrite E1; now left).
      assert (Nb' : b' <> s) by (eapply not_sentinel; [exact Hl|]; rewrite E2; apply in_or_app; right; now left).
      rewrite (proj2 (Nat.eqb_neq b' s) Nb'). rewrite (bind_returned _ _ _ _ _ (run_next _ _ _ Hn0)), require_true by (apply negb_true_iff, Nat.eqb_neq; exact Nb).
      destruct (run_set_next m m0 b' s _ _ R (Hkind b' Inp)) as (m2 & H2 & R2). rewrite (bind_returned _ _ _ _ _ H2).
      assert (Hn2 : next_of m2 s = Some b) by (rewrite (r_next _ _ _ _ R2); cbn [over]; rewrite (proj2 (Nat.eqb_neq s b')) by congruence; rewrite <- (r_next _ _ _ _ R); exact Hn0).
      rewrite (bind_returned _ _ _ _ _ (run_next _ _ _ Hn2)). destruct (run_set_previous m m2 b s _ _ R2 (Hkind b Inn)) as (m3 & H3 & R3). exists m3. eexists. eexists. split; [exact H3|]. split; [exact R3|]. split; [intros r|split; [intros r|]].
      + rewrite (r_next _ _ _ _ R3). cbn [over]. destruct (Nat.eqb_spec r b') as [->|Hne]; [congruence|]. rewrite <- (r_next _ _ _ _ R). apply En.
      + rewrite (r_previous _ _ _ _ R3). cbn [over]. destruct (Nat.eqb_spec r b) as [->|Hne]; [congruence|]. rewrite <- (r_previous _ _ _ _ R). apply Ep.
      + intros q Hq. apply in_app_or in Hq. destruct Hq as [[<-|Hq]|[<-|Hq]]; auto; apply Hi, in_or_app; auto. }
  destruct (Step m1 _ _ R1) as (m2 & ns2 & ps2 & H2 & R2 & En2 & Ep2 & Hi2).
  { intros r. rewrite (r_next _ _ _ _ R1). cbn [over]. destruct (Nat.eqb_spec r s) as [->|]; [congruence | reflexivity]. }
  { intros r. rewrite (r_previous _ _ _ _ R1). cbn [over]. destruct (Nat.eqb_spec r s) as [->|]; [congruence | reflexivity]. }
  { intros q Hq. cbn in Hq. destruct Hq as [<-|[<-|[<-|[<-|[]]]]]; exact Hin. }
  rewrite (bind_returned _ _ _ _ _ H2). destruct (Step m2 _ _ R2 En2 Ep2 Hi2) as (m3 & ns3 & ps3 & H3 & R3 & En3 & Ep3 & Hi3).
  assert (Ho : forall q, object_at m3 q = object_at m q).
  { intros q. destruct (in_dec Nat.eq_dec q (map fst ns3 ++ map fst ps3)) as [Hi|Hi]; [|apply (r_object _ _ _ _ R3), Hi].
    specialize (En3 q). specialize (Ep3 q). pose proof (r_kind _ _ _ _ R3 q) as Kq. pose proof (Hkind q (Hi3 q Hi)) as Nq.
    unfold next_of, previous_of, kind in *. destruct (object_at m3 q) as [[[a c]| |[a c] v]|], (object_at m q) as [[[a' c']| |[a' c'] v']|]; cbn in *; congruence. }
  exists m3. split; [exact H3|]. split; [|split; [|split; [exact Ho | apply (r_names _ _ _ _ R3)]]].
  - intros q Hq. rewrite (r_names _ _ _ _ R3). apply Hv. rewrite <- Ho. exact Hq.
  - eapply list_at_same; [exact Hl|]. intros q _. apply Ho.
Qed.
(** Appending the rest [k2] of another list is appending its values. *)
Lemma append_list_ok k2 : forall (m : memory) s l t k1 fuel, valid m -> list_at m s l -> list_at m t (k1 ++ k2) -> separate s l t (k1 ++ k2) -> length k2 < fuel ->
  list_append_list fuel s (first_of k2 t) t m = list_append s (map snd k2) m.
Proof.
  induction k2 as [|(p, v) k2 IH]; intros m s l t k1 fuel Hv Hl Hk Hd Hf; (destruct fuel as [|fuel]; [lia|]); cbn [list_append_list first_of fst map snd list_append].
  - now rewrite Nat.eqb_refl.
  - rewrite (proj2 (Nat.eqb_neq p t)) by (eapply not_sentinel; [exact Hk|]; rewrite names_app; apply in_or_app; right; now left).
    rewrite (bind_returned _ _ _ _ _ (value_ok m t _ p v Hk ltac:(apply in_or_app; right; now left))).
    pose proof (push_back_ok m s l v Hv Hl) as H. destruct (list_push_back s v m) as [q m1|m1|] eqn:E; [| |contradiction].
    + rewrite !(bind_returned _ _ _ _ _ E). destruct H as (-> & Hv1 & Hl1 & Hs1 & Hn1).
      assert (Hk1 : list_at m1 t (k1 ++ (p, v) :: k2)).
      { eapply list_at_separate; [exact Hk | exact Hs1|]. intros q [<-|Hq] Hq'; [pose proof (names_below m t _ _ Hv Hk Hq'); lia | exact (Hd q Hq Hq')]. }
      rewrite (bind_returned _ _ _ _ _ (next_ok m1 t k1 p v k2 Hk1)).
      replace (k1 ++ (p, v) :: k2) with ((k1 ++ [(p, v)]) ++ k2) in * by (rewrite <- app_assoc; reflexivity).
      apply (IH m1 s (l ++ [(names m, v)]) t (k1 ++ [(p, v)])); auto; [|cbn in Hf; lia].
      intros q Hq Hq'. rewrite names_app in Hq. change (s :: names_of l ++ names_of [(names m, v)]) with ((s :: names_of l) ++ [names m]) in Hq.
      apply in_app_or in Hq. destruct Hq as [Hq|[<-|[]]]; [exact (Hd q Hq Hq')|]. pose proof (names_below m t _ _ Hv Hk Hq'). lia.
    + rewrite !(bind_threw _ _ _ _ E). reflexivity.
Qed.
Lemma copy_from (m : memory) t k : valid m -> list_at m t k -> list_copy t m = list_from (map snd k) m.
Proof.
  intros Hv Hk. unfold list_copy, list_from. destruct (default_ok m Hv) as (m1 & H1 & Hn1 & Hv1 & Hs1 & Ht1). rewrite !(bind_returned _ _ _ _ _ H1).
  assert (Hb : forall p, In p (t :: names_of k) -> p < names m) by (intros p Hp; exact (names_below m t _ p Hv Hk Hp)).
  assert (Hk1 : list_at m1 t k) by (eapply list_at_same; [exact Hk|]; intros p Hp; apply Hs1; cbn; specialize (Hb p Hp); lia).
  unfold rethrow_after at 1. unfold bind at 1. rewrite (bind_returned _ _ _ _ _ (begin_ok m1 t k Hk1)). unfold with_fuel, list_end.
  rewrite (append_list_ok k m1 (names m) [] t []); auto.
  - intros p [<-|[]] Hp. specialize (Hb _ Hp). lia.
  - pose proof (list_length m1 t k Hv1 Hk1). lia.
Qed.
Lemma copy_ok (m : memory) t k : valid m -> list_at m t k ->
  match list_copy t m with
  | Returned s m' => exists l, map snd l = map snd k /\ object_at m s = None /\ (forall p, In p (names_of l) -> object_at m p = None) /\ valid m' /\ list_at m' s l /\ list_at m' t k /\ same_except (s :: names_of l) m m'
  | Threw m' => valid m' /\ (forall q, object_at m q <> None -> object_at m' q = object_at m q)
  | Undefined => False
  end.
Proof.
  intros Hv Hk. rewrite (copy_from m t k Hv Hk). pose proof (from_ok m (map snd k) Hv) as H. destruct (list_from (map snd k) m) as [s m'|m'|]; [| |contradiction].
  - destruct H as (l & El & -> & Hp & Hv' & Hl' & Hs' & Hn'). exists l. split; [exact El|]. split; [apply fresh, Hv|]. split; [|split; [exact Hv'|split; [exact Hl'|split; [|exact Hs']]]].
    + intros p Hi. specialize (Hp p Hi). destruct (object_at m p) eqn:E; [|reflexivity]. specialize (Hv p ltac:(congruence)). lia.
    + eapply list_at_separate; [exact Hk | exact Hs'|]. intros p Hi Hk'. pose proof (names_below m t _ _ Hv Hk Hk'). destruct Hi as [<-|Hi]; [lia|]. specialize (Hp p Hi). lia.
  - destruct H as (Hv' & Hs' & _). split; [exact Hv'|]. intros q Hq. apply Hs', Hv, Hq.
Qed.

(** *** Assignment of the values of one list to those of another *)
Lemma set_value_ok (m : memory) s l1 p w l2 v : valid m -> list_at m s (l1 ++ (p, w) :: l2) ->
  exists m', set_value p v m = Returned tt m' /\ valid m' /\ list_at m' s (l1 ++ (p, v) :: l2) /\ same_except [p] m m' /\ names m' = names m /\ script m' = script m.
Proof.
  intros Hv Hl. pose proof Hl as (H1 & H2 & H3 & H4). destruct (H2 p w) as (k & Ek); [apply in_or_app; right; now left|].
  unfold set_value. rewrite Ek. eexists. split; [reflexivity|].
  assert (Hps : p <> s) by (eapply not_sentinel; [exact Hl|]; rewrite names_app; apply in_or_app; right; now left).
  assert (En : names_of (l1 ++ (p, w) :: l2) = names_of (l1 ++ (p, v) :: l2)) by (rewrite !names_app; reflexivity).
  split; [|split; [|split; [|split; reflexivity]]].
  - intros q. cbn. destruct (Nat.eqb_spec q p) as [->|]; [intros _; apply Hv; congruence | apply Hv].
  - split; [|split; [|split]].
    + cbn. rewrite (proj2 (Nat.eqb_neq s p)) by congruence. exact H1.
    + intros q u Hq. cbn. destruct (Nat.eqb_spec q p) as [->|Hne].
      * apply in_app_or in Hq. assert (Hq' : In (p, u) l1 \/ (p, v) = (p, u) \/ In (p, u) l2) by tauto. rewrite names_app in H3. cbn [SpecList.names_of map fst] in H3. apply nodup_cons in H3 as (H3 & _).
        apply NoDup_remove_2 in H3. destruct Hq' as [Hq'|[Hq'|Hq']]; [|injection Hq' as <-; eauto|]; exfalso; apply H3, in_or_app; [left | right]; apply (in_map fst) in Hq'; exact Hq'.
      * apply H2. apply in_app_or in Hq. apply in_or_app. destruct Hq as [Hq|[Hq|Hq]]; [now left | injection Hq as <- <-; congruence | right; now right].
    + rewrite <- En. exact H3.
    + rewrite <- En. change (s :: names_of (l1 ++ (p, w) :: l2) ++ [s]) with ((s :: names_of (l1 ++ (p, w) :: l2)) ++ [s]). eapply linked_frame; [| |exact H4].
      * intros r _. unfold next_of. cbn. destruct (Nat.eqb_spec r p) as [->|]; [|reflexivity]. now rewrite Ek.
      * intros r _. unfold previous_of. cbn. destruct (Nat.eqb_spec r p) as [->|]; [|reflexivity]. now rewrite Ek.
  - intros q Hq. cbn in *. rewrite (proj2 (Nat.eqb_neq q p)) by (intros ->; tauto). reflexivity.
Qed.
(** [overwrite k l]: the elements of [l] with the values of [k], as far as both go *)
Fixpoint overwrite (k l : list (nat * V)) : list (nat * V) :=
  match k, l with
  | (_, v) :: k, (p, _) :: l => (p, v) :: overwrite k l
  | _, _ => []
  end.
Lemma truncate_ok k2 : forall l2 (m : memory) s l1 t k1 fuel, valid m -> list_at m s (l1 ++ l2) -> list_at m t (k1 ++ k2) -> separate s (l1 ++ l2) t (k1 ++ k2) -> length k2 < fuel ->
  match list_copy_truncate fuel (first_of k2 t) t (first_of l2 s) s m with
  | Returned r m' => r = (first_of (skipn (length l2) k2) t, first_of (skipn (length k2) l2) s) /\ valid m' /\ list_at m' s (l1 ++ overwrite k2 l2 ++ skipn (length k2) l2) /\ same_except (names_of l2) m m' /\ names m' = names m
  | Threw m' => exists l2', names_of l2' = names_of l2 /\ valid m' /\ list_at m' s (l1 ++ l2') /\ same_except (names_of l2) m m' /\ names m' = names m /\
      exists i, i < length k2 /\ i < length l2 /\ map snd l2' = firstn i (map snd k2) ++ skipn i (map snd l2)
  | Undefined => False
  end.
Proof.
  induction k2 as [|(i, v) k2 IH]; intros l2 m s l1 t k1 fuel Hv Hl Hk Hd Hf; (destruct fuel as [|fuel]; [lia|]); cbn [list_copy_truncate].
  - cbn [first_of]. rewrite Nat.eqb_refl. cbn [orb]. cbn [overwrite app skipn length]. rewrite skipn_nil. split; [reflexivity|]. split; [exact Hv|]. split; [exact Hl|]. split; [intros q _; reflexivity | reflexivity].
  - assert (Hit : i <> t) by (eapply not_sentinel; [exact Hk|]; rewrite names_app; apply in_or_app; right; now left). cbn [first_of fst]. rewrite (proj2 (Nat.eqb_neq i t) Hit). cbn [orb].
    destruct l2 as [|(o, w) l2].
    { cbn [first_of]. rewrite Nat.eqb_refl. cbn [overwrite app skipn length first_of fst]. split; [reflexivity|]. split; [exact Hv|]. split; [exact Hl|]. split; [intros q _; reflexivity | reflexivity]. }
    assert (Hos : o <> s) by (eapply not_sentinel; [exact Hl|]; rewrite names_app; apply in_or_app; right; now left). cbn [first_of fst]. rewrite (proj2 (Nat.eqb_neq o s) Hos).
    rewrite (bind_returned _ _ _ _ _ (value_ok m t _ i v Hk ltac:(apply in_or_app; right; now left))).
    set (m0 := Memory (object_at m) (names m) (tl (script m))).
    assert (Hv0 : valid m0) by exact Hv. assert (Hl0 : list_at m0 s (l1 ++ (o, w) :: l2)) by (eapply list_at_same; [exact Hl | reflexivity]). assert (Hk0 : list_at m0 t (k1 ++ (i, v) :: k2)) by (eapply list_at_same; [exact Hk | reflexivity]).
    assert (Hm : (may_throw (L := nat * nat) (V := V) m = Returned tt m0) \/ may_throw (L := nat * nat) (V := V) m = Threw m0).
    { unfold may_throw, m0. destruct m as [ob nm [|[|] sc]]; cbn; auto. }
    destruct Hm as [Hm|Hm].
    + rewrite (bind_returned _ _ _ _ _ Hm). destruct (set_value_ok m0 s l1 o w l2 v Hv0 Hl0) as (m1 & H1 & Hv1 & Hl1 & Hs1 & Hn1 & _). rewrite (bind_returned _ _ _ _ _ H1).
      assert (Io : In o (s :: names_of (l1 ++ (o, w) :: l2))) by (right; rewrite names_app; apply in_or_app; right; now left).
      assert (Hk1 : list_at m1 t (k1 ++ (i, v) :: k2)) by (eapply list_at_separate; [exact Hk0 | exact Hs1|]; intros q [<-|[]] Hq; exact (Hd o Io Hq)).
      rewrite (bind_returned _ _ _ _ _ (next_ok m1 t k1 i v k2 Hk1)), (bind_returned _ _ _ _ _ (next_ok m1 s l1 o v l2 Hl1)).
      replace (l1 ++ (o, v) :: l2) with ((l1 ++ [(o, v)]) ++ l2) in Hl1 by (rewrite <- app_assoc; reflexivity).
      replace (k1 ++ (i, v) :: k2) with ((k1 ++ [(i, v)]) ++ k2) in * by (rewrite <- app_assoc; reflexivity).
      assert (Hd1 : separate s ((l1 ++ [(o, v)]) ++ l2) t ((k1 ++ [(i, v)]) ++ k2)).
      { intros q Hq. apply (Hd q). rewrite !names_app in *. rewrite <- app_assoc in Hq. exact Hq. }
      specialize (IH l2 m1 s (l1 ++ [(o, v)]) t (k1 ++ [(i, v)]) fuel Hv1 Hl1 Hk1 Hd1 ltac:(cbn in Hf; lia)).
      assert (T : forall m', same_except (names_of l2) m1 m' -> same_except (names_of ((o, w) :: l2)) m m').
      { intros m' H'. change (same_except (names_of ((o, w) :: l2)) m0 m'). eapply same_weaken; [eapply same_trans; [exact Hs1 | exact H']|]. intros q. cbn. tauto. }
      destruct (list_copy_truncate fuel (first_of k2 t) t (first_of l2 s) s m1) as [r m'|m'|]; [| |contradiction].
      * destruct IH as (-> & Hv' & Hl' & Hs' & Hn'). cbn [length skipn overwrite]. rewrite <- app_assoc in Hl'. cbn [app] in *. split; [reflexivity|]. split; [exact Hv'|]. split; [exact Hl'|]. split; [apply T, Hs' | cbn in *; congruence].
      * destruct IH as (l2' & En & Hv' & Hl' & Hs' & Hn' & j & Hj & Hj' & Ej). exists ((o, v) :: l2'). rewrite <- app_assoc in Hl'. split; [cbn; unfold SpecList.names_of in En; now rewrite En|]. split; [exact Hv'|]. split; [exact Hl'|]. split; [apply T, Hs'|]. split; [cbn in *; congruence|].
        exists (S j). cbn [length map firstn skipn snd app]. rewrite Ej. split; [lia|]. split; [lia|reflexivity].
    + rewrite (bind_threw _ _ _ _ Hm). exists ((o, w) :: l2). split; [reflexivity|]. split; [exact Hv0|]. split; [exact Hl0|]. split; [intros q _; reflexivity|]. split; [reflexivity|]. exists 0. cbn. split; [lia|]. split; [lia|reflexivity].
Qed.
Lemma overwrite_spec k l : names_of (overwrite k l) = firstn (length k) (names_of l) /\ map snd (overwrite k l) = firstn (length l) (map snd k).
Proof.
  revert l. induction k as [|(i, v) k IH]; intros [|(o, w) l]; try (cbn; auto; fail). destruct (IH l) as (H1 & H2). cbn. unfold SpecList.names_of in H1. now rewrite H1, H2.
Qed.
Lemma copy_assign_ok (m : memory) s l t k : valid m -> list_at m s l -> list_at m t k -> separate s l t k ->
  match list_copy_assign s t m with
  | Returned _ m' => exists l', map snd l' = map snd k /\ (forall n, n <= length l -> n <= length k -> firstn n (names_of l') = firstn n (names_of l)) /\ valid m' /\ list_at m' s l' /\ list_at m' t k /\
      (forall p, In p (skipn (length k) (names_of l)) -> object_at m' p = None) /\ same_except (s :: names_of l ++ names_of l') m m' /\
      (forall p, In p (names_of l') -> In p (names_of l) \/ object_at m p = None)
  | Threw m' => exists l', valid m' /\ list_at m' s l' /\ list_at m' t k /\ same_except (s :: names_of l ++ names_of l') m m' /\
      (forall p, In p (names_of l) -> ~ In p (names_of l') -> object_at m' p = None) /\ (forall p, In p (names_of l') -> In p (names_of l) \/ object_at m p = None) /\
      firstn (length l) (names_of l') = names_of l /\
      exists i, i < length k /\ map snd l' = firstn i (map snd k) ++ skipn i (map snd l)
  | Undefined => False
  end.
Proof.
  intros Hv Hl Hk Hd. unfold list_copy_assign. rewrite (proj2 (Nat.eqb_neq s t)) by (intros ->; apply (Hd t); now left).
  rewrite (bind_returned _ _ _ _ _ (begin_ok m t k Hk)), (bind_returned _ _ _ _ _ (begin_ok m s l Hl)). unfold list_end.
  pose proof (truncate_ok k l m s [] t [] (S (names m)) Hv Hl Hk Hd ltac:(pose proof (list_length m t k Hv Hk); lia)) as H.
  unfold with_fuel at 1. unfold bind at 1. destruct (list_copy_truncate (S (names m)) (first_of k t) t (first_of l s) s m) as [r m1|m1|]; [| |contradiction].
  - destruct H as (-> & Hv1 & Hl1 & Hs1 & Hn1). cbn [app fst snd] in *.
    assert (Hk1 : list_at m1 t k) by (eapply list_at_separate; [exact Hk | exact Hs1|]; intros p Hp Hp'; apply (Hd p); [now right | exact Hp']).
    destruct (erase_to_end_ok m1 s _ _ Hv1 Hl1) as (m2 & H2 & Hv2 & Hl2 & Ho2 & Hs2 & Hn2). rewrite (bind_returned _ _ _ _ _ H2).
    set (l1 := overwrite k l) in *. destruct (overwrite_spec k l) as (On & Ov). fold l1 in On, Ov.
    assert (Incl : incl (s :: names_of (l1 ++ skipn (length k) l)) (s :: names_of l)).
    { intros q [<-|Hq]; [now left|]. right. rewrite names_app, On in Hq. unfold SpecList.names_of in *. rewrite <- skipn_map, firstn_skipn in Hq. exact Hq. }
    assert (Hs2' : same_except (s :: names_of l) m m2).
    { eapply same_weaken; [eapply same_trans; [exact Hs1 | exact Hs2]|]. intros q Hq. apply in_app_or in Hq. destruct Hq as [Hq|Hq]; [now right | apply Incl, Hq]. }
    assert (Hk2 : list_at m2 t k) by (eapply list_at_separate; [exact Hk | exact Hs2'|]; intros p Hp Hp'; exact (Hd p Hp Hp')).
    assert (Hd2 : separate s l1 t k).
    { intros p Hp. apply (Hd p). apply Incl. rewrite names_app. destruct Hp as [<-|Hp]; [now left | right; apply in_or_app; now left]. }
    assert (Old : forall e, (forall p, In p (names_of e) -> names m2 <= p) -> forall p, In p (names_of (l1 ++ e)) -> In p (names_of l) \/ object_at m p = None).
    { intros e He p Hp. rewrite names_app in Hp. apply in_app_or in Hp. destruct Hp as [Hp|Hp].
      - left. rewrite On in Hp. rewrite <- (firstn_skipn (length k)). apply in_or_app. now left.
      - right. destruct (object_at m p) eqn:Eo; [|reflexivity]. specialize (He p Hp). assert (p < names m) by (apply Hv; congruence). lia. }
    assert (Pre : forall e n, n <= length l -> n <= length k -> firstn n (names_of (l1 ++ e)) = firstn n (names_of l)).
    { intros e n Hn Hn'. rewrite names_app, On. rewrite firstn_app. assert (Hlen : length (firstn (length k) (names_of l)) = Nat.min (length k) (length l)) by (rewrite firstn_length; unfold SpecList.names_of; now rewrite map_length).
      rewrite Hlen. replace (n - Nat.min (length k) (length l)) with 0 by lia. rewrite firstn_O, app_nil_r, firstn_firstn. f_equal. lia. }
    unfold with_fuel.
    assert (Ek : firstn (length l) k ++ skipn (length l) k = k) by apply firstn_skipn.
    rewrite (append_list_ok (skipn (length l) k) m2 s l1 t (firstn (length l) k) (S (names m2)) Hv2 Hl2); [|rewrite Ek; exact Hk2 | rewrite Ek; exact Hd2 | pose proof (list_length m2 t k Hv2 Hk2); rewrite skipn_length; lia].
    pose proof (append_ok (map snd (skipn (length l) k)) m2 s l1 Hv2 Hl2) as H. destruct (list_append s (map snd (skipn (length l) k)) m2) as [u m3|m3|]; [| |contradiction].
    + destruct H as (e & Ee & He & Hv3 & Hl3 & Hs3 & Hn3). exists (l1 ++ e).
      assert (Gone : forall p, In p (skipn (length k) (names_of l)) -> object_at m3 p = None).
      { intros p Hp. assert (Hp' : In p (names_of (skipn (length k) l))) by (unfold SpecList.names_of in *; rewrite <- skipn_map; exact Hp).
        assert (Ipl : In p (names_of l)) by (rewrite <- (firstn_skipn (length k)); apply in_or_app; now right).
        pose proof (names_below m s l p Hv Hl ltac:(now right)) as Hlt.
        rewrite Hs3; [apply Ho2, Hp'|]. intros [<-|Hi]; [exact (not_sentinel m s l s Hl Ipl eq_refl)|]. rewrite names_app in Hi. apply in_app_or in Hi. destruct Hi as [Hi|Hi].
        - destruct Hl1 as (_ & _ & N & _). apply nodup_cons in N as (N & _). rewrite names_app in N. apply nodup_app in N as (_ & _ & D). exact (D p Hi Hp').
        - specialize (He p Hi). lia. }
      split.
      * rewrite map_app, Ee, Ov, <- skipn_map. apply firstn_skipn.
      * split; [|split; [exact Hv3|split; [exact Hl3|split; [|split; [exact Gone|split; [|exact (Old e He)]]]]]].
        -- exact (Pre e).
        -- eapply list_at_separate; [exact Hk2 | exact Hs3|]. intros p Hp Hp'. destruct Hp as [<-|Hp]; [apply (Hd s); [now left | exact Hp']|]. rewrite names_app in Hp. apply in_app_or in Hp.
           destruct Hp as [Hp|Hp]; [exact (Hd2 p ltac:(now right) Hp')|]. specialize (He p Hp). pose proof (names_below m2 t k p Hv2 Hk2 Hp'). lia.
        -- eapply same_weaken; [eapply same_trans; [exact Hs2' | exact Hs3]|]. intros q Hq. clear -Hq. rewrite in_app_iff in Hq. cbn [In] in *. rewrite in_app_iff. tauto.
    + destruct H as (e & (vs' & Hvs & Evs) & He & Hv3 & Hl3 & Hs3 & Hn3). exists (l1 ++ e). split; [exact Hv3|]. split; [exact Hl3|]. split; [|split; [|split; [|split; [exact (Old e He)|split; [|]]]]].
      * eapply list_at_separate; [exact Hk2 | exact Hs3|]. intros p Hp Hp'. destruct Hp as [<-|Hp]; [apply (Hd s); [now left | exact Hp']|]. rewrite names_app in Hp. apply in_app_or in Hp.
        destruct Hp as [Hp|Hp]; [exact (Hd2 p ltac:(now right) Hp')|]. specialize (He p Hp). pose proof (names_below m2 t k p Hv2 Hk2 Hp'). lia.
      * eapply same_weaken; [eapply same_trans; [exact Hs2' | exact Hs3]|]. intros q Hq. clear -Hq. rewrite in_app_iff in Hq. cbn [In] in *. rewrite in_app_iff. tauto.
      * intros p Hp Hn. assert (Hi : In p (names_of (skipn (length k) l))).
        { rewrite <- (firstn_skipn (length k) (names_of l)), <- On in Hp. apply in_app_or in Hp. destruct Hp as [Hp|Hp]; [exfalso; apply Hn; rewrite names_app; apply in_or_app; now left|].
          unfold SpecList.names_of in *. rewrite <- skipn_map. exact Hp. }
        rewrite Hs3; [apply Ho2, Hi|]. intros [<-|H]; [exact (not_sentinel m s l s Hl Hp eq_refl) | exact (Hn H)].
      * assert (L : length e + length vs' = length k - length l) by (rewrite <- (map_length snd e), <- app_length, Evs, map_length, skipn_length; reflexivity).
        assert (length vs' <> 0) by (now destruct vs'). rewrite (Pre e) by lia. apply firstn_all2. unfold SpecList.names_of. rewrite map_length. lia.
      * assert (L : length e + length vs' = length k - length l) by (rewrite <- (map_length snd e), <- app_length, Evs, map_length, skipn_length; reflexivity).
        assert (length vs' <> 0) by (now destruct vs'). exists (length l + length e). split; [lia|].
        rewrite map_app, Ov, skipn_all2 with (l := map snd l), app_nil_r by (rewrite map_length; lia). rewrite <- skipn_map in Evs.
        rewrite <- (firstn_skipn (length l) (map snd k)) at 2. rewrite firstn_app, firstn_firstn, firstn_length, map_length. replace (Nat.min (length l + length e) (length l)) with (length l) by lia.
        f_equal. replace (length l + length e - Nat.min (length l) (length k)) with (length (map snd e)) by (rewrite map_length; lia). rewrite <- Evs, firstn_app, Nat.sub_diag, firstn_all, app_nil_r. reflexivity.
  - destruct H as (l' & En & Hv1 & Hl1 & Hs1 & Hn1 & i & Hi & Hi' & Ei). exists l'. split; [exact Hv1|]. split; [exact Hl1|]. split; [|split; [|split; [|split; [|split; [|exists i; auto]]]]].
    + eapply list_at_separate; [exact Hk | exact Hs1|]. intros p Hp Hp'. apply (Hd p); [now right | exact Hp'].
    + eapply same_weaken; [exact Hs1|]. intros q Hq. right. apply in_or_app. now left.
    + intros p Hp Hn. exfalso. apply Hn. rewrite En. exact Hp.
    + intros p Hp. left. rewrite <- En. exact Hp.
    + rewrite En. apply firstn_all2. unfold SpecList.names_of. rewrite map_length. lia.
Qed.
Lemma last_snoc (l : list (nat * V)) p v s : last_place (l ++ [(p, v)]) s = p.
Proof. unfold last_place. rewrite names_app. cbn. apply last_last. Qed.
Lemma last_cut (l : list (nat * V)) s : exists A, s :: names_of l = A ++ [last_place l s].
Proof.
  destruct l as [|e l] using rev_ind; [exists []; reflexivity|]. destruct e as (p, v). rewrite last_snoc, names_app. exists (s :: names_of l). reflexivity.
Qed.
Lemma splice_end_undefined (m : memory) s l1 l2 l4 : list_at m s (l1 ++ l2 ++ l4) -> l2 <> [] ->
  list_splice (first_of l4 s) (first_of (l2 ++ l4) s) (first_of l4 s) m = Undefined.
Proof.
  intros Hl Hne. pose proof (previous_ok m s l1 (l2 ++ l4) Hl) as Ha. pose proof Hl as Hl'. rewrite app_assoc in Hl'. pose proof (previous_ok m s (l1 ++ l2) l4 Hl') as Hb.
  destruct (exists_last Hne) as (lb & (b, vb) & Eb). rewrite Eb, app_assoc, last_snoc in Hb.
  assert (Hab : last_place l1 s <> b).
  { destruct Hl as (_ & _ & N & _). destruct (last_cut l1 s) as (A & EA). rewrite !names_app in N. change (s :: names_of l1 ++ names_of l2 ++ names_of l4) with ((s :: names_of l1) ++ names_of l2 ++ names_of l4) in N.
    rewrite EA, Eb, names_app in N. cbn [SpecList.names_of map fst] in N. intros E. rewrite E in N. clear -N. rewrite <- !app_assoc in N. cbn [app] in N. apply NoDup_remove_2 in N. apply N. rewrite !in_app_iff. cbn. tauto. }
  assert (Hfl : first_of (l2 ++ l4) s <> first_of l4 s).
  { destruct l2 as [|(p, v) l2]; [congruence|]. cbn [app first_of fst]. destruct Hl as (_ & _ & N & _). rewrite !names_app in N. cbn [SpecList.names_of map fst] in N. destruct l4 as [|(q, w) l4]; cbn [first_of fst SpecList.names_of map] in *; intros ->; clear -N; apart; clash. }
  assert (Ka0 : kind m (last_place l1 s) <> None).
  { apply list_at_kind in Hl as (K1 & K2 & _). destruct (last_cut l1 s) as (A & EA). assert (Hi : In (last_place l1 s) (s :: names_of l1)) by (rewrite EA; apply in_or_app; right; now left).
    destruct Hi as [<-|Hi]; [congruence|]. destruct (in_names _ _ Hi) as (w & Hw). rewrite (K2 _ w) by (apply in_or_app; now left). congruence. }
  assert (Kb0 : kind m b <> None).
  { apply list_at_kind in Hl as (_ & K2 & _). rewrite (K2 b vb); [congruence|]. rewrite Eb, !in_app_iff. cbn. tauto. }
  unfold list_splice. rewrite (proj2 (Nat.eqb_neq _ _) Hfl), (bind_returned _ _ _ _ _ Hb), (bind_returned _ _ _ _ _ Hb).
  set (z := first_of l4 s) in *. set (a := last_place l1 s) in *. set (f := first_of (l2 ++ l4) s) in *.
  assert (P : forall r q, get_previous r m = Returned q m -> previous_of m r = Some q).
  { intros r q. unfold get_previous, bind, links, previous_of. destruct (object_at m r) as [[l| |l w]|]; cbn; unfold ret; congruence. }
  assert (Kb : kind m b <> None) by exact Kb0. assert (Ka : kind m a <> None) by exact Ka0.
  pose proof (P _ _ Ha) as Pa. pose proof (P _ _ Hb) as Pb.
  destruct (unlink_ok m m a f z [] [] (relink_refl m) Pa Ka (previous_kind _ _ _ Pb)) as (m1 & H1 & R1). rewrite (bind_returned _ _ _ _ _ H1).
  unfold link_range. destruct R1 as [Rn Rp Rk _ _].
  assert (Kb1 : kind m1 b <> None) by (rewrite Rk; exact Kb). destruct (kind_links m1 b Kb1) as (lk & Hlk & _ & _).
  unfold get_next. unfold bind at 1 2. rewrite Hlk. cbn [ret]. unfold require. destruct (snd lk =? z); [|reflexivity]. rewrite (bind_returned (ret tt) _ m1 tt m1) by reflexivity.
  assert (Pz : previous_of m1 z = Some a) by (rewrite Rp; cbn; now rewrite Nat.eqb_refl).
  rewrite (bind_returned _ _ _ _ _ (run_previous _ _ _ Pz)). rewrite (proj2 (Nat.eqb_neq a b) Hab). reflexivity.
Qed.
Lemma from_one_unchanged (m : memory) v : valid m ->
  match list_from [v] m with Threw m' => valid m' /\ (forall q, object_at m' q = object_at m q) | Returned _ _ => True | Undefined => False end.
Proof.
  intros Hv. unfold list_from. destruct (default_ok m Hv) as (m1 & H1 & Hn1 & Hv1 & Hs1 & Ht1). rewrite (bind_returned _ _ _ _ _ H1). cbn [list_append].
  pose proof (push_back_ok m1 (names m) [] v Hv1 Ht1) as H. unfold rethrow_after, bind. destruct (list_push_back (names m) v m1) as [p m2|m2|]; [exact I | | contradiction].
  destruct H as (H2 & Hv2 & Hn2). unfold end_sentinel. destruct Ht1 as ((k & Ek) & _). rewrite H2, Ek by (intros []).
  assert (Ho : forall q, object_at (set_object m2 (names m) None) q = object_at m q).
  { intros q. cbn. destruct (Nat.eqb_spec q (names m)) as [->|Hne]; [symmetry; apply fresh, Hv|]. rewrite H2 by (intros []). apply Hs1. intros [<-|[]]. congruence. }
  split; [|exact Ho]. intros q Hq. rewrite Ho in Hq. specialize (Hv q Hq). cbn. lia.
Qed.

End Copy.
