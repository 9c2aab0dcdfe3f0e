(** * Proofs about bidirectional linked lists: swap, copy *)

From Coq Require Import List Arith Bool Lia Permutation.
From Verif Require Import LinkedList SpecList LinkedListProofs LinkedListProofs2 LinkedListProofs3.
Import ListNotations.
Local Open Scope nat_scope.

Section Swap.
Context {V : Type}.
Notation memory := (memory (nat * nat) V).
Notation B := (M (nat * nat) V).
Notation names_of := (@names_of V).

(** What the links of a list are, apart from the sentinel's *)
Lemma ring_ends (m : memory) s l : list_at m s l ->
  (l = [] /\ next_of m s = Some s /\ previous_of m s = Some s) \/
  (exists b B1 B2 b', names_of l = b :: B1 /\ names_of l = B2 ++ [b'] /\ next_of m s = Some b /\ previous_of m s = Some b' /\ next_of m b' = Some s /\ previous_of m b = Some s).
Proof.
  intros (_ & _ & _ & L). destruct l as [|(b, v) l]; [left; cbn in L; tauto|]. right.
  destruct (ends ((b, v) :: l) ltac:(discriminate)) as (c & B1 & B2 & b' & E1 & E2 & _). exists c, B1, B2, b'. split; [exact E1|]. split; [exact E2|].
  assert (L1 : linked m (s :: c :: B1 ++ [s])) by (rewrite E1 in L; exact L).
  assert (L2 : linked m ((s :: B2) ++ b' :: [s])) by (rewrite E2, <- app_assoc in L; exact L).
  apply (linked_cut m []) in L1 as (_ & (H1 & H2) & _). apply linked_cut in L2 as (_ & (H3 & H4) & _). auto.
Qed.
Lemma moved (m m' : memory) s t k : list_at m t k -> ~ In s (names_of k) -> (forall p, In p (names_of k) -> kind m' p = kind m p) -> kind m' s = Some None ->
  (k = [] /\ next_of m' s = Some s /\ previous_of m' s = Some s) \/
  (exists b B1 B2 b', names_of k = b :: B1 /\ names_of k = B2 ++ [b'] /\ next_of m' s = Some b /\ previous_of m' s = Some b' /\ next_of m' b' = Some s /\ previous_of m' b = Some s /\
    (forall r, In r B2 -> next_of m' r = next_of m r) /\ (forall r, In r B1 -> previous_of m' r = previous_of m r)) ->
  list_at m' s k.
Proof.
  intros Hl Hs Hk Ks H. apply list_at_kind in Hl as (_ & Kl & N & L). apply list_at_kind. split; [exact Ks|]. split; [|split].
  - intros p v Hp. rewrite Hk; [apply Kl, Hp|]. apply (in_map fst) in Hp. exact Hp.
  - apply nodup_cons in N as (N & _). apply nodup_cons. auto.
  - destruct H as [(-> & H1 & H2)|(b & B1 & B2 & b' & E1 & E2 & H1 & H2 & H3 & H4 & Hn & Hp)]; [cbn; auto|].
    assert (LK : linked m (names_of k)) by (change (t :: names_of k ++ [t]) with ([t] ++ names_of k ++ [t]) in L; apply linked_parts in L as (_ & L); apply linked_parts in L; tauto).
    assert (LK' : linked m' (names_of k)).
    { rewrite E2 in LK |- *. eapply linked_frame; [exact Hn | |exact LK]. rewrite <- E2, E1. exact Hp. }
    rewrite E2, <- app_assoc. change (s :: B2 ++ [b'] ++ [s]) with ((s :: B2) ++ b' :: [s]). apply linked_cut. split; [|cbn; auto].
    cbn [app]. rewrite <- E2, E1. apply (linked_cut m' []). rewrite <- E1. cbn; auto.
Qed.

Lemma link_in_ok (m0 m : memory) s t ns ps p n : relink m0 m ns ps -> previous_of m s = Some p -> next_of m s = Some n -> (p = t <-> n = t) -> kind m0 p <> None -> kind m0 n <> None -> p <> s -> 
  exists m', link_in s t m = Returned tt m' /\
    ((p = t /\ relink m0 m' ((s, s) :: ns) ((s, s) :: ps)) \/ (p <> t /\ relink m0 m' ((p, s) :: ns) ((n, s) :: ps))).
Proof.
  intros R Hp Hn Hpn Kp Kn Hps. unfold link_in. rewrite (bind_returned _ _ _ _ _ (run_previous _ _ _ Hp)).
  assert (Ks : kind m0 s <> None) by (rewrite <- (r_kind _ _ _ _ R); eapply next_kind, Hn).
  destruct (Nat.eqb_spec p t) as [Heq|Hne].
  - rewrite (bind_returned _ _ _ _ _ (run_next _ _ _ Hn)), require_true by (apply Nat.eqb_eq; tauto).
    destruct (run_set_previous m0 m s s ns ps R Ks) as (m1 & H1 & R1). rewrite (bind_returned _ _ _ _ _ H1).
    destruct (run_set_next m0 m1 s s _ _ R1 Ks) as (m2 & H2 & R2). exists m2. split; [exact H2|]. left. auto.
  - rewrite (bind_returned _ _ _ _ _ (run_next _ _ _ Hn)), require_true by (apply negb_true_iff, Nat.eqb_neq; tauto).
    destruct (run_set_next m0 m p s ns ps R Kp) as (m1 & H1 & R1). rewrite (bind_returned _ _ _ _ _ H1).
    assert (Hn1 : next_of m1 s = Some n).
    { rewrite (r_next _ _ _ _ R1). cbn [over]. rewrite (proj2 (Nat.eqb_neq s p)) by congruence. rewrite <- (r_next _ _ _ _ R). exact Hn. }
    rewrite (bind_returned _ _ _ _ _ (run_next _ _ _ Hn1)).
    destruct (run_set_previous m0 m1 n s _ _ R1 Kn) as (m2 & H2 & R2). exists m2. split; [exact H2|]. right. auto.
Qed.
(** The eight assignments of swap, before link_in *)
Lemma exchange_ok (m : memory) s t ps pt ns nt : previous_of m s = Some ps -> previous_of m t = Some pt -> next_of m s = Some ns -> next_of m t = Some nt -> forall C (f : unit -> B C),
  exists m', bind (get_previous s) (fun a => bind (get_previous t) (fun b => bind (set_previous s b) (fun _ => bind (set_previous t a) (fun _ =>
    bind (get_next s) (fun a => bind (get_next t) (fun b => bind (set_next s b) (fun _ => bind (set_next t a) f))))))) m = f tt m' /\
    relink m m' [(t, ns); (s, nt)] [(t, ps); (s, pt)].
Proof.
  intros Hps Hpt Hns Hnt C f. rewrite (bind_returned _ _ _ _ _ (run_previous _ _ _ Hps)), (bind_returned _ _ _ _ _ (run_previous _ _ _ Hpt)).
  assert (Ks : kind m s <> None) by (eapply next_kind, Hns). assert (Kt : kind m t <> None) by (eapply next_kind, Hnt).
  destruct (run_set_previous m m s pt _ _ (relink_refl m) Ks) as (m1 & H1 & R1). rewrite (bind_returned _ _ _ _ _ H1).
  destruct (run_set_previous m m1 t ps _ _ R1 Kt) as (m2 & H2 & R2). rewrite (bind_returned _ _ _ _ _ H2).
  assert (Hns2 : next_of m2 s = Some ns) by (rewrite (r_next _ _ _ _ R2); exact Hns). assert (Hnt2 : next_of m2 t = Some nt) by (rewrite (r_next _ _ _ _ R2); exact Hnt).
  rewrite (bind_returned _ _ _ _ _ (run_next _ _ _ Hns2)), (bind_returned _ _ _ _ _ (run_next _ _ _ Hnt2)).
  destruct (run_set_next m m2 s nt _ _ R2 Ks) as (m3 & H3 & R3). rewrite (bind_returned _ _ _ _ _ H3).
  destruct (run_set_next m m3 t ns _ _ R3 Kt) as (m4 & H4 & R4). rewrite (bind_returned _ _ _ _ _ H4). exists m4. auto.
Qed.
(** One half of the result of swap: [k] was in [t] and now is in [s]. *)
Lemma half (m m' : memory) s t k ns ps : list_at m t k -> kind m s = Some None -> ~ In s (names_of k) -> s <> t -> relink m m' ns ps ->
  (k = [] -> over ns s None = Some s /\ over ps s None = Some s) ->
  (forall b b', (exists B1, names_of k = b :: B1) -> (exists B2, names_of k = B2 ++ [b']) -> over ns s None = Some b /\ over ps s None = Some b' /\ over ns b' None = Some s /\ over ps b None = Some s /\
     (forall r, In r (names_of k) -> r <> b' -> ~ In r (map fst ns)) /\ (forall r, In r (names_of k) -> r <> b -> ~ In r (map fst ps))) ->
  list_at m' s k.
Proof.
  intros Hl Ks Hs Hst R H0 H1.
  assert (Ov : forall k' r d x, over k' r None = Some x -> over k' r d = Some x).
  { clear. induction k' as [|(a, b) k' IH]; intros r d x H; cbn in *; [discriminate|]. destruct (r =? a); [exact H | auto]. }
  eapply moved; [exact Hl | exact Hs | intros p _; apply (r_kind _ _ _ _ R) | rewrite (r_kind _ _ _ _ R); exact Ks|].
  destruct (list_eq_nil k) as [->|Hk].
  - left. split; [reflexivity|]. destruct (H0 eq_refl) as (Hn & Hp). rewrite (r_next _ _ _ _ R), (r_previous _ _ _ _ R). split; apply Ov; assumption.
  - right. destruct (ends k Hk) as (b & B1 & B2 & b' & E1 & E2 & _). exists b, B1, B2, b'. split; [exact E1|]. split; [exact E2|].
    destruct (H1 b b' (ex_intro _ _ E1) (ex_intro _ _ E2)) as (G1 & G2 & G3 & G4 & G5 & G6). destruct Hl as (_ & _ & N & _). apply nodup_cons in N as (N & _).
    rewrite !(r_next _ _ _ _ R), !(r_previous _ _ _ _ R). split; [apply Ov; exact G1|]. split; [apply Ov; exact G2|]. split; [apply Ov; exact G3|]. split; [apply Ov; exact G4|]. split.
    + intros r Hr. rewrite (r_next _ _ _ _ R). apply over_none, G5; [rewrite E2; apply in_or_app; now left|]. intros ->. rewrite E2 in N. clear -N Hr. apart. clash.
    + intros r Hr. rewrite (r_previous _ _ _ _ R). apply over_none, G6; [rewrite E1; now right|]. intros ->. rewrite E1 in N. clear -N Hr. apart. clash.
Qed.
Lemma swap_ok (m : memory) s t l k : valid m -> list_at m s l -> list_at m t k -> (forall p, In p (s :: names_of l) -> In p (t :: names_of k) -> False) ->
  exists m', list_swap s t m = Returned tt m' /\ valid m' /\ list_at m' s k /\ list_at m' t l /\ same_except (s :: t :: names_of l ++ names_of k) m m' /\ names m' = names m.
Proof.
  intros Hv Hl Hk Hd. pose proof (list_at_kind m s l) as KL. pose proof (list_at_kind m t k) as KK.
  destruct (proj1 KL Hl) as (Ks & _). destruct (proj1 KK Hk) as (Kt & _). clear KL KK.
  assert (Hst : s <> t) by (intros ->; apply (Hd t); now left).
  assert (Hsk : ~ In s (names_of k)) by (intros H; apply (Hd s); [now left | now right]).
  assert (Htl : ~ In t (names_of l)) by (intros H; apply (Hd t); [now right | now left]).
  assert (Es : exists ns ps, next_of m s = Some ns /\ previous_of m s = Some ps /\ In ns (s :: names_of l) /\ In ps (s :: names_of l) /\ ((ps = s <-> ns = s)) /\
     (ps = s -> l = []) /\ (ps <> s -> (exists B1, names_of l = ns :: B1) /\ (exists B2, names_of l = B2 ++ [ps]))).
  { destruct (ring_ends m s l Hl) as [(-> & H1 & H2)|(b & B1 & B2 & b' & E1 & E2 & H1 & H2 & _)].
    - exists s, s. split; [exact H1|]. split; [exact H2|]. split; [now left|]. split; [now left|]. split; [tauto|]. split; [reflexivity | congruence].
    - assert (Ib : In b (names_of l)) by (rewrite E1; now left). assert (Ib' : In b' (names_of l)) by (rewrite E2; apply in_or_app; right; now left).
      pose proof (not_sentinel m s l b Hl Ib). pose proof (not_sentinel m s l b' Hl Ib').
      exists b, b'. split; [exact H1|]. split; [exact H2|]. split; [now right|]. split; [now right|]. split; [tauto|]. split; [congruence | eauto]. }
  assert (Et : exists ns ps, next_of m t = Some ns /\ previous_of m t = Some ps /\ In ns (t :: names_of k) /\ In ps (t :: names_of k) /\ ((ps = t <-> ns = t)) /\
     (ps = t -> k = []) /\ (ps <> t -> (exists B1, names_of k = ns :: B1) /\ (exists B2, names_of k = B2 ++ [ps]))).
  { destruct (ring_ends m t k Hk) as [(-> & H1 & H2)|(b & B1 & B2 & b' & E1 & E2 & H1 & H2 & _)].
    - exists t, t. split; [exact H1|]. split; [exact H2|]. split; [now left|]. split; [now left|]. split; [tauto|]. split; [reflexivity | congruence].
    - assert (Ib : In b (names_of k)) by (rewrite E1; now left). assert (Ib' : In b' (names_of k)) by (rewrite E2; apply in_or_app; right; now left).
      pose proof (not_sentinel m t k b Hk Ib). pose proof (not_sentinel m t k b' Hk Ib').
      exists b, b'. split; [exact H1|]. split; [exact H2|]. split; [now right|]. split; [now right|]. split; [tauto|]. split; [congruence | eauto]. }
  destruct Es as (ns & ps & Hns & Hps & Ins & Ips & Es1 & Es2 & Es3). destruct Et as (nt & pt & Hnt & Hpt & Int & Ipt & Et1 & Et2 & Et3).
  assert (Kns : kind m ns <> None /\ kind m ps <> None).
  { split; [destruct (linked_in m s l ns Hl Ins) as (? & ? & H & _) | destruct (linked_in m s l ps Hl Ips) as (? & ? & H & _)]; eapply next_kind, H. }
  assert (Knt : kind m nt <> None /\ kind m pt <> None).
  { split; [destruct (linked_in m t k nt Hk Int) as (? & ? & H & _) | destruct (linked_in m t k pt Hk Ipt) as (? & ? & H & _)]; eapply next_kind, H. }
  assert (A1 : ns <> t /\ ps <> t) by (split; intros ->; apply (Hd t); solve [assumption | now left]).
  assert (A2 : nt <> s /\ pt <> s) by (split; intros ->; apply (Hd s); solve [assumption | now left]).
  assert (A3 : forall x y, In x (s :: names_of l) -> In y (t :: names_of k) -> x <> y) by (intros x y Hx Hy ->; exact (Hd y Hx Hy)).
  unfold list_swap. destruct (exchange_ok m s t ps pt ns nt Hps Hpt Hns Hnt _ (fun _ => bind (link_in s t) (fun _ => link_in t s))) as (m1 & H1 & R1). rewrite H1. clear H1.
  assert (P1 : previous_of m1 s = Some pt) by (rewrite (r_previous _ _ _ _ R1); cbn [over]; rewrite Nat.eqb_refl, (proj2 (Nat.eqb_neq s t) Hst); reflexivity).
  assert (N1 : next_of m1 s = Some nt) by (rewrite (r_next _ _ _ _ R1); cbn [over]; rewrite Nat.eqb_refl, (proj2 (Nat.eqb_neq s t) Hst); reflexivity).
  destruct (link_in_ok m m1 s t _ _ pt nt R1 P1 N1 Et1) as (m2 & H2 & R2); [tauto | tauto | tauto |]. rewrite (bind_returned _ _ _ _ _ H2).
  assert (P2 : previous_of m2 t = Some ps /\ next_of m2 t = Some ns).
  { destruct R2 as [(Ep & R2)|(Ep & R2)]; rewrite (r_previous _ _ _ _ R2), (r_next _ _ _ _ R2); cbn [over].
    - rewrite Nat.eqb_refl, (proj2 (Nat.eqb_neq t s)) by congruence. auto.
    - assert (nt <> t) by tauto. rewrite Nat.eqb_refl, (proj2 (Nat.eqb_neq t nt)), (proj2 (Nat.eqb_neq t pt)) by congruence. auto. }
  assert (R3 : exists m3, link_in t s m2 = Returned tt m3 /\ exists fn fp, relink m m3 fn fp /\
     (fn = (if ps =? s then (t, t) else (ps, t)) :: (if pt =? t then (s, s) else (pt, s)) :: [(t, ns); (s, nt)]) /\
     (fp = (if ps =? s then (t, t) else (ns, t)) :: (if pt =? t then (s, s) else (nt, s)) :: [(t, ps); (s, pt)])).
  { destruct (Nat.eqb_spec pt t) as [Eq|Ne]; (destruct R2 as [(Ep & R2)|(Ep & R2)]; [|]; try congruence); [
      destruct (link_in_ok m m2 t s _ _ ps ns R2) as (m3 & H3 & [(Ep' & R3)|(Ep' & R3)]) |
      destruct (link_in_ok m m2 t s _ _ ps ns R2) as (m3 & H3 & [(Ep' & R3)|(Ep' & R3)]) ]; try tauto; exists m3; (split; [exact H3|]); eexists; eexists; (split; [exact R3|]);
      destruct (Nat.eqb_spec ps s); try congruence; split; reflexivity. }
  destruct R3 as (m3 & H3 & fn & fp & R & En & Ep). exists m3. split; [exact H3|].
  assert (Hall : forall r, In r (map fst fn ++ map fst fp) -> In r (s :: names_of l) \/ In r (t :: names_of k)).
  { intros r Hr. rewrite En, Ep in Hr. clear -Hr Ins Ips Int Ipt. destruct (ps =? s), (pt =? t); cbn in *; intuition (subst; tauto). }
  assert (Hsame : same_except (s :: t :: names_of l ++ names_of k) m m3).
  { intros q Hq. apply (r_object _ _ _ _ R). intros Hi. apply Hq. destruct (Hall q Hi) as [[H|H]|[H|H]]; cbn [In]; rewrite in_app_iff; auto. }
  assert (Hl' : list_at m3 t l).
  { eapply (half m m3 t s l fn fp Hl Kt Htl ltac:(congruence) R); rewrite En, Ep.
    - intros El. assert (E : ps = s) by (destruct (Nat.eq_dec ps s) as [E|E]; [exact E|]; destruct (Es3 E) as ((B1 & E1) & _); rewrite El in E1; discriminate).
      rewrite E, Nat.eqb_refl. cbn [over]. rewrite Nat.eqb_refl. auto.
    - intros b b' (B1 & E1) (B2 & E2). assert (E : ps <> s) by (intros E; rewrite (Es2 E) in E1; discriminate). destruct (Es3 E) as ((B1' & E1') & (B2' & E2')).
      assert (ns = b) by congruence. assert (ps = b') by (rewrite E2 in E2'; apply app_inj_tail in E2' as (_ & ->); reflexivity). subst b b'.
      rewrite (proj2 (Nat.eqb_neq ps s) E). clear R H3 H2 R2.
      assert (B3 : ns <> s) by tauto. assert (Tps : t <> ps) by intuition congruence. assert (Tns : t <> ns) by intuition congruence.
      split; [|split; [|split; [|split; [|split]]]]; cbn [over]; rewrite ?Nat.eqb_refl.
      + rewrite (proj2 (Nat.eqb_neq t ps) Tps). destruct (Nat.eqb_spec pt t) as [Ept|Ept]; [rewrite (proj2 (Nat.eqb_neq t s)) by congruence|rewrite (proj2 (Nat.eqb_neq t pt)) by congruence]; reflexivity.
      + rewrite (proj2 (Nat.eqb_neq t ns) Tns). destruct (Nat.eqb_spec pt t) as [Ept|Ept]; [rewrite (proj2 (Nat.eqb_neq t s)) by congruence|assert (nt <> t) by tauto; rewrite (proj2 (Nat.eqb_neq t nt)) by congruence]; reflexivity.
      + reflexivity.
      + reflexivity.
      + intros r Hr Hne. assert (Hr1 : In r (s :: names_of l)) by now right. pose proof (A3 r pt Hr1 Ipt). pose proof (A3 r t Hr1 ltac:(now left)). pose proof (not_sentinel m s l r Hl Hr).
        destruct (pt =? t); cbn; intuition congruence.
      + intros r Hr Hne. assert (Hr1 : In r (s :: names_of l)) by now right. pose proof (A3 r nt Hr1 Int). pose proof (A3 r t Hr1 ltac:(now left)). pose proof (not_sentinel m s l r Hl Hr).
        destruct (pt =? t); cbn; intuition congruence. }
  assert (Hk' : list_at m3 s k).
  { eapply (half m m3 s t k fn fp Hk Ks Hsk Hst R); rewrite En, Ep.
    - intros El. assert (E : pt = t) by (destruct (Nat.eq_dec pt t) as [E|E]; [exact E|]; destruct (Et3 E) as ((B1 & E1) & _); rewrite El in E1; discriminate).
      rewrite E, Nat.eqb_refl. destruct (Nat.eqb_spec ps s) as [Eps|Eps]; cbn [over]; [rewrite (proj2 (Nat.eqb_neq s t) Hst)|assert (ns <> s) by tauto; rewrite (proj2 (Nat.eqb_neq s ps)), (proj2 (Nat.eqb_neq s ns)) by congruence]; rewrite Nat.eqb_refl; auto.
    - intros b b' (B1 & E1) (B2 & E2). assert (E : pt <> t) by (intros E; rewrite (Et2 E) in E1; discriminate). destruct (Et3 E) as ((B1' & E1') & (B2' & E2')).
      assert (nt = b) by congruence. assert (pt = b') by (rewrite E2 in E2'; apply app_inj_tail in E2' as (_ & ->); reflexivity). subst b b'.
      rewrite (proj2 (Nat.eqb_neq pt t) E). clear R H3 H2 R2.
      assert (B3 : nt <> t) by tauto. assert (Sps : s <> pt) by intuition congruence. assert (Sns : s <> nt) by intuition congruence.
      pose proof (A3 ps pt Ips Ipt) as D1. pose proof (A3 ns nt Ins Int) as D2.
      assert (Q : ps = s -> ns = s) by tauto. assert (Q' : ps <> s -> ns <> s) by tauto.
      split; [|split; [|split; [|split; [|split]]]].
      + destruct (Nat.eqb_spec ps s) as [Eps|Eps]; cbn [over]; rewrite ?(proj2 (Nat.eqb_neq s t) Hst), ?(proj2 (Nat.eqb_neq s pt) Sps), ?Nat.eqb_refl; [reflexivity|]. rewrite (proj2 (Nat.eqb_neq s ps)) by congruence. reflexivity.
      + destruct (Nat.eqb_spec ps s) as [Eps|Eps]; cbn [over]; rewrite ?(proj2 (Nat.eqb_neq s t) Hst), ?(proj2 (Nat.eqb_neq s nt) Sns), ?Nat.eqb_refl; [reflexivity|]. specialize (Q' Eps). rewrite (proj2 (Nat.eqb_neq s ns)) by congruence. reflexivity.
      + destruct (Nat.eqb_spec ps s) as [Eps|Eps]; cbn [over]; rewrite ?Nat.eqb_refl; [rewrite (proj2 (Nat.eqb_neq pt t)) by assumption | rewrite (proj2 (Nat.eqb_neq pt ps)) by congruence]; reflexivity.
      + destruct (Nat.eqb_spec ps s) as [Eps|Eps]; cbn [over]; rewrite ?Nat.eqb_refl; [rewrite (proj2 (Nat.eqb_neq nt t)) by assumption | rewrite (proj2 (Nat.eqb_neq nt ns)) by congruence]; reflexivity.
      + intros r Hr Hne. assert (Hr1 : In r (t :: names_of k)) by now right. pose proof (A3 ps r Ips Hr1). pose proof (A3 s r ltac:(now left) Hr1). pose proof (not_sentinel m t k r Hk Hr).
        destruct (ps =? s); cbn; intuition congruence.
      + intros r Hr Hne. assert (Hr1 : In r (t :: names_of k)) by now right. pose proof (A3 ns r Ins Hr1). pose proof (A3 s r ltac:(now left) Hr1). pose proof (not_sentinel m t k r Hk Hr).
        destruct (ps =? s); cbn; intuition congruence. }
  split; [|split; [exact Hk'|split; [exact Hl'|split; [exact Hsame | apply (r_names _ _ _ _ R)]]]].
  eapply valid_same; [exact Hv | exact Hsame | rewrite (r_names _ _ _ _ R); lia|]. intros p Hp. rewrite (r_names _ _ _ _ R).
  assert (Hp' : In p (s :: names_of l) \/ In p (t :: names_of k)) by (clear -Hp; cbn [In] in *; rewrite in_app_iff in Hp; tauto).
  destruct Hp' as [Hp'|Hp']; [exact (names_below m s _ p Hv Hl Hp') | exact (names_below m t _ p Hv Hk Hp')].
Qed.
End Swap.
