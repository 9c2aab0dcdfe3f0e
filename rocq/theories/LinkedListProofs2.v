(** * Proofs about bidirectional linked lists: lists *)

From Coq Require Import List Arith Bool Lia Permutation.
From Verif Require Import LinkedList SpecList LinkedListProofs.
Import ListNotations.
Local Open Scope nat_scope.

Section Lists.
Context {V : Type}.
Notation memory := (memory (nat * nat) V).
Notation B := (M (nat * nat) V).
Notation names_of := (@names_of V).

Lemma list_at_kind (m : memory) s l : list_at m s l <->
  kind m s = Some None /\ (forall p v, In (p, v) l -> kind m p = Some (Some v)) /\ NoDup (s :: names_of l) /\ linked m (s :: names_of l ++ [s]).
Proof.
  unfold list_at, kind. split; intros (H1 & H2 & H3); (split; [|split; [|exact H3]]).
  - destruct H1 as (k & ->). reflexivity.
  - intros p v Hp. destruct (H2 p v Hp) as (k & ->). reflexivity.
  - destruct (object_at m s) as [[k| |k v]|]; try discriminate. eauto.
  - intros p v Hp. specialize (H2 p v Hp). destruct (object_at m p) as [[k| |k w]|]; try discriminate. injection H2 as <-. eauto.
Qed.
Lemma names_app l k : names_of (l ++ k) = names_of l ++ names_of k.
Proof. apply map_app. Qed.
Lemma in_names l p : In p (names_of l) -> exists v, In (p, v) l.
Proof. unfold SpecList.names_of. intros H. apply in_map_iff in H as ((q, v) & <- & H). eauto. Qed.
Lemma first_of_app (l : list (nat * V)) s : exists Q, names_of l ++ [s] = first_of l s :: Q.
Proof. destruct l as [|(p, v) l]; cbn; eauto. Qed.
Lemma last_of (X : list nat) s : exists P p, s :: X = P ++ [p].
Proof. destruct (exists_last (l := s :: X)) as (P & p & H); [discriminate|]. eauto. Qed.

Lemma splice_links (m : memory) P p q Q A a Bs b b' B1 B2 c C :
  linked m (P ++ p :: q :: Q) -> linked m (A ++ a :: Bs ++ c :: C) -> Bs = b :: B1 -> Bs = B2 ++ [b'] -> b <> c -> p <> a -> q <> c ->
  exists m', list_splice q b c m = Returned tt m' /\ relink m m' [(b', q); (p, b); (a, c)] [(q, b'); (b, p); (c, a)].
Proof.
  intros HP HA E1 E2 Hbc Hpa Hqc. unfold list_splice. rewrite (proj2 (Nat.eqb_neq _ _) Hbc).
  assert (Kp : kind m p <> None) by (eapply linked_kind; [exact HP | destruct P; discriminate]).
  assert (Kq : kind m q <> None).
  { replace (P ++ p :: q :: Q) with ((P ++ [p]) ++ q :: Q) in HP by (rewrite <- app_assoc; reflexivity). eapply linked_kind; [exact HP | destruct P; discriminate]. }
  assert (Ka : kind m a <> None) by (eapply linked_kind; [exact HA | rewrite E1; destruct A; discriminate]).
  apply linked_cut in HP as (_ & (HPn & HPp) & _).
  assert (HA1 : linked m (A ++ a :: b :: B1 ++ c :: C)) by (rewrite E1 in HA; exact HA).
  assert (HA2 : linked m ((A ++ a :: B2) ++ b' :: c :: C)).
  { rewrite E2 in HA. replace ((A ++ a :: B2) ++ b' :: c :: C) with (A ++ a :: (B2 ++ [b']) ++ c :: C) by (rewrite <- !app_assoc; reflexivity). exact HA. }
  assert (Kb' : kind m b' <> None) by (eapply linked_kind; [exact HA2 | destruct A; discriminate]).
  apply linked_cut in HA1 as (_ & (HAn & HAp) & _). apply linked_cut in HA2 as (_ & (HBn & HBp) & _).
  rewrite (bind_returned _ _ _ _ _ (run_previous _ _ _ HBp)), (bind_returned _ _ _ _ _ (run_previous _ _ _ HPp)).
  destruct (unlink_ok m m a b c [] [] (relink_refl m) HAp Ka (previous_kind _ _ _ HBp)) as (m1 & H1 & R1). rewrite (bind_returned _ _ _ _ _ H1).
  apply (link_ok m m1 p b b' q _ _ R1); auto.
  - rewrite (r_next _ _ _ _ R1). cbn [over]. rewrite (proj2 (Nat.eqb_neq _ _) Hpa). exact HPn.
  - rewrite (r_previous _ _ _ _ R1). cbn [over]. rewrite (proj2 (Nat.eqb_neq _ _) Hqc). exact HPp.
  - eapply previous_kind, HAp.
Qed.

Lemma keys3 (r x y z : nat) d1 d2 d3 : r <> x -> r <> y -> r <> z -> ~ In r (map fst [(x, d1 : nat); (y, d2); (z, d3)]).
Proof. cbn. intuition congruence. Qed.

(** Between two lists *)
Lemma splice_two (m : memory) s t k1 k2 l1 l2 l3 : list_at m s (k1 ++ k2) -> list_at m t (l1 ++ l2 ++ l3) ->
  (forall p, In p (s :: names_of (k1 ++ k2)) -> In p (t :: names_of (l1 ++ l2 ++ l3)) -> False) ->
  exists m', list_splice (first_of k2 s) (first_of (l2 ++ l3) t) (first_of l3 t) m = Returned tt m' /\
    list_at m' s (k1 ++ l2 ++ k2) /\ list_at m' t (l1 ++ l3) /\
    same_except (s :: t :: names_of (k1 ++ k2) ++ names_of (l1 ++ l2 ++ l3)) m m' /\ names m' = names m.
Proof.
  intros Hs Ht Hd. apply list_at_kind in Hs as (Ks & Kk & Nk & Lk), Ht as (Kt & Kl & Nl & Ll).
  destruct l2 as [|(b, v) l2'].
  - cbn [app] in *. exists m. unfold list_splice. rewrite Nat.eqb_refl. split; [reflexivity|].
    split; [apply list_at_kind; auto|]. split; [apply list_at_kind; auto|]. split; [intros q _; reflexivity | reflexivity].
  - cbn [app first_of fst]. rewrite !names_app in *. cbn [SpecList.names_of map fst] in *. fold (names_of l2') in *. rewrite ?names_app in *. rewrite <- ?app_assoc in *.
    set (c := first_of l3 t). set (q := first_of k2 s).
    destruct (first_of_app l3 t) as (C & EC). destruct (first_of_app k2 s) as (Q & EQ). fold c in EC. fold q in EQ. clearbody c q.
    destruct (last_of (names_of l1) t) as (A & a & EA). destruct (last_of (names_of k1) s) as (P & p & EP).
    destruct (last_of (names_of l2') b) as (B2 & b' & EB).
    remember (b :: names_of l2') as Bs eqn:EBs.
    assert (LP : linked m (P ++ p :: q :: Q)).
    { replace (P ++ p :: q :: Q) with ((P ++ [p]) ++ q :: Q) by (rewrite <- app_assoc; reflexivity). rewrite <- EP, <- EQ. exact Lk. }
    assert (LA : linked m (A ++ a :: Bs ++ c :: C)).
    { replace (A ++ a :: Bs ++ c :: C) with ((A ++ [a]) ++ Bs ++ c :: C) by (rewrite <- app_assoc; reflexivity). rewrite <- EA, <- EC.
      exact Ll. }
    (* all different *)
    assert (N1 : NoDup ((s :: names_of k1) ++ names_of k2 ++ (t :: names_of l1) ++ Bs ++ names_of l3)).
    { rewrite app_assoc. apply nodup_app. split; [exact Nk|]. split; [exact Nl|]. intros x H1 H2. eapply Hd; [exact H1 | exact H2]. }
    assert (N2 : NoDup (names_of k1 ++ (names_of k2 ++ [s]) ++ names_of l1 ++ Bs ++ (names_of l3 ++ [t]))).
    { eapply Permutation_NoDup; [|exact N1].
      transitivity (((names_of k1 ++ names_of k2) ++ [s]) ++ ((names_of l1 ++ Bs ++ names_of l3) ++ [t])).
      - change ((s :: names_of k1) ++ names_of k2 ++ (t :: names_of l1) ++ Bs ++ names_of l3)
          with ([s] ++ names_of k1 ++ names_of k2 ++ [t] ++ names_of l1 ++ Bs ++ names_of l3).
        replace ([s] ++ names_of k1 ++ names_of k2 ++ [t] ++ names_of l1 ++ Bs ++ names_of l3)
          with (([s] ++ names_of k1 ++ names_of k2) ++ ([t] ++ names_of l1 ++ Bs ++ names_of l3)) by (rewrite <- !app_assoc; reflexivity).
        apply Permutation_app; apply Permutation_app_comm.
      - rewrite <- !app_assoc. reflexivity. }
    rewrite EP, EA in N1. rewrite EQ, EC in N2.
    assert (NB1 : NoDup (b :: names_of l2')) by (rewrite <- EBs; clear -N1; apart; assumption).
    assert (NB2 : NoDup (B2 ++ [b'])) by (rewrite <- EB, EBs; exact NB1).
    assert (Hb : In b Bs) by (rewrite EBs; now left). assert (Hb' : In b' Bs) by (rewrite EB; apply in_or_app; right; now left).
    rewrite <- app_assoc in N1. cbn [app] in N1. rewrite <- app_assoc in N1. cbn [app] in N1.
    assert (Eb : b <> c) by (clear -N2 Hb; apart; intros ->; clash).
    assert (Epa : p <> a) by (clear -N1; apart; intros ->; clash).
    assert (Eqc : q <> c) by (clear -N2; apart; intros ->; clash).
    destruct (splice_links m P p q Q A a Bs b b' (names_of l2') B2 c C LP LA EBs EB Eb Epa Eqc) as (m' & Hr & R).
    exists m'. split; [exact Hr|].
    assert (LP' : linked m' (P ++ [p])).
    { apply (linked_relink m m' _ _ P p R); [apply linked_cut in LP; tauto | |].
      - intros r Hr'. clear -N1 Hr' Hb'. apart. apply keys3; intros ->; clash.
      - intros r Hr'. rewrite <- EP in Hr'. cbn [tl] in Hr'. clear -N2 Hr' Hb. apart. apply keys3; intros ->; clash. }
    assert (LQ' : linked m' (names_of k2 ++ [s])).
    { apply (linked_relink m m' _ _ _ s R); [rewrite EQ; apply linked_cut in LP; tauto | |].
      - intros r Hr'. clear -N1 Hr' Hb'. apart. apply keys3; intros ->; clash.
      - intros r Hr'. rewrite EQ in Hr'. cbn [tl] in Hr'. clear -N2 Hr' Hb. apart. apply keys3; intros ->; clash. }
    assert (LA' : linked m' (A ++ [a])).
    { apply (linked_relink m m' _ _ A a R);
        [replace (A ++ a :: Bs ++ c :: C) with ((A ++ [a]) ++ Bs ++ c :: C) in LA by (rewrite <- app_assoc; reflexivity); apply linked_parts in LA; tauto | |].
      - intros r Hr'. clear -N1 Hr' Hb'. apart. apply keys3; intros ->; clash.
      - intros r Hr'. rewrite <- EA in Hr'. cbn [tl] in Hr'. clear -N2 Hr' Hb. apart. apply keys3; intros ->; clash. }
    assert (LC' : linked m' (names_of l3 ++ [t])).
    { apply (linked_relink m m' _ _ _ t R).
      - rewrite EC. change (a :: Bs ++ c :: C) with ((a :: Bs) ++ c :: C) in LA. rewrite app_assoc in LA. apply linked_parts in LA. tauto.
      - intros r Hr'. clear -N1 Hr' Hb'. apart. apply keys3; intros ->; clash.
      - intros r Hr'. rewrite EC in Hr'. cbn [tl] in Hr'. clear -N2 Hr' Hb. apart. apply keys3; intros ->; clash. }
    assert (LB' : linked m' (B2 ++ [b'])).
    { apply (linked_relink m m' _ _ B2 b' R).
      - rewrite <- EB. replace (A ++ a :: Bs ++ c :: C) with ((A ++ [a]) ++ Bs ++ c :: C) in LA by (rewrite <- app_assoc; reflexivity).
        apply linked_parts in LA as (_ & LA). apply linked_parts in LA. tauto.
      - intros r Hr'. assert (HrB : In r Bs) by (rewrite EB; apply in_or_app; now left). clear -N1 NB2 HrB Hr'. apart. apply keys3; intros ->; clash.
      - intros r Hr'. rewrite <- EB, EBs in Hr'. cbn [tl] in Hr'. assert (HrB : In r Bs) by (rewrite EBs; now right). clear -N2 NB1 HrB Hr'. apart. apply keys3; intros ->; clash. }
    assert (Jpb : next_of m' p = Some b /\ previous_of m' b = Some p).
    { rewrite (r_next _ _ _ _ R), (r_previous _ _ _ _ R). cbn [over]. rewrite !Nat.eqb_refl.
      rewrite (proj2 (Nat.eqb_neq p b')), (proj2 (Nat.eqb_neq b q)); [auto | |]; [clear -N2 Hb | clear -N1 Hb']; apart; intros ->; clash. }
    assert (Jbq : next_of m' b' = Some q /\ previous_of m' q = Some b').
    { rewrite (r_next _ _ _ _ R), (r_previous _ _ _ _ R). cbn [over]. rewrite !Nat.eqb_refl. auto. }
    assert (Jac : next_of m' a = Some c /\ previous_of m' c = Some a).
    { rewrite (r_next _ _ _ _ R), (r_previous _ _ _ _ R). cbn [over]. rewrite !Nat.eqb_refl.
      rewrite (proj2 (Nat.eqb_neq a b')), (proj2 (Nat.eqb_neq a p)), (proj2 (Nat.eqb_neq c q)), (proj2 (Nat.eqb_neq c b)); auto.
      clear -N1 Hb'. apart. intros ->. clash. }
    split; [|split; [|split]].
    + apply list_at_kind. change (k1 ++ (b, v) :: l2' ++ k2) with (k1 ++ ((b, v) :: l2') ++ k2). rewrite !names_app.
      change (names_of ((b, v) :: l2')) with (b :: names_of l2'). rewrite <- EBs. split; [rewrite (r_kind _ _ _ _ R); exact Ks|]. split; [|split].
      * intros x w Hx. rewrite (r_kind _ _ _ _ R). apply in_app_or in Hx. destruct Hx as [Hx|Hx]; [apply Kk, in_or_app; now left|].
        apply in_app_or in Hx. destruct Hx as [Hx|Hx]; [|apply Kk, in_or_app; now right]. apply Kl, in_or_app. right. apply (in_or_app (_ :: _)). now left.
      * replace (s :: names_of k1 ++ Bs ++ names_of k2) with ((s :: names_of k1) ++ Bs ++ names_of k2) by reflexivity. rewrite EP.
        clear -N1. rewrite <- app_assoc. cbn [app]. apart. rewrite !nodup_app, !nodup_cons, !nodup_app.
        split; [assumption|]. split; [split; [split; [assumption|]; split; [assumption|]|]|].
        -- intros x H1' H2'. clash.
        -- intros Hx. apply in_app_or in Hx. destruct Hx; clash.
        -- intros x H1' [<-|H2']; [clash|]. apply in_app_or in H2'. destruct H2'; clash.
      * replace (s :: (names_of k1 ++ Bs ++ names_of k2) ++ [s]) with ((s :: names_of k1) ++ Bs ++ (names_of k2 ++ [s])) by (cbn [app]; rewrite <- !app_assoc; reflexivity).
        rewrite EP, EQ, EB. replace ((P ++ [p]) ++ (B2 ++ [b']) ++ q :: Q) with ((P ++ p :: B2) ++ b' :: q :: Q) by (rewrite <- !app_assoc; reflexivity).
        apply linked_cut. rewrite <- EQ. split; [|split; [exact Jbq | exact LQ']].
        replace ((P ++ p :: B2) ++ [b']) with (P ++ p :: (B2 ++ [b'])) by (rewrite <- app_assoc; reflexivity).
        rewrite <- EB, EBs. apply linked_cut. rewrite <- EB, EBs in LB'. auto.
    + apply list_at_kind. rewrite !names_app. split; [rewrite (r_kind _ _ _ _ R); exact Kt|]. split; [|split].
      * intros x w Hx. rewrite (r_kind _ _ _ _ R). apply Kl. apply in_app_or in Hx. apply in_or_app. destruct Hx as [Hx|Hx]; [now left | right].
        apply (in_or_app (_ :: _)). now right.
      * replace (t :: names_of l1 ++ names_of l3) with ((t :: names_of l1) ++ names_of l3) by reflexivity. rewrite EA.
        clear -N1. rewrite <- app_assoc. cbn [app]. apart. rewrite !nodup_app, !nodup_cons.
        split; [assumption|]. split; [split; [assumption|]|].
        -- intros Hx. clash.
        -- intros x H1' [<-|H2']; clash.
      * replace (t :: (names_of l1 ++ names_of l3) ++ [t]) with ((t :: names_of l1) ++ (names_of l3 ++ [t])) by (cbn [app]; rewrite <- !app_assoc; reflexivity).
        rewrite EA, EC. rewrite <- app_assoc. cbn [app]. apply linked_cut. rewrite <- EC. auto.
    + intros x Hx. apply (r_object _ _ _ _ R). intros Hin. apply Hx. clear -Hin EP EQ EA EC Hb Hb' EBs.
      assert (En : b :: map fst (l2' ++ l3) = Bs ++ names_of l3) by (rewrite EBs, map_app; reflexivity). rewrite En. clear En.
      assert (Ip : In p (s :: names_of k1)) by (rewrite EP; apply in_or_app; right; now left).
      assert (Iq : In q (names_of k2 ++ [s])) by (rewrite EQ; now left).
      assert (Ia : In a (t :: names_of l1)) by (rewrite EA; apply in_or_app; right; now left).
      assert (Ic : In c (names_of l3 ++ [t])) by (rewrite EC; now left).
      cbn [map fst app In] in Hin. clear EP EQ EA EC EBs. cbn [In]. rewrite !in_app_iff in *. cbn [In] in *. intuition (subst; tauto).
    + apply (r_names _ _ _ _ R).
Qed.
(** Two parts of one list change places. *)
Lemma rotate_linked (m m' : memory) W w X x x' X1 X2 Y y y' Y1 Y2 z Z s K : W ++ [w] = s :: K -> X = x :: X1 -> X = X2 ++ [x'] -> Y = y :: Y1 -> Y = Y2 ++ [y'] ->
  (exists J, z :: Z = J ++ [s] /\ NoDup (s :: K ++ X ++ Y ++ J)) ->
  linked m (W ++ w :: X ++ Y ++ z :: Z) ->
  (forall r, r <> w -> r <> x' -> r <> y' -> next_of m' r = next_of m r) -> (forall r, r <> x -> r <> y -> r <> z -> previous_of m' r = previous_of m r) ->
  next_of m' w = Some y -> next_of m' y' = Some x -> next_of m' x' = Some z ->
  previous_of m' y = Some w -> previous_of m' x = Some y' -> previous_of m' z = Some x' ->
  linked m' (W ++ w :: Y ++ X ++ z :: Z).
Proof.
  intros EW EX1 EX2 EY1 EY2 (J & EJ & N) L Hn Hp Nw Ny Nx Py Px Pz.
  assert (N1 : NoDup ((W ++ [w]) ++ X ++ Y ++ J)) by (rewrite EW; exact N).
  assert (N2 : NoDup (K ++ X ++ Y ++ z :: Z)).
  { rewrite EJ. replace (K ++ X ++ Y ++ J ++ [s]) with ((K ++ X ++ Y ++ J) ++ [s]) by (rewrite <- !app_assoc; reflexivity).
    eapply Permutation_NoDup; [|exact N]. apply (Permutation_app_comm [s]). }
  rewrite <- app_assoc in N1. cbn [app] in N1.
  assert (Ix : In x X) by (rewrite EX1; now left). assert (Ix' : In x' X) by (rewrite EX2; apply in_or_app; right; now left).
  assert (Iy : In y Y) by (rewrite EY1; now left). assert (Iy' : In y' Y) by (rewrite EY2; apply in_or_app; right; now left).
  assert (NX : NoDup X /\ NoDup Y) by (clear -N; apart; auto). destruct NX as (NX & NY).
  replace (W ++ w :: X ++ Y ++ z :: Z) with ((W ++ [w]) ++ X ++ Y ++ z :: Z) in L by (rewrite <- app_assoc; reflexivity).
  apply linked_parts in L as (LW & L). apply linked_parts in L as (LX & L). apply linked_parts in L as (LY & LZ).
  assert (LW' : linked m' (W ++ [w])).
  { eapply linked_frame; [| |exact LW].
    - intros r Hr. clear -Hn N1 Hr Ix' Iy'. apart. apply Hn; intros ->; clash.
    - intros r Hr. rewrite EW in Hr. cbn [tl] in Hr. clear -Hp N2 Hr Ix Iy. apart. apply Hp; intros ->; clash. }
  assert (LX' : linked m' X).
  { rewrite EX2 in LX |- *. eapply linked_frame; [| |exact LX].
    - intros r Hr. assert (In r X) by (rewrite EX2; apply in_or_app; now left). rewrite EX2 in NX. clear -Hn N1 NX H Hr Ix' Iy'. apart. apply Hn; intros ->; clash.
    - intros r Hr. rewrite <- EX2, EX1 in Hr. cbn [tl] in Hr. assert (In r X) by (rewrite EX1; now right). rewrite EX1 in NX.
      clear -Hp N2 NX H Hr Ix Iy. apart. apply Hp; intros ->; clash. }
  assert (LY' : linked m' Y).
  { rewrite EY2 in LY |- *. eapply linked_frame; [| |exact LY].
    - intros r Hr. assert (In r Y) by (rewrite EY2; apply in_or_app; now left). rewrite EY2 in NY. clear -Hn N1 NY H Hr Ix' Iy'. apart. apply Hn; intros ->; clash.
    - intros r Hr. rewrite <- EY2, EY1 in Hr. cbn [tl] in Hr. assert (In r Y) by (rewrite EY1; now right). rewrite EY1 in NY.
      clear -Hp N2 NY H Hr Ix Iy. apart. apply Hp; intros ->; clash. }
  assert (LZ' : linked m' (z :: Z)).
  { rewrite EJ in LZ |- *. eapply linked_frame; [| |exact LZ].
    - intros r Hr. clear -Hn N1 Hr Ix' Iy'. apart. apply Hn; intros ->; clash.
    - intros r Hr. rewrite <- EJ in Hr. cbn [tl] in Hr. clear -Hp N2 Hr Ix Iy. apart. apply Hp; intros ->; clash. }
  rewrite EX2. rewrite EY1 at 1. cbn [app]. apply linked_cut. split; [exact LW'|]. split; [auto|].
  replace (y :: Y1 ++ (X2 ++ [x']) ++ z :: Z) with ((Y ++ X2) ++ x' :: z :: Z) by (rewrite EY1; cbn [app]; rewrite <- !app_assoc; reflexivity).
  apply linked_cut. split; [|split; [auto | exact LZ']]. rewrite <- app_assoc, <- EX2, EX1, EY2, <- app_assoc. cbn [app].
  apply linked_cut. rewrite <- EY2, <- EX1. auto.
Qed.

Lemma ends (l : list (nat * V)) : l <> [] -> exists b B1 B2 b', names_of l = b :: B1 /\ names_of l = B2 ++ [b'] /\ (forall k t, first_of (l ++ k) t = b).
Proof.
  intros H. destruct l as [|(b, v) l]; [congruence|]. destruct (last_of (names_of l) b) as (B2 & b' & E).
  exists b, (names_of l), B2, b'. split; [reflexivity|]. split; [exact E|]. reflexivity.
Qed.
Lemma rotated (m m' : memory) s l1 l2 l3 l4 w x x' y y' z ns ps : list_at m s (l1 ++ l2 ++ l3 ++ l4) ->
  (exists W, s :: names_of l1 = W ++ [w]) -> (exists X1, names_of l2 = x :: X1) -> (exists X2, names_of l2 = X2 ++ [x']) ->
  (exists Y1, names_of l3 = y :: Y1) -> (exists Y2, names_of l3 = Y2 ++ [y']) -> (exists Z, names_of l4 ++ [s] = z :: Z) ->
  relink m m' ns ps -> Permutation ns [(w, y); (x', z); (y', x)] -> Permutation ps [(y, w); (z, x'); (x, y')] ->
  list_at m' s (l1 ++ l3 ++ l2 ++ l4) /\ same_except (s :: names_of (l1 ++ l2 ++ l3 ++ l4)) m m' /\ names m' = names m.
Proof.
  intros Hl (W & EW) (X1 & EX1) (X2 & EX2) (Y1 & EY1) (Y2 & EY2) (Z & EZ) R Pn Pp.
  apply list_at_kind in Hl as (K & Kl & N & L). rewrite !names_app in *. rewrite <- !app_assoc in L. remember (names_of l2) as X. remember (names_of l3) as Y.
  assert (Ix : In x X) by (rewrite EX1; now left). assert (Ix' : In x' X) by (rewrite EX2; apply in_or_app; right; now left).
  assert (Iy : In y Y) by (rewrite EY1; now left). assert (Iy' : In y' Y) by (rewrite EY2; apply in_or_app; right; now left).
  assert (Iw : In w (s :: names_of l1)) by (rewrite EW; apply in_or_app; right; now left).
  assert (Iz : In z (names_of l4 ++ [s])) by (rewrite EZ; now left).
  assert (Dn : NoDup [w; x'; y']).
  { change (s :: names_of l1 ++ X ++ Y ++ names_of l4) with ((s :: names_of l1) ++ X ++ Y ++ names_of l4) in N. clear -N Ix' Iy' Iw.
    apply nodup_app in N as (_ & N & D). apply nodup_app in N as (_ & N & D').
    assert (w <> x') by (intros ->; clash). assert (w <> y') by (intros ->; clash). assert (x' <> y') by (intros ->; clash).
    repeat (constructor; [cbn [In]; intuition congruence|]). constructor. }
  assert (Dp : NoDup [y; z; x]).
  { assert (N' : NoDup ((names_of l1 ++ X ++ Y) ++ (names_of l4 ++ [s]))).
    { replace ((names_of l1 ++ X ++ Y) ++ names_of l4 ++ [s]) with ((names_of l1 ++ X ++ Y ++ names_of l4) ++ [s]) by (rewrite <- !app_assoc; reflexivity).
      eapply Permutation_NoDup; [|exact N]. apply (Permutation_app_comm [s]). }
    clear -N' Ix Iy Iz. apply nodup_app in N' as (N' & _ & D). apply nodup_app in N' as (_ & N' & _). apply nodup_app in N' as (_ & _ & D').
    assert (y <> z) by (intros ->; clash). assert (y <> x) by (intros ->; clash). assert (z <> x) by (intros ->; clash).
    repeat (constructor; [cbn [In]; intuition congruence|]). constructor. }
  assert (Over : forall k k', NoDup (map fst k') -> Permutation k k' -> forall r d, over k r d = over k' r d).
  { clear. intros k k' Hnd H. apply Permutation_sym in H. induction H as [|(a, b) k k' H IH|(a, b) (c, d) k|k k' k'' H1 IH1 H2 IH2]; intros r e; cbn.
    - reflexivity.
    - destruct (r =? a); [reflexivity|]. apply IH. inversion Hnd. assumption.
    - cbn in Hnd. apply nodup_cons in Hnd as (_ & Hnd). cbn in Hnd. destruct (Nat.eqb_spec r a), (Nat.eqb_spec r c); subst; try reflexivity. exfalso. apply Hnd. now left.
    - rewrite IH2, IH1; auto. eapply Permutation_NoDup; [|exact Hnd]. apply Permutation_map, H1. }
  assert (On : forall r, next_of m' r = over [(w, y); (x', z); (y', x)] r (next_of m r)) by (intros r; rewrite (r_next _ _ _ _ R); apply Over; assumption).
  assert (Op : forall r, previous_of m' r = over [(y, w); (z, x'); (x, y')] r (previous_of m r)) by (intros r; rewrite (r_previous _ _ _ _ R); apply Over; assumption).
  rewrite !nodup_cons in Dn, Dp. cbn [In] in Dn, Dp.
  split; [|split].
  - apply list_at_kind. rewrite !names_app, <- HeqX, <- HeqY. split; [rewrite (r_kind _ _ _ _ R); exact K|]. split; [|split].
    + intros p v Hi. rewrite (r_kind _ _ _ _ R). apply Kl. rewrite !in_app_iff in *. tauto.
    + eapply Permutation_NoDup; [|exact N]. apply perm_skip, Permutation_app_head. rewrite !app_assoc. apply Permutation_app_tail, Permutation_app_comm.
    + replace (s :: (names_of l1 ++ Y ++ X ++ names_of l4) ++ [s]) with ((s :: names_of l1) ++ Y ++ X ++ (names_of l4 ++ [s])) by (cbn [app]; rewrite <- !app_assoc; reflexivity).
      rewrite EW, EZ, <- app_assoc. cbn [app].
      eapply (rotate_linked m m' W w X x x' X1 X2 Y y y' Y1 Y2 z Z s); [symmetry; exact EW | exact EX1 | exact EX2 | exact EY1 | exact EY2 | | | | | | | | | |].
      * exists (names_of l4). split; [symmetry; exact EZ | exact N].
      * change (s :: names_of l1 ++ X ++ Y ++ names_of l4 ++ [s]) with ((s :: names_of l1) ++ X ++ Y ++ names_of l4 ++ [s]) in L. rewrite EW, EZ, <- app_assoc in L. exact L.
      * intros r H1 H2 H3. rewrite On. cbn [over]. rewrite !(proj2 (Nat.eqb_neq _ _)) by assumption. reflexivity.
      * intros r H1 H2 H3. rewrite Op. cbn [over]. rewrite !(proj2 (Nat.eqb_neq _ _)) by assumption. reflexivity.
      * rewrite On. cbn [over]. now rewrite Nat.eqb_refl.
      * rewrite On. cbn [over]. rewrite Nat.eqb_refl. rewrite !(proj2 (Nat.eqb_neq y' _)) by intuition congruence. reflexivity.
      * rewrite On. cbn [over]. rewrite Nat.eqb_refl. rewrite !(proj2 (Nat.eqb_neq x' _)) by intuition congruence. reflexivity.
      * rewrite Op. cbn [over]. now rewrite Nat.eqb_refl.
      * rewrite Op. cbn [over]. rewrite Nat.eqb_refl. rewrite !(proj2 (Nat.eqb_neq x _)) by intuition congruence. reflexivity.
      * rewrite Op. cbn [over]. rewrite Nat.eqb_refl. rewrite !(proj2 (Nat.eqb_neq z _)) by intuition congruence. reflexivity.
  - intros r Hr. apply (r_object _ _ _ _ R). intros Hin. apply Hr. apply in_app_or in Hin.
    assert (Hin' : In r [w; x'; y'] \/ In r [y; z; x]).
    { destruct Hin as [Hin|Hin]; [left; apply (Permutation_in r (Permutation_map fst Pn)) in Hin | right; apply (Permutation_in r (Permutation_map fst Pp)) in Hin]; exact Hin. }
    clear -Hin' Ix Ix' Iy Iy' Iw Iz. cbn [In] in *. rewrite !in_app_iff in *. cbn [In] in *. intuition (subst; tauto).
  - apply (r_names _ _ _ _ R).
Qed.

Lemma list_eq_nil {A} (l : list A) : l = [] \/ l <> [].
Proof. destruct l; [now left | right; discriminate]. Qed.
Lemma splice_forward (m : memory) s l1 l2 l3 l4 : list_at m s (l1 ++ l2 ++ l3 ++ l4) -> l3 <> [] ->
  exists m', list_splice (first_of l4 s) (first_of (l2 ++ l3) s) (first_of (l3 ++ l4) s) m = Returned tt m' /\
    list_at m' s (l1 ++ l3 ++ l2 ++ l4) /\ same_except (s :: names_of (l1 ++ l2 ++ l3 ++ l4)) m m' /\ names m' = names m.
Proof.
  intros Hl H3. destruct (ends l3 H3) as (c & C1 & C2 & p & EC1 & EC2 & F3). rewrite F3.
  destruct (list_eq_nil l2) as [->|H2].
  - cbn [app] in *. exists m. rewrite <- (app_nil_r l3) at 1. rewrite F3. unfold list_splice. rewrite Nat.eqb_refl. split; [reflexivity|]. split; [exact Hl|]. split; [intros q _; reflexivity | reflexivity].
  - destruct (ends l2 H2) as (b & B1 & B2 & b' & EB1 & EB2 & F2). rewrite F2.
    destruct (first_of_app l4 s) as (Q & EQ). set (q := first_of l4 s) in *. clearbody q. destruct (last_of (names_of l1) s) as (A & a & EA).
    pose proof Hl as Hl'. apply list_at_kind in Hl' as (_ & _ & N & L). rewrite !names_app in N, L. rewrite <- !app_assoc in L.
    change (s :: names_of l1 ++ names_of l2 ++ names_of l3 ++ names_of l4 ++ [s]) with ((s :: names_of l1) ++ names_of l2 ++ names_of l3 ++ names_of l4 ++ [s]) in L.
    rewrite EA, EQ, <- app_assoc in L. cbn [app] in L.
    assert (N' : NoDup (names_of l1 ++ names_of l2 ++ names_of l3 ++ (q :: Q))).
    { rewrite <- EQ. replace (names_of l1 ++ names_of l2 ++ names_of l3 ++ names_of l4 ++ [s]) with ((names_of l1 ++ names_of l2 ++ names_of l3 ++ names_of l4) ++ [s]) by (rewrite <- !app_assoc; reflexivity).
      eapply Permutation_NoDup; [|exact N]. apply (Permutation_app_comm [s]). }
    assert (Ib : In b (names_of l2)) by (rewrite EB1; now left). assert (Ic : In c (names_of l3)) by (rewrite EC1; now left).
    assert (Ip : In p (names_of l3)) by (rewrite EC2; apply in_or_app; right; now left).
    change (s :: names_of l1 ++ names_of l2 ++ names_of l3 ++ names_of l4) with ((s :: names_of l1) ++ names_of l2 ++ names_of l3 ++ names_of l4) in N. rewrite EA, <- app_assoc in N. cbn [app] in N.
    destruct (splice_links m (A ++ a :: names_of l2 ++ C2) p q Q A a (names_of l2) b b' B1 B2 c (C1 ++ q :: Q)) as (m' & Hr & R).
    + rewrite EC2 in L. replace ((A ++ a :: names_of l2 ++ C2) ++ p :: q :: Q) with (A ++ a :: names_of l2 ++ (C2 ++ [p]) ++ q :: Q) by (rewrite <- !app_assoc; cbn [app]; rewrite <- !app_assoc; reflexivity). exact L.
    + rewrite EC1 in L. exact L.
    + exact EB1.
    + exact EB2.
    + clear -N' Ib Ic. apart. intros ->. clash.
    + clear -N Ip. apart. intros ->. clash.
    + clear -N' Ic. apart. intros ->. clash.
    + exists m'. split; [exact Hr|].
      eapply (rotated m m' s l1 l2 l3 l4 a b b' c p q); eauto; symmetry; apply (Permutation_cons_append [_; _]).
Qed.
Lemma splice_backward (m : memory) s l1 l2 l3 l4 : list_at m s (l1 ++ l2 ++ l3 ++ l4) -> l2 <> [] ->
  exists m', list_splice (first_of l2 s) (first_of (l3 ++ l4) s) (first_of l4 s) m = Returned tt m' /\
    list_at m' s (l1 ++ l3 ++ l2 ++ l4) /\ same_except (s :: names_of (l1 ++ l2 ++ l3 ++ l4)) m m' /\ names m' = names m.
Proof.
  intros Hl H2. destruct (ends l2 H2) as (q & Q1 & Q2 & a & EQ1 & EQ2 & F2).
  assert (F2' : first_of l2 s = q) by (rewrite <- (F2 [] s), app_nil_r; reflexivity). rewrite F2'.
  destruct (list_eq_nil l3) as [->|H3].
  - cbn [app] in *. exists m. unfold list_splice. rewrite Nat.eqb_refl. split; [reflexivity|]. split; [exact Hl|]. split; [intros r _; reflexivity | reflexivity].
  - destruct (ends l3 H3) as (b & B1 & B2 & b' & EB1 & EB2 & F3). rewrite F3.
    destruct (first_of_app l4 s) as (C & EC). set (c := first_of l4 s) in *. clearbody c. destruct (last_of (names_of l1) s) as (P & p & EP).
    pose proof Hl as Hl'. apply list_at_kind in Hl' as (_ & _ & N & L). rewrite !names_app in N, L. rewrite <- !app_assoc in L.
    change (s :: names_of l1 ++ names_of l2 ++ names_of l3 ++ names_of l4 ++ [s]) with ((s :: names_of l1) ++ names_of l2 ++ names_of l3 ++ names_of l4 ++ [s]) in L.
    rewrite EP, EC, <- app_assoc in L. cbn [app] in L.
    assert (N' : NoDup (names_of l1 ++ names_of l2 ++ names_of l3 ++ (c :: C))).
    { rewrite <- EC. replace (names_of l1 ++ names_of l2 ++ names_of l3 ++ names_of l4 ++ [s]) with ((names_of l1 ++ names_of l2 ++ names_of l3 ++ names_of l4) ++ [s]) by (rewrite <- !app_assoc; reflexivity).
      eapply Permutation_NoDup; [|exact N]. apply (Permutation_app_comm [s]). }
    assert (Ib : In b (names_of l3)) by (rewrite EB1; now left). assert (Iq : In q (names_of l2)) by (rewrite EQ1; now left).
    assert (Ia : In a (names_of l2)) by (rewrite EQ2; apply in_or_app; right; now left).
    change (s :: names_of l1 ++ names_of l2 ++ names_of l3 ++ names_of l4) with ((s :: names_of l1) ++ names_of l2 ++ names_of l3 ++ names_of l4) in N. rewrite EP, <- app_assoc in N. cbn [app] in N.
    destruct (splice_links m P p q (Q1 ++ names_of l3 ++ c :: C) (P ++ p :: Q2) a (names_of l3) b b' B1 B2 c C) as (m' & Hr & R).
    + rewrite EQ1 in L. exact L.
    + rewrite EQ2 in L. replace ((P ++ p :: Q2) ++ a :: names_of l3 ++ c :: C) with (P ++ p :: (Q2 ++ [a]) ++ names_of l3 ++ c :: C) by (rewrite <- !app_assoc; cbn [app]; rewrite <- ?app_assoc; reflexivity). exact L.
    + exact EB1.
    + exact EB2.
    + clear -N' Ib. apart. intros ->. clash.
    + clear -N Ia. apart. intros ->. clash.
    + clear -N' Iq. apart. intros ->. clash.
    + exists m'. split; [exact Hr|].
      eapply (rotated m m' s l1 l2 l3 l4 p q a b b' c); eauto; apply (Permutation_cons_append [_; _]).
Qed.

(** *** Objects come and go *)
Lemma list_at_same (m m' : memory) s l : list_at m s l -> (forall p, In p (s :: names_of l) -> object_at m' p = object_at m p) -> list_at m' s l.
Proof.
  intros (H1 & H2 & H3 & H4) E. split; [|split; [|split]].
  - rewrite E by now left. exact H1.
  - intros p v Hp. rewrite E; [apply H2, Hp|]. right. apply (in_map fst) in Hp. exact Hp.
  - exact H3.
  - change (s :: names_of l ++ [s]) with ((s :: names_of l) ++ [s]). eapply linked_frame; [| |exact H4].
    + intros r Hr. unfold next_of. now rewrite E by exact Hr.
    + intros r Hr. cbn [tl] in Hr. unfold previous_of. rewrite E; [reflexivity|]. apply in_app_or in Hr. cbn in *. tauto.
Qed.
Lemma list_at_names (m : memory) s l p : list_at m s l -> In p (s :: names_of l) -> object_at m p <> None.
Proof.
  intros (H1 & H2 & _) [<-|Hp].
  - destruct H1 as (k & ->). discriminate.
  - apply in_names in Hp as (v & Hp). destruct (H2 p v Hp) as (k & ->). discriminate.
Qed.
Lemma linked_in (m : memory) s l r : list_at m s l -> In r (s :: names_of l) -> exists a b, next_of m r = Some a /\ previous_of m r = Some b /\ In a (s :: names_of l) /\ In b (s :: names_of l).
Proof.
  intros (_ & _ & _ & L) Hr. assert (Hr' : In r (names_of l ++ [s])) by (apply in_or_app; cbn in *; tauto).
  apply in_split in Hr as (X & Y & E). apply in_split in Hr' as (X' & Y' & E').
  assert (L1 : linked m (X ++ r :: (Y ++ [s]))).
  { change (s :: names_of l ++ [s]) with ((s :: names_of l) ++ [s]) in L. rewrite E, <- app_assoc in L. exact L. }
  assert (L2 : linked m ((s :: X') ++ r :: Y')) by (change (s :: names_of l ++ [s]) with (s :: (names_of l ++ [s])) in L; rewrite E' in L; exact L).
  destruct (Y ++ [s]) as [|a Y1] eqn:EY; [destruct Y; discriminate|].
  destruct (last_of X' s) as (Z & b & EX). rewrite EX, <- app_assoc in L2. cbn [app] in L2.
  apply linked_cut in L1 as (_ & (L1 & _) & _), L2 as (_ & (_ & L2) & _). exists a, b. split; [exact L1|]. split; [exact L2|]. split.
  - assert (Ha : In a (Y ++ [s])) by (rewrite EY; now left). apply in_app_or in Ha. destruct Ha as [Ha|[<-|[]]]; [|now left]. rewrite E. apply in_or_app. right. now right.
  - assert (Hb : In b (s :: X')) by (rewrite EX; apply in_or_app; right; now left). destruct Hb as [<-|Hb]; [now left|].
    assert (Hb' : In b (names_of l ++ [s])) by (rewrite E'; apply in_or_app; now left). apply in_app_or in Hb'. cbn in *. tauto.
Qed.
End Lists.
