(** * Proofs about bidirectional linked lists: operations *)

From Coq Require Import List Arith Bool Lia Permutation.
From Verif Require Import LinkedList SpecList LinkedListProofs LinkedListProofs2.
Import ListNotations.
Local Open Scope nat_scope.

Section Operations.
Context {V : Type}.
Notation memory := (memory (nat * nat) V).
Notation B := (M (nat * nat) V).
Notation names_of := (@names_of V).

Lemma bind_threw {A C} (x : B A) (f : A -> B C) m m' : x m = Threw m' -> bind x f m = Threw m'.
Proof. intros H. unfold bind. now rewrite H. Qed.
Lemma names_nodup l : NoDup (@names_of l) -> NoDup (map fst l).
Proof. auto. Qed.
Lemma fresh (m : memory) : valid m -> object_at m (names m) = None.
Proof. intros Hv. destruct (object_at m (names m)) as [o|] eqn:E; [|reflexivity]. exfalso. specialize (Hv (names m)). rewrite E in Hv. specialize (Hv ltac:(discriminate)). lia. Qed.
Lemma names_below (m : memory) s l p : valid m -> list_at m s l -> In p (s :: names_of l) -> p < names m.
Proof. intros Hv Hl Hp. apply Hv. eapply list_at_names; eauto. Qed.
Lemma list_length (m : memory) s l : valid m -> list_at m s l -> length l < names m.
Proof.
  intros Hv Hl. assert (H : length (s :: names_of l) <= length (seq 0 (names m))).
  { apply NoDup_incl_length; [apply Hl|]. intros p Hp. apply in_seq. pose proof (names_below m s l p Hv Hl Hp). lia. }
  rewrite seq_length in H. cbn in H. unfold SpecList.names_of in H. rewrite map_length in H. lia.
Qed.
Lemma value_ok (m : memory) s l p v : list_at m s l -> In (p, v) l -> value p m = Returned v m.
Proof. intros (_ & H & _) Hp. destruct (H p v Hp) as (k & E). unfold value. now rewrite E. Qed.

Lemma make_node_ok (m : memory) v : valid m ->
  match make_node own_links v m with
  | Returned p m' => p = names m /\ names m' = S (names m) /\ object_at m' p = Some (Node (p, p) v) /\ same_except [p] m m' /\ valid m'
  | Threw m' => same_except [] m m' /\ names m <= names m' /\ valid m'
  | Undefined => False
  end.
Proof.
  intros Hv. unfold make_node, bind, may_throw, new_object, rethrow_after, own_links. pose proof (fresh m Hv) as Hf.
  assert (T : forall (o : option (object (nat * nat) V)) sc sc', let m' := set_object (Memory (fun q => if q =? names m then Some Raw else object_at m q) (S (names m)) sc) (names m) o in
    valid (Memory (object_at m') (names m') sc')).
  { intros o sc sc'. cbn. intros p. cbn. destruct (Nat.eqb_spec p (names m)) as [->|Hne]; [lia|]. intros H. specialize (Hv p H). lia. }
  assert (Hret : forall sc, match (let node := names m in Returned (A := nat) node (set_object (Memory (fun q => if q =? names m then Some Raw else object_at m q) (S (names m)) sc) node (Some (Node (node, node) v)))) with
    | Returned p m' => p = names m /\ names m' = S (names m) /\ object_at m' p = Some (Node (p, p) v) /\ same_except [p] m m' /\ valid m' | _ => False end).
  { intros sc. cbn. rewrite Nat.eqb_refl. split; [reflexivity|]. split; [reflexivity|]. split; [reflexivity|]. split.
    - intros q Hq. cbn in *. destruct (Nat.eqb_spec q (names m)) as [->|]; [tauto | reflexivity].
    - exact (T (Some (Node (names m, names m) v)) sc sc). }
  destruct (script m) as [|[|] sc] eqn:Es; cbn [script names object_at].
  - rewrite Es. exact (Hret _).
  - split; [intros q _; reflexivity|]. split; [cbn; lia|]. exact Hv.
  - destruct sc as [|[|] sc]; cbn [script names object_at].
    + exact (Hret _).
    + cbn [object_at names]. split; [|split; [cbn; lia|]].
      * intros q _. cbn. destruct (Nat.eqb_spec q (names m)) as [->|]; [now rewrite Hf | reflexivity].
      * exact (T None sc sc).
    + exact (Hret _).
Qed.

Lemma default_ok (m : memory) : valid m -> exists m', list_default m = Returned (names m) m' /\ names m' = S (names m) /\ valid m' /\ same_except [names m] m m' /\ list_at m' (names m) [].
Proof.
  intros Hv. eexists. split; [reflexivity|]. split; [reflexivity|]. split; [|split].
  - intros p. cbn. destruct (Nat.eqb_spec p (names m)) as [->|]; [lia|]. intros H. specialize (Hv p H). lia.
  - intros q Hq. cbn in *. destruct (Nat.eqb_spec q (names m)) as [->|]; [tauto | reflexivity].
  - split; [|split; [intros p v []|split]].
    + cbn. rewrite Nat.eqb_refl. eauto.
    + constructor; [intros []|constructor].
    + cbn. unfold next_of, previous_of. cbn. rewrite Nat.eqb_refl. auto.
Qed.

Lemma push_back_ok (m : memory) s l v : valid m -> list_at m s l ->
  match list_push_back s v m with
  | Returned p m' => p = names m /\ valid m' /\ list_at m' s (l ++ [(p, v)]) /\ same_except (p :: s :: names_of l) m m' /\ names m' = S (names m)
  | Threw m' => same_except [] m m' /\ valid m' /\ names m <= names m'
  | Undefined => False
  end.
Proof.
  intros Hv Hl. unfold list_push_back. pose proof (make_node_ok m v Hv) as H. destruct (make_node own_links v m) as [p m1|m1|] eqn:E; [| |contradiction].
  - destruct H as (-> & Hn & Ho & Hs & Hv1). rewrite (bind_returned _ _ _ _ _ E). set (p := names m) in *.
    assert (Hp : forall q, In q (s :: names_of l) -> q <> p) by (intros q Hq ->; pose proof (names_below m s l p Hv Hl Hq); subst p; lia).
    assert (Hl1 : list_at m1 s l) by (eapply list_at_same; [exact Hl|]; intros q Hq; apply Hs; intros [<-|[]]; exact (Hp _ Hq eq_refl)).
    pose proof Hl1 as Hk. apply list_at_kind in Hk as (K & Kl & N & L).
    destruct (last_of (names_of l) s) as (A & a & EA).
    assert (Ia : In a (s :: names_of l)) by (rewrite EA; apply in_or_app; right; now left).
    assert (L' : linked m1 (A ++ a :: [s])) by (change (s :: names_of l ++ [s]) with ((s :: names_of l) ++ [s]) in L; rewrite EA, <- app_assoc in L; exact L).
    assert (Kp : kind m1 p = Some (Some v)) by (unfold kind; now rewrite Ho).
    apply linked_cut in L' as (LA & (Ln & Lp) & _).
    unfold list_end. rewrite (bind_returned _ _ _ _ _ (run_previous _ _ _ Lp)).
    destruct (link_ok m1 m1 a p p s [] [] (relink_refl m1) Ln Lp) as (m2 & H2 & R); [eapply next_kind, Ln | eapply previous_kind, Lp | congruence | congruence |].
    rewrite (bind_returned _ _ _ _ _ H2). unfold ret.
    assert (Np : next_of m2 p = Some s /\ previous_of m2 s = Some p).
    { rewrite (r_next _ _ _ _ R), (r_previous _ _ _ _ R). cbn [over]. rewrite !Nat.eqb_refl. auto. }
    assert (Na : next_of m2 a = Some p /\ previous_of m2 p = Some a).
    { rewrite (r_next _ _ _ _ R), (r_previous _ _ _ _ R). cbn [over]. rewrite !Nat.eqb_refl. rewrite (proj2 (Nat.eqb_neq a p)) by (apply Hp, Ia).
      rewrite (proj2 (Nat.eqb_neq p s)); [auto|]. intros ->. apply (Hp s); [now left | reflexivity]. }
    split; [reflexivity|]. split; [|split; [|split]].
    + intros q Hq. rewrite (r_names _ _ _ _ R). apply Hv1. intros Hno. destruct (in_dec Nat.eq_dec q (map fst [(p, s); (a, p)] ++ map fst [(s, p); (p, a)])) as [Hi|Hi].
      * cbn in Hi. assert (Kq : kind m1 q <> None); [|unfold kind in Kq; rewrite Hno in Kq; congruence].
        destruct Hi as [<-|[<-|[<-|[<-|[]]]]]; try congruence. eapply next_kind, Ln.
      * rewrite (r_object _ _ _ _ R q Hi) in Hq. congruence.
    + apply list_at_kind. rewrite names_app. cbn [SpecList.names_of map fst]. split; [rewrite (r_kind _ _ _ _ R); exact K|]. split; [|split].
      * intros q w Hq. rewrite (r_kind _ _ _ _ R). apply in_app_or in Hq. destruct Hq as [Hq|[Hq|[]]]; [apply Kl, Hq|]. injection Hq as <- <-. exact Kp.
      * change (s :: names_of l ++ [p]) with ((s :: names_of l) ++ [p]). apply nodup_app. split; [exact N|]. split; [constructor; [intros [] | constructor]|].
        intros x Hx [<-|[]]. exact (Hp _ Hx eq_refl).
      * replace (s :: (names_of l ++ [p]) ++ [s]) with ((s :: names_of l) ++ p :: [s]) by (cbn [app]; rewrite <- app_assoc; reflexivity).
        rewrite EA, <- app_assoc. cbn [app]. apply linked_cut. split; [|split; [exact Na|]]; [|cbn; tauto].
        apply (linked_relink m1 m2 _ _ A a R LA).
        -- intros r Hr. assert (Hr' : In r (s :: names_of l)) by (rewrite EA; apply in_or_app; now left). specialize (Hp r Hr').
           rewrite EA in N. cbn. intros [<-|[<-|[]]]; [congruence|]. clear -N Hr. apart. clash.
        -- intros r Hr. rewrite <- EA in Hr. cbn [tl] in Hr. assert (Hr' : In r (s :: names_of l)) by now right. specialize (Hp r Hr').
           cbn. intros [<-|[<-|[]]]; [|congruence]. clear -N Hr. apart. clash.
    + intros q Hq. cbn in Hq. rewrite (r_object _ _ _ _ R); [apply Hs; cbn; tauto|]. cbn. cbn in Ia. intuition (subst; tauto).
    + rewrite (r_names _ _ _ _ R). exact Hn.
  - rewrite (bind_threw _ _ _ _ E). tauto.
Qed.

Lemma unlinked_last (m : memory) s l p v : list_at m s (l ++ [(p, v)]) -> valid m ->
  exists m', list_pop_back s m = Returned tt m' /\ valid m' /\ list_at m' s l /\ object_at m' p = None /\ same_except (p :: s :: names_of l) m m' /\ names m' = names m.
Proof.
  intros Hl Hv. pose proof Hl as Hk. apply list_at_kind in Hk as (K & Kl & N & L). rewrite names_app in *. cbn [SpecList.names_of map fst] in *.
  change (map fst l) with (names_of l) in *.
  destruct (last_of (names_of l) s) as (A & a & EA).
  replace (s :: (names_of l ++ [p]) ++ [s]) with ((s :: names_of l) ++ p :: [s]) in L by (cbn [app]; rewrite <- app_assoc; reflexivity).
  rewrite EA, <- app_assoc in L. cbn [app] in L. apply linked_cut in L as (LA & (Ln & Lp) & Ls). cbn in Ls. destruct Ls as (Lpn & Lsp & _).
  unfold list_pop_back, list_end. rewrite (bind_returned _ _ _ _ _ (run_previous _ _ _ Lsp)).
  destruct (unlink_ok m m a p s [] [] (relink_refl m) Lp) as (m1 & H1 & R); [eapply next_kind, Ln | eapply previous_kind, Lsp |].
  rewrite (bind_returned _ _ _ _ _ H1).
  assert (Kp : kind m1 p = Some (Some v)) by (rewrite (r_kind _ _ _ _ R); apply Kl, in_or_app; right; now left).
  assert (Hd : destroy_node p m1 = Returned tt (set_object m1 p None)).
  { unfold destroy_node. unfold kind in Kp. destruct (object_at m1 p) as [[]|]; try discriminate. reflexivity. }
  change (s :: names_of l ++ [p]) with ((s :: names_of l) ++ [p]) in N. rewrite EA in N.
  assert (Hp : forall q, In q (s :: names_of l) -> q <> p).
  { intros q Hq ->. rewrite EA in Hq. clear -N Hq. apply nodup_app in N as (_ & _ & D). apply (D p Hq). now left. }
  assert (Ia : In a (s :: names_of l)) by (rewrite EA; apply in_or_app; right; now left).
  assert (Hl1 : list_at m1 s l).
  { apply list_at_kind. split; [rewrite (r_kind _ _ _ _ R); exact K|]. split; [|split].
    - intros q w Hq. rewrite (r_kind _ _ _ _ R). apply Kl, in_or_app. now left.
    - rewrite EA. clear -N. apply nodup_app in N. tauto.
    - change (s :: names_of l ++ [s]) with ((s :: names_of l) ++ [s]). rewrite EA, <- app_assoc. cbn [app]. apply linked_cut. split; [|split; [|exact I]].
      + apply (linked_relink m m1 _ _ A a R LA).
        * intros r Hr. cbn. intros [<-|[]]. clear -N Hr. rewrite <- app_assoc in N. apart. clash.
        * intros r Hr. rewrite <- EA in Hr. cbn [tl] in Hr. cbn. intros [<-|[]]. rewrite <- EA in N. clear -N Hr. cbn [app] in N. apart. clash.
      + rewrite (r_next _ _ _ _ R), (r_previous _ _ _ _ R). cbn [over]. rewrite !Nat.eqb_refl. auto. }
  exists (set_object m1 p None). split; [exact Hd|]. split; [|split; [|split; [|split]]].
  - intros q. cbn. rewrite (r_names _ _ _ _ R). destruct (Nat.eqb_spec q p) as [->|Hne]; [congruence|]. intros Hq. apply Hv. intros Hno.
    destruct (in_dec Nat.eq_dec q [a; s]) as [Hi|Hi].
    + assert (Kq : kind m1 q <> None); [|rewrite (r_kind _ _ _ _ R) in Kq; unfold kind in Kq; rewrite Hno in Kq; congruence].
      rewrite (r_kind _ _ _ _ R). destruct Hi as [<-|[<-|[]]]; [eapply next_kind, Ln | eapply previous_kind, Lsp].
    + rewrite (r_object _ _ _ _ R) in Hq by exact Hi. congruence.
  - eapply list_at_same; [exact Hl1|]. intros q Hq. cbn. rewrite (proj2 (Nat.eqb_neq q p)); [reflexivity | apply Hp, Hq].
  - cbn. now rewrite Nat.eqb_refl.
  - intros q Hq. cbn in *. rewrite (proj2 (Nat.eqb_neq q p)) by (intros ->; tauto). apply (r_object _ _ _ _ R). cbn. intuition (subst; tauto).
  - cbn. apply (r_names _ _ _ _ R).
Qed.
Lemma begin_ok (m : memory) s l : list_at m s l -> list_begin s m = Returned (first_of l s) m.
Proof. intros (_ & _ & _ & L). apply run_next. destruct l as [|(p, v) l]; cbn in L; cbn; tauto. Qed.
Lemma next_ok (m : memory) s l1 p v l2 : list_at m s (l1 ++ (p, v) :: l2) -> get_next p m = Returned (first_of l2 s) m.
Proof.
  intros (_ & _ & _ & L). apply run_next. rewrite names_app in L. cbn [SpecList.names_of map fst] in L. change (map fst l2) with (names_of l2) in L.
  destruct (first_of_app l2 s) as (Q & E).
  replace (s :: (names_of l1 ++ p :: names_of l2) ++ [s]) with ((s :: names_of l1) ++ p :: (names_of l2 ++ [s])) in L by (cbn [app]; rewrite <- app_assoc; reflexivity).
  rewrite E in L. apply linked_cut in L. tauto.
Qed.
Lemma previous_ok (m : memory) s l1 l2 : list_at m s (l1 ++ l2) -> get_previous (first_of l2 s) m = Returned (last_place l1 s) m.
Proof.
  intros (_ & _ & _ & L). apply run_previous. rewrite names_app, <- app_assoc in L. destruct (first_of_app l2 s) as (Q & E). rewrite E in L.
  unfold last_place. destruct (names_of l1) as [|a A _] using rev_ind.
  - cbn in L. cbn. tauto.
  - rewrite last_last. change (s :: (A ++ [a]) ++ first_of l2 s :: Q) with ((s :: A ++ [a]) ++ first_of l2 s :: Q) in L.
    replace ((s :: A ++ [a]) ++ first_of l2 s :: Q) with ((s :: A) ++ a :: first_of l2 s :: Q) in L by (cbn [app]; rewrite <- app_assoc; reflexivity).
    apply linked_cut in L. tauto.
Qed.
Lemma empty_ok (m : memory) s l : list_at m s l -> list_is_empty s m = Returned (match l with [] => true | _ => false end) m.
Proof.
  intros H. unfold list_is_empty. rewrite (bind_returned _ _ _ _ _ (begin_ok m s l H)). unfold ret, list_end. destruct l as [|(p, v) l]; cbn [first_of fst].
  - now rewrite Nat.eqb_refl.
  - rewrite (proj2 (Nat.eqb_neq p s)); [reflexivity|]. intros ->. destruct H as (_ & _ & N & _). cbn in N. apply nodup_cons in N as (_ & N). apply N. now left.
Qed.

Lemma same_trans ps qs (m1 m2 m3 : memory) : same_except ps m1 m2 -> same_except qs m2 m3 -> same_except (ps ++ qs) m1 m3.
Proof. intros H1 H2 q Hq. rewrite in_app_iff in Hq. rewrite H2, H1 by tauto. reflexivity. Qed.
Lemma same_weaken ps qs (m m' : memory) : same_except ps m m' -> incl ps qs -> same_except qs m m'.
Proof. intros H Hi q Hq. apply H. intros Hin. apply Hq, Hi, Hin. Qed.

Lemma clear_loop_ok l : forall (m : memory) s fuel, valid m -> list_at m s l -> length l < fuel ->
  exists m', list_clear_loop fuel s m = Returned tt m' /\ valid m' /\ list_at m' s [] /\ (forall p, In p (names_of l) -> object_at m' p = None) /\
    same_except (s :: names_of l) m m' /\ names m' = names m.
Proof.
  induction l as [|(p, v) l IH] using rev_ind; intros m s fuel Hv Hl Hf; (destruct fuel as [|fuel]; [lia|]); cbn [list_clear_loop]; rewrite (bind_returned _ _ _ _ _ (empty_ok m s _ Hl)).
  - exists m. split; [reflexivity|]. split; [exact Hv|]. split; [exact Hl|]. split; [intros p []|]. split; [intros q _; reflexivity | reflexivity].
  - assert (E : match l ++ [(p, v)] with [] => true | _ => false end = false) by (destruct l; reflexivity). rewrite E. clear E.
    destruct (unlinked_last m s l p v Hl Hv) as (m1 & H1 & Hv1 & Hl1 & Ho1 & Hs1 & Hn1). rewrite (bind_returned _ _ _ _ _ H1).
    rewrite app_length in Hf. cbn in Hf. destruct (IH m1 s fuel Hv1 Hl1 ltac:(lia)) as (m2 & H2 & Hv2 & Hl2 & Ho2 & Hs2 & Hn2).
    assert (Hp : ~ In p (s :: names_of l)).
    { destruct Hl as (_ & _ & N & _). rewrite names_app in N. change (s :: names_of l ++ names_of [(p, v)]) with ((s :: names_of l) ++ [p]) in N.
      apply nodup_app in N as (_ & _ & D). intros Hp. apply (D p Hp). now left. }
    exists m2. split; [exact H2|]. split; [exact Hv2|]. split; [exact Hl2|]. split; [|split; [|congruence]].
    + intros q Hq. rewrite names_app in Hq. apply in_app_or in Hq. destruct Hq as [Hq|[<-|[]]]; [apply Ho2, Hq|]. rewrite Hs2 by exact Hp. exact Ho1.
    + eapply same_weaken; [eapply same_trans; [exact Hs1 | exact Hs2]|]. intros q. rewrite names_app. cbn. rewrite !in_app_iff. cbn. tauto.
Qed.
Lemma clear_ok (m : memory) s l : valid m -> list_at m s l ->
  exists m', list_clear s m = Returned tt m' /\ valid m' /\ list_at m' s [] /\ (forall p, In p (names_of l) -> object_at m' p = None) /\
    same_except (s :: names_of l) m m' /\ names m' = names m.
Proof. intros Hv Hl. unfold list_clear, with_fuel. apply clear_loop_ok; auto. pose proof (list_length m s l Hv Hl). lia. Qed.
Lemma destroy_ok (m : memory) s l : valid m -> list_at m s l ->
  exists m', list_destroy s m = Returned tt m' /\ valid m' /\ (forall p, In p (s :: names_of l) -> object_at m' p = None) /\
    same_except (s :: names_of l) m m' /\ names m' = names m.
Proof.
  intros Hv Hl. destruct (clear_ok m s l Hv Hl) as (m1 & H1 & Hv1 & Hl1 & Ho1 & Hs1 & Hn1). unfold list_destroy. rewrite (bind_returned _ _ _ _ _ H1).
  assert (Hd : end_sentinel s m1 = Returned tt (set_object m1 s None)) by (unfold end_sentinel; destruct Hl1 as ((k & ->) & _); reflexivity).
  exists (set_object m1 s None). split; [exact Hd|]. split; [|split; [|split]].
  - intros q. cbn. destruct (Nat.eqb_spec q s) as [->|]; [congruence|]. apply Hv1.
  - intros p Hp. cbn. destruct (Nat.eqb_spec p s) as [->|Hne]; [reflexivity|]. destruct Hp as [->|Hp]; [congruence|]. apply Ho1, Hp.
  - intros q Hq. cbn. destruct (Nat.eqb_spec q s) as [->|Hne]; [exfalso; apply Hq; now left|]. apply Hs1, Hq.
  - exact Hn1.
Qed.

Lemma finally_returned {A} (x : B A) f m a m1 m2 : x m = Returned a m1 -> f m1 = Returned tt m2 -> finally x f m = Returned a m2.
Proof. intros H1 H2. unfold finally. now rewrite H1, H2. Qed.
Lemma finally_threw {A} (x : B A) f m m1 m2 : x m = Threw m1 -> f m1 = Returned tt m2 -> finally x f m = Threw m2.
Proof. intros H1 H2. unfold finally. now rewrite H1, H2. Qed.

Lemma valid_same (m m' : memory) ps : valid m -> same_except ps m m' -> names m <= names m' -> (forall p, In p ps -> p < names m') -> valid m'.
Proof.
  intros Hv Hs Hn Hp q Hq. destruct (in_dec Nat.eq_dec q ps) as [Hi|Hi]; [auto|]. rewrite Hs in Hq by exact Hi. specialize (Hv q Hq). lia.
Qed.

(** The local list of erase and of insert *)
Lemma splice_valid (m : memory) s t k1 k2 l1 l2 l3 : valid m -> list_at m s (k1 ++ k2) -> list_at m t (l1 ++ l2 ++ l3) ->
  (forall p, In p (s :: names_of (k1 ++ k2)) -> In p (t :: names_of (l1 ++ l2 ++ l3)) -> False) ->
  exists m', list_splice (first_of k2 s) (first_of (l2 ++ l3) t) (first_of l3 t) m = Returned tt m' /\ valid m' /\
    list_at m' s (k1 ++ l2 ++ k2) /\ list_at m' t (l1 ++ l3) /\
    same_except (s :: t :: names_of (k1 ++ k2) ++ names_of (l1 ++ l2 ++ l3)) m m' /\ names m' = names m.
Proof.
  intros Hv Hs Ht Hd. destruct (splice_two m s t k1 k2 l1 l2 l3 Hs Ht Hd) as (m' & Hr & Hs' & Ht' & He & Hn). exists m'. split; [exact Hr|]. split; [|auto].
  eapply valid_same; [exact Hv | exact He | lia|]. intros p Hp. rewrite Hn.
  assert (Hp' : In p (s :: names_of (k1 ++ k2)) \/ In p (t :: names_of (l1 ++ l2 ++ l3))) by (cbn in *; rewrite in_app_iff in Hp; tauto).
  destruct Hp' as [Hp'|Hp']; [exact (names_below m s _ p Hv Hs Hp') | exact (names_below m t _ p Hv Ht Hp')].
Qed.

Lemma erase_ok (m : memory) s l1 l2 l3 : valid m -> list_at m s (l1 ++ l2 ++ l3) ->
  exists m', list_erase (first_of (l2 ++ l3) s) (first_of l3 s) m = Returned (first_of l3 s) m' /\ valid m' /\ list_at m' s (l1 ++ l3) /\
    (forall p, In p (names_of l2) -> object_at m' p = None) /\ same_except (s :: names_of (l1 ++ l2 ++ l3)) m m' /\ names m <= names m'.
Proof.
  intros Hv Hl. unfold list_erase. destruct (default_ok m Hv) as (m1 & H1 & Hn1 & Hv1 & Hs1 & Ht1). rewrite (bind_returned _ _ _ _ _ H1). set (t := names m) in *.
  assert (Hb : forall p, In p (s :: names_of (l1 ++ l2 ++ l3)) -> p < t) by (intros p Hp; exact (names_below m s _ p Hv Hl Hp)).
  assert (Hl1 : list_at m1 s (l1 ++ l2 ++ l3)).
  { eapply list_at_same; [exact Hl|]. intros p Hp. apply Hs1. intros [<-|[]]. specialize (Hb _ Hp). lia. }
  destruct (splice_valid m1 t s [] [] l1 l2 l3 Hv1 Ht1 Hl1) as (m2 & H2 & Hv2 & Ht2 & Hl2 & Hs2 & Hn2).
  { intros p [<-|[]] Hp. specialize (Hb _ Hp). lia. }
  cbn [app first_of] in Ht2, H2. rewrite app_nil_r in Ht2. destruct (destroy_ok m2 t l2 Hv2 Ht2) as (m3 & H3 & Hv3 & Ho3 & Hs3 & Hn3).
  assert (Hb2 : bind (list_begin t) (fun b => list_splice b (first_of (l2 ++ l3) s) (first_of l3 s)) m1 = Returned tt m2) by (rewrite (bind_returned _ _ _ _ _ (begin_ok m1 t [] Ht1)); exact H2).
  rewrite (bind_returned _ _ _ _ _ (finally_returned _ _ _ _ _ _ Hb2 H3)). exists m3. split; [reflexivity|]. split; [exact Hv3|]. split; [|split; [|split]].
  - eapply list_at_same; [exact Hl2|]. intros p Hp. apply Hs3. intros [<-|Hin].
    + assert (H : In t (s :: names_of (l1 ++ l2 ++ l3))); [|specialize (Hb _ H); lia]. rewrite !names_app in *. cbn in *. rewrite !in_app_iff in *. tauto.
    + destruct Hl as (_ & _ & N & _). rewrite !names_app in *. cbn [In] in Hp. rewrite in_app_iff in Hp.
      apply nodup_cons in N as (N & D). apply nodup_app in N as (_ & N & D1). apply nodup_app in N as (_ & _ & D2).
      destruct Hp as [<-|[Hp|Hp]]; [apply D; rewrite !in_app_iff; tauto | apply (D1 p); [exact Hp | apply in_or_app; now left] | apply (D2 p); assumption].
  - intros p Hp. apply Ho3. now right.
  - intros q Hq. destruct (Nat.eq_dec q t) as [->|Hne].
    + rewrite Ho3 by now left. symmetry. apply fresh, Hv.
    + rewrite Hs3, Hs2, Hs1; [reflexivity | | |].
      * cbn. intros [|[]]; congruence.
      * cbn. rewrite !names_app in *. cbn in Hq. rewrite !in_app_iff in *. intuition congruence.
      * cbn. rewrite !names_app in *. cbn in Hq. rewrite !in_app_iff in *. intuition congruence.
  - lia.
Qed.
Lemma not_sentinel (m : memory) s l p : list_at m s l -> In p (names_of l) -> p <> s.
Proof. intros (_ & _ & N & _) Hp ->. apply nodup_cons in N as (_ & N). exact (N Hp). Qed.
Lemma erase_one_ok (m : memory) s l1 p v l3 : valid m -> list_at m s (l1 ++ (p, v) :: l3) ->
  exists m', list_erase_one s p m = Returned (first_of l3 s) m' /\ valid m' /\ list_at m' s (l1 ++ l3) /\
    object_at m' p = None /\ same_except (s :: names_of (l1 ++ (p, v) :: l3)) m m' /\ names m <= names m'.
Proof.
  intros Hv Hl. unfold list_erase_one. rewrite require_true.
  - rewrite (bind_returned _ _ _ _ _ (next_ok m s l1 p v l3 Hl)). destruct (erase_ok m s l1 [(p, v)] l3 Hv Hl) as (m' & Hr & Hv' & Hl' & Ho & Hs & Hn).
    exists m'. split; [exact Hr|]. split; [exact Hv'|]. split; [exact Hl'|]. split; [apply Ho; now left|]. auto.
  - unfold list_end. rewrite (proj2 (Nat.eqb_neq p s)); [reflexivity|]. eapply not_sentinel; [exact Hl|]. rewrite names_app. apply in_or_app. right. now left.
Qed.
Lemma pop_front_ok (m : memory) s p v l : valid m -> list_at m s ((p, v) :: l) ->
  exists m', list_pop_front s m = Returned tt m' /\ valid m' /\ list_at m' s l /\ object_at m' p = None /\ same_except (s :: names_of ((p, v) :: l)) m m'.
Proof.
  intros Hv Hl. unfold list_pop_front. rewrite (bind_returned _ _ _ _ _ (begin_ok m s _ Hl)). cbn [first_of fst].
  destruct (erase_one_ok m s [] p v l Hv Hl) as (m' & Hr & Hv' & Hl' & Ho & Hs & Hn). rewrite (bind_returned _ _ _ _ _ Hr). exists m'. auto.
Qed.
Lemma erase_to_end_ok (m : memory) s l1 l2 : valid m -> list_at m s (l1 ++ l2) ->
  exists m', list_erase_to_end s (first_of l2 s) m = Returned tt m' /\ valid m' /\ list_at m' s l1 /\
    (forall p, In p (names_of l2) -> object_at m' p = None) /\ same_except (s :: names_of (l1 ++ l2)) m m' /\ names m <= names m'.
Proof.
  intros Hv Hl. rewrite <- (app_nil_r l2) in Hl. destruct (erase_ok m s l1 l2 [] Hv Hl) as (m' & Hr & Hv' & Hl' & Ho & Hs & Hn). rewrite !app_nil_r in *.
  unfold list_erase_to_end. cbn [first_of] in Hr. unfold list_end. rewrite (bind_returned _ _ _ _ _ Hr). exists m'. auto 6.
Qed.

Lemma erase_if_loop_ok (f : V -> bool) s l2 : forall (m : memory) l1 fuel count, valid m -> list_at m s (l1 ++ l2) -> length l2 < fuel ->
  exists m', list_erase_if_loop fuel f s (first_of l2 s) count m = Returned (count + length (filter (fun e => f (snd e)) l2)) m' /\ valid m' /\
    list_at m' s (l1 ++ filter (fun e => negb (f (snd e))) l2) /\ (forall e, In e l2 -> f (snd e) = true -> object_at m' (fst e) = None) /\
    same_except (s :: names_of (l1 ++ l2)) m m' /\ names m <= names m'.
Proof.
  induction l2 as [|(p, v) l2 IH]; intros m l1 fuel count Hv Hl Hf; (destruct fuel as [|fuel]; [lia|]); cbn [list_erase_if_loop]; unfold list_end.
  - cbn [first_of filter length]. rewrite Nat.eqb_refl. exists m. split; [unfold ret; f_equal; lia|]. split; [exact Hv|]. split; [exact Hl|]. split; [intros e []|]. split; [intros q _; reflexivity | lia].
  - assert (Hps : p <> s) by (eapply not_sentinel; [exact Hl|]; rewrite names_app; apply in_or_app; right; now left).
    cbn [first_of fst]. rewrite (proj2 (Nat.eqb_neq p s) Hps).
    rewrite (bind_returned _ _ _ _ _ (value_ok m s _ p v Hl ltac:(apply in_or_app; right; now left))).
    cbn [filter snd length] in *. destruct (f v) eqn:Ev; cbn [negb length].
    + destruct (erase_one_ok m s l1 p v l2 Hv Hl) as (m1 & H1 & Hv1 & Hl1 & Ho1 & Hs1 & Hn1). rewrite (bind_returned _ _ _ _ _ H1).
      destruct (IH m1 l1 fuel (S count) Hv1 Hl1 ltac:(lia)) as (m2 & H2 & Hv2 & Hl2 & Ho2 & Hs2 & Hn2).
      exists m2. split; [rewrite H2; f_equal; lia|]. split; [exact Hv2|]. split; [exact Hl2|]. split; [|split; [|lia]].
      * intros e [<-|He] Hfe; [|apply Ho2; assumption]. cbn [fst]. rewrite Hs2; [exact Ho1|]. intros [Hq|Hq]; [congruence|].
        destruct Hl as (_ & _ & N & _). rewrite names_app in N, Hq. cbn [SpecList.names_of map fst] in N. apply nodup_cons in N as (N & _).
        apply NoDup_remove_2 in N. apply N. exact Hq.
      * eapply same_weaken; [eapply same_trans; [exact Hs1 | exact Hs2]|]. intros q. rewrite !names_app. cbn. rewrite !in_app_iff. cbn. rewrite !in_app_iff. tauto.
    + rewrite (bind_returned _ _ _ _ _ (next_ok m s l1 p v l2 Hl)).
      replace (l1 ++ (p, v) :: l2) with ((l1 ++ [(p, v)]) ++ l2) in Hl by (rewrite <- app_assoc; reflexivity).
      destruct (IH m (l1 ++ [(p, v)]) fuel count Hv Hl ltac:(lia)) as (m2 & H2 & Hv2 & Hl2 & Ho2 & Hs2 & Hn2).
      rewrite <- app_assoc in Hl2, Hs2. cbn [app] in Hl2, Hs2. exists m2. split; [exact H2|]. split; [exact Hv2|]. split; [exact Hl2|]. split; [|auto].
      intros e [<-|He] Hfe; [cbn in Hfe; congruence|]. apply Ho2; assumption.
Qed.
Lemma erase_if_ok (f : V -> bool) (m : memory) s l : valid m -> list_at m s l ->
  exists m', list_erase_if s f m = Returned (length (filter (fun e => f (snd e)) l)) m' /\ valid m' /\
    list_at m' s (filter (fun e => negb (f (snd e))) l) /\ (forall e, In e l -> f (snd e) = true -> object_at m' (fst e) = None) /\ same_except (s :: names_of l) m m'.
Proof.
  intros Hv Hl. unfold list_erase_if. rewrite (bind_returned _ _ _ _ _ (begin_ok m s l Hl)). unfold with_fuel.
  destruct (erase_if_loop_ok f s l m [] (S (names m)) 0 Hv Hl) as (m' & Hr & Hv' & Hl' & Ho & Hs & _); [pose proof (list_length m s l Hv Hl); lia|].
  exists m'. auto.
Qed.

(** *** append, the constructor from a range, insert *)
Lemma append_ok vs : forall (m : memory) s l, valid m -> list_at m s l ->
  match list_append s vs m with
  | Returned _ m' => exists k, map snd k = vs /\ (forall p, In p (names_of k) -> names m <= p) /\ valid m' /\ list_at m' s (l ++ k) /\ same_except (s :: names_of (l ++ k)) m m' /\ names m <= names m'
  | Threw m' => exists k, (exists vs', vs' <> [] /\ map snd k ++ vs' = vs) /\ (forall p, In p (names_of k) -> names m <= p) /\ valid m' /\ list_at m' s (l ++ k) /\ same_except (s :: names_of (l ++ k)) m m' /\ names m <= names m'
  | Undefined => False
  end.
Proof.
  induction vs as [|v vs IH]; intros m s l Hv Hl; cbn [list_append].
  - exists []. cbn. rewrite app_nil_r. split; [reflexivity|]. split; [intros p []|]. split; [exact Hv|]. split; [exact Hl|]. split; [intros q _; reflexivity | lia].
  - pose proof (push_back_ok m s l v Hv Hl) as H. destruct (list_push_back s v m) as [p m1|m1|] eqn:E; [| |contradiction].
    + rewrite (bind_returned _ _ _ _ _ E). destruct H as (-> & Hv1 & Hl1 & Hs1 & Hn1). specialize (IH m1 s (l ++ [(names m, v)]) Hv1 Hl1).
      assert (T : forall m' k, (forall p, In p (names_of k) -> names m1 <= p) -> same_except (s :: names_of ((l ++ [(names m, v)]) ++ k)) m1 m' ->
        (forall p, In p (names_of ((names m, v) :: k)) -> names m <= p) /\ same_except (s :: names_of (l ++ (names m, v) :: k)) m m').
      { intros m' k Hk Hs. split.
        - intros p [<-|Hp]; [cbn; lia|]. specialize (Hk p Hp). lia.
        - eapply same_weaken; [eapply same_trans; [exact Hs1 | exact Hs]|]. intros q. rewrite !names_app. cbn [SpecList.names_of map fst app In]. rewrite ?in_app_iff. cbn [In]. rewrite ?in_app_iff. cbn [In]. rewrite ?in_app_iff. cbn [In]. tauto. }
      destruct (list_append s vs m1) as [u m'|m'|]; [| |contradiction].
      * destruct IH as (k & Ek & Hk & Hv' & Hl' & Hs' & Hn'). destruct (T m' k Hk Hs') as (T1 & T2). exists ((names m, v) :: k). cbn [map snd]. rewrite Ek. rewrite <- app_assoc in Hl'.
        split; [reflexivity|]. split; [exact T1|]. split; [exact Hv'|]. split; [exact Hl'|]. split; [exact T2 | lia].
      * destruct IH as (k & (vs' & Hne & Ek) & Hk & Hv' & Hl' & Hs' & Hn'). destruct (T m' k Hk Hs') as (T1 & T2). exists ((names m, v) :: k). cbn [map snd]. rewrite <- app_assoc in Hl'.
        split; [exists vs'; cbn [app]; rewrite Ek; auto|]. split; [exact T1|]. split; [exact Hv'|]. split; [exact Hl'|]. split; [exact T2 | lia].
    + rewrite (bind_threw _ _ _ _ E). destruct H as (Hs & Hv1 & Hn1). exists []. cbn. rewrite app_nil_r. split; [exists (v :: vs); split; [discriminate | reflexivity]|].
      split; [intros p []|]. split; [exact Hv1|]. split; [|split; [|lia]].
      * eapply list_at_same; [exact Hl|]. intros p _. apply Hs. intros [].
      * eapply same_weaken; [exact Hs|]. intros q [].
Qed.
Lemma from_ok (m : memory) vs : valid m ->
  match list_from vs m with
  | Returned s m' => exists k, map snd k = vs /\ s = names m /\ (forall p, In p (names_of k) -> names m <= p) /\ valid m' /\ list_at m' s k /\ same_except (s :: names_of k) m m' /\ names m <= names m'
  | Threw m' => valid m' /\ (forall q, q < names m -> object_at m' q = object_at m q) /\ names m <= names m'
  | Undefined => False
  end.
Proof.
  intros Hv. unfold list_from. destruct (default_ok m Hv) as (m1 & H1 & Hn1 & Hv1 & Hs1 & Ht1). rewrite (bind_returned _ _ _ _ _ H1).
  pose proof (append_ok vs m1 (names m) [] Hv1 Ht1) as H. destruct (list_append (names m) vs m1) as [u m2|m2|] eqn:E; [| |contradiction].
  - destruct H as (k & Ek & Hk & Hv2 & Hl2 & Hs2 & Hn2). unfold rethrow_after, bind. rewrite E. unfold ret. exists k. split; [exact Ek|]. split; [reflexivity|].
    split; [intros p Hp; specialize (Hk p Hp); lia|]. split; [exact Hv2|]. split; [exact Hl2|]. split; [|lia].
    eapply same_weaken; [eapply same_trans; [exact Hs1 | exact Hs2]|]. intros q. cbn. tauto.
  - destruct H as (k & _ & Hk & Hv2 & Hl2 & Hs2 & Hn2). unfold rethrow_after, bind. rewrite E.
    assert (Hd : end_sentinel (names m) m2 = Returned tt (set_object m2 (names m) None)) by (unfold end_sentinel; destruct Hl2 as ((j & ->) & _); reflexivity). rewrite Hd.
    split; [|split; [|cbn; lia]].
    + intros q. cbn. destruct (Nat.eqb_spec q (names m)) as [->|]; [congruence|]. apply Hv2.
    + intros q Hq. cbn. rewrite (proj2 (Nat.eqb_neq q (names m))) by lia. rewrite Hs2, Hs1; [reflexivity | |].
      * cbn. lia.
      * cbn. intros [Hi|Hi]; [lia|]. specialize (Hk q Hi). lia.
Qed.
Lemma insert_full (m : memory) s l1 l2 vs : valid m -> list_at m s (l1 ++ l2) ->
  match list_insert s (first_of l2 s) vs m with
  | Returned r m' => r = first_of l2 s /\ exists k, map snd k = vs /\ (forall p, In p (names_of k) -> object_at m p = None) /\ valid m' /\ list_at m' s (l1 ++ k ++ l2) /\ same_except (s :: names_of (l1 ++ k ++ l2)) m m'
  | Threw m' => valid m' /\ (forall q, object_at m q <> None -> object_at m' q = object_at m q) /\ list_from vs m = Threw m'
  | Undefined => False
  end.
Proof.
  intros Hv Hl. unfold list_insert. pose proof (from_ok m vs Hv) as H. destruct (list_from vs m) as [t m1|m1|] eqn:E; [| |contradiction].
  - destruct H as (k & Ek & -> & Hk & Hv1 & Ht1 & Hs1 & Hn1). rewrite (bind_returned _ _ _ _ _ E). set (t := names m) in *.
    assert (Hb : forall p, In p (s :: names_of (l1 ++ l2)) -> p < t) by (intros p Hp; exact (names_below m s _ p Hv Hl Hp)).
    assert (Hb' : forall p, In p (t :: names_of k) -> t <= p) by (intros p [<-|Hp]; [lia | auto]).
    assert (Hl1 : list_at m1 s (l1 ++ l2)).
    { eapply list_at_same; [exact Hl|]. intros p Hp. apply Hs1. intros Hi. specialize (Hb _ Hp). specialize (Hb' _ Hi). lia. }
    assert (Ht1' : list_at m1 t ([] ++ k ++ [])) by (cbn [app]; rewrite app_nil_r; exact Ht1).
    destruct (splice_valid m1 s t l1 l2 [] k [] Hv1 Hl1 Ht1') as (m2 & H2 & Hv2 & Hl2 & Ht2 & Hs2 & Hn2).
    { cbn [app]. rewrite app_nil_r. intros p Hp Hp'. specialize (Hb _ Hp). specialize (Hb' _ Hp'). lia. }
    cbn [app first_of] in *. rewrite app_nil_r in *. destruct (destroy_ok m2 t [] Hv2 Ht2) as (m3 & H3 & Hv3 & Ho3 & Hs3 & Hn3).
    assert (Hb2 : bind (list_begin t) (fun b => list_splice (first_of l2 s) b (list_end t)) m1 = Returned tt m2) by (rewrite (bind_returned _ _ _ _ _ (begin_ok m1 t k Ht1)); exact H2).
    rewrite (bind_returned _ _ _ _ _ (finally_returned _ _ _ _ _ _ Hb2 H3)). unfold ret. split; [reflexivity|]. exists k. split; [exact Ek|]. split; [|split; [exact Hv3|split]].
    + intros p Hp. destruct (object_at m p) eqn:Eo; [|reflexivity]. exfalso. specialize (Hv p). rewrite Eo in Hv. specialize (Hv ltac:(discriminate)). specialize (Hk p Hp). subst t. lia.
    + eapply list_at_same; [exact Hl2|]. intros p Hp. apply Hs3. intros [<-|[]].
      assert (Ht : In t (s :: names_of (l1 ++ l2)) \/ In t (names_of k)) by (rewrite !names_app in *; cbn in *; rewrite !in_app_iff in *; tauto).
      destruct Ht as [Ht|Ht]; [specialize (Hb t Ht); lia|]. destruct Ht1 as (_ & _ & N & _). apply nodup_cons in N as (_ & N). exact (N Ht).
    + intros q Hq. destruct (Nat.eq_dec q t) as [->|Hne].
      * rewrite Ho3 by now left. symmetry. apply fresh, Hv.
      * rewrite Hs3, Hs2, Hs1; [reflexivity | | |].
        -- cbn. rewrite !names_app in *. cbn in Hq. rewrite !in_app_iff in *. intuition congruence.
        -- cbn. rewrite !names_app in *. cbn in Hq. rewrite !in_app_iff in *. intuition congruence.
        -- cbn. intros [|[]]; congruence.
  - rewrite (bind_threw _ _ _ _ E). destruct H as (Hv1 & Hs1 & _). split; [exact Hv1|]. split; [|reflexivity]. intros q Hq. apply Hs1. apply Hv, Hq.
Qed.
Lemma insert_ok (m : memory) s l1 l2 vs : valid m -> list_at m s (l1 ++ l2) ->
  match list_insert s (first_of l2 s) vs m with
  | Returned r m' => r = first_of l2 s /\ exists k, map snd k = vs /\ (forall p, In p (names_of k) -> object_at m p = None) /\ valid m' /\ list_at m' s (l1 ++ k ++ l2) /\ same_except (s :: names_of (l1 ++ k ++ l2)) m m'
  | Threw m' => valid m' /\ forall q, object_at m q <> None -> object_at m' q = object_at m q
  | Undefined => False
  end.
Proof. intros Hv Hl. pose proof (insert_full m s l1 l2 vs Hv Hl) as H. destruct (list_insert _ _ _ m); intuition. Qed.
Lemma push_front_ok (m : memory) s l v : valid m -> list_at m s l ->
  match list_push_front s v m with
  | Returned p m' => object_at m p = None /\ valid m' /\ list_at m' s ((p, v) :: l) /\ same_except (s :: names_of ((p, v) :: l)) m m'
  | Threw m' => same_except [] m m' /\ valid m'
  | Undefined => False
  end.
Proof.
  intros Hv Hl. unfold list_push_front. destruct (default_ok m Hv) as (m0 & H0 & Hn0 & Hv0 & Hs0 & Ht0). rewrite (bind_returned _ _ _ _ _ H0). set (t := names m) in *.
  assert (Hb : forall p, In p (s :: names_of l) -> p < t) by (intros p Hp; exact (names_below m s _ p Hv Hl Hp)).
  pose proof (push_back_ok m0 t [] v Hv0 Ht0) as H. destruct (list_push_back t v m0) as [p m1|m1|] eqn:E; [| |contradiction].
  - destruct H as (-> & Hv1 & Ht1 & Hs1 & Hn1). set (p := names m0) in *. cbn [app] in Ht1.
    assert (Hl1 : list_at m1 s l).
    { eapply list_at_same; [exact Hl|]. intros q Hq. specialize (Hb q Hq). rewrite Hs1, Hs0; [reflexivity | |]; cbn; lia. }
    destruct (splice_valid m1 s t [] l [] [(p, v)] [] Hv1 Hl1 Ht1) as (m2 & H2 & Hv2 & Hl2 & Ht2 & Hs2 & Hn2).
    { intros q Hq Hq'. specialize (Hb _ Hq). cbn in Hq'. lia. }
    cbn [app first_of fst] in *. destruct (destroy_ok m2 t [] Hv2 Ht2) as (m3 & H3 & Hv3 & Ho3 & Hs3 & Hn3).
    assert (Hl3 : list_at m3 s ((p, v) :: l)).
    { eapply list_at_same; [exact Hl2|]. intros q Hq. apply Hs3. intros [<-|[]]. cbn in Hq. destruct Hq as [->|[Hq|Hq]]; [specialize (Hb t ltac:(now left)); lia | lia | specialize (Hb t ltac:(now right)); lia]. }
    rewrite (bind_returned _ _ m0 tt m3).
    + rewrite (bind_returned _ _ _ _ _ (empty_ok m3 s _ Hl3)), require_true by reflexivity. rewrite (begin_ok m3 s _ Hl3). cbn [first_of fst].
      split; [|split; [exact Hv3|split; [exact Hl3|]]].
      * destruct (object_at m p) eqn:Eo; [|reflexivity]. exfalso. specialize (Hv p). rewrite Eo in Hv. specialize (Hv ltac:(discriminate)). lia.
      * intros q Hq. cbn in Hq. destruct (Nat.eq_dec q t) as [->|Hne]; [rewrite Ho3 by (now left); symmetry; apply fresh, Hv|].
        rewrite Hs3, Hs2, Hs1, Hs0; [reflexivity | | | |]; cbn; try rewrite in_app_iff; cbn; intuition congruence.
    + eapply finally_returned; [|exact H3]. rewrite (bind_returned _ _ _ _ _ E), (bind_returned _ _ _ _ _ (begin_ok m1 s l Hl1)), (bind_returned _ _ _ _ _ (begin_ok m1 t _ Ht1)). exact H2.
  - destruct H as (Hs1 & Hv1 & Hn1). assert (Ht1 : list_at m1 t []) by (eapply list_at_same; [exact Ht0|]; intros q _; apply Hs1; intros []).
    destruct (destroy_ok m1 t [] Hv1 Ht1) as (m2 & H2 & Hv2 & Ho2 & Hs2 & Hn2).
    rewrite (bind_threw _ _ _ m2); [|eapply finally_threw; [rewrite (bind_threw _ _ _ _ E); reflexivity | exact H2]].
    split; [|exact Hv2]. intros q _. destruct (Nat.eq_dec q t) as [->|Hne]; [rewrite Ho2 by (now left); symmetry; apply fresh, Hv|].
    rewrite Hs2, Hs1, Hs0; [reflexivity | | |]; cbn; intuition congruence.
Qed.
End Operations.
