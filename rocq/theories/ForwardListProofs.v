(** * Proofs about forward linked lists *)

From Coq Require Import List Arith Bool Lia.
From Verif Require Import LinkedList SpecList LinkedListProofs.
Import ListNotations.
Local Open Scope nat_scope.

Section Forward.
Context {V : Type}.
Notation memory := (memory (option nat) V).
Notation F := (M (option nat) V).
Notation names_of := (@names_of V).

Lemma f_returned {A C} (x : F A) (f : A -> F C) m a m' : x m = Returned a m' -> bind x f m = f a m'.
Proof. intros H. unfold bind. now rewrite H. Qed.
Lemma f_threw {A C} (x : F A) (f : A -> F C) m m' : x m = Threw m' -> bind x f m = Threw m'.
Proof. intros H. unfold bind. now rewrite H. Qed.
Definition fkind (m : memory) (p : nat) : option (option V) :=
  match object_at m p with Some (Sentinel _) => Some None | Some (Node _ v) => Some (Some v) | _ => None end.
Definition link_of (m : memory) (p : nat) : option (option nat) :=
  match object_at m p with Some (Sentinel l) | Some (Node l _) => Some l | _ => None end.
Lemma links_ok (m : memory) p l : link_of m p = Some l -> links p m = Returned l m.
Proof. unfold link_of, links. destruct (object_at m p) as [[k| |k v]|]; intros H; congruence. Qed.
Lemma set_links_ok (m : memory) p l k : link_of m p = Some k ->
  exists m', set_links p l m = Returned tt m' /\ (forall q, link_of m' q = if q =? p then Some l else link_of m q) /\ (forall q, fkind m' q = fkind m q) /\ same_except [p] m m' /\ names m' = names m.
Proof.
  unfold link_of at 1, set_links. destruct (object_at m p) as [[j| |j v]|] eqn:E; intros H; try discriminate; eexists; (split; [reflexivity|]); (split; [|split; [|split; [|reflexivity]]]).
  all: intros q; unfold link_of, fkind; cbn; destruct (Nat.eqb_spec q p) as [->|Hne]; rewrite ?E; try reflexivity.
  all: intros Hq; exfalso; apply Hq; now left.
Qed.

(** [seg m ps e]: each leads to the next one, the last one to [e] *)
Definition or_else (a b : option nat) : option nat := match a with Some _ => a | None => b end.
Fixpoint seg (m : memory) (ps : list nat) (e : option nat) : Prop :=
  match ps with [] => True | p :: ps => link_of m p = Some (or_else (hd_error ps) e) /\ seg m ps e end.
Lemma seg_app (m : memory) A B e : seg m (A ++ B) e <-> seg m A (or_else (hd_error B) e) /\ seg m B e.
Proof.
  induction A as [|a A IH]; cbn; [tauto|]. rewrite IH. assert (E : or_else (hd_error (A ++ B)) e = or_else (hd_error A) (or_else (hd_error B) e)) by (destruct A; reflexivity). rewrite E. tauto.
Qed.
Lemma seg_frame (m m' : memory) ps e : (forall p, In p ps -> link_of m' p = link_of m p) -> seg m ps e -> seg m' ps e.
Proof. induction ps as [|p ps IH]; cbn; [auto|]. intros H (H1 & H2). rewrite H by now left. split; [exact H1|]. apply IH; auto. Qed.
Lemma linked_seg (m : memory) ps : linked_to_null m ps <-> seg m ps None.
Proof.
  induction ps as [|p ps IH]; cbn; [tauto|]. rewrite IH. assert (E : or_else (hd_error ps) None = hd_error ps) by (destruct ps; reflexivity). rewrite E.
  unfold link_of. split; intros (H1 & H2); (split; [|exact H2]).
  - destruct H1 as (o & -> & H1). destruct o; congruence || contradiction.
  - destruct (object_at m p) as [o|]; [|discriminate]. exists o. split; [reflexivity|]. destruct o; congruence.
Qed.
Lemma forward_kind (m : memory) s l : forward_at m s l <->
  fkind m s = Some None /\ (forall p v, In (p, v) l -> fkind m p = Some (Some v)) /\ NoDup (s :: names_of l) /\ seg m (s :: names_of l) None.
Proof.
  unfold forward_at, fkind. rewrite linked_seg. split; intros (H1 & H2 & H3); (split; [|split; [|exact H3]]).
  - destruct H1 as (k & ->). reflexivity.
  - intros p v Hp. destruct (H2 p v Hp) as (k & ->). reflexivity.
  - destruct (object_at m s) as [[k| |k v]|]; try discriminate. eauto.
  - intros p v Hp. specialize (H2 p v Hp). destruct (object_at m p) as [[k| |k w]|]; try discriminate. injection H2 as <-. eauto.
Qed.
Lemma fnames_app l k : names_of (l ++ k) = names_of l ++ names_of k.
Proof. apply map_app. Qed.
Lemma last_split (l : list (nat * V)) s : exists A, s :: names_of l = A ++ [last_place l s].
Proof.
  unfold last_place. destruct (names_of l) as [|p X _] using rev_ind; [exists []; reflexivity|]. rewrite last_last. exists (s :: X). reflexivity.
Qed.
Definition place (l : list (nat * V)) : option nat := hd_error (names_of l).
Lemma forward_same (m m' : memory) s l : forward_at m s l -> (forall p, In p (s :: names_of l) -> object_at m' p = object_at m p) -> forward_at m' s l.
Proof.
  intros H E. apply forward_kind in H as (H1 & H2 & H3 & H4). apply forward_kind. unfold fkind in *. split; [rewrite E by (now left); exact H1|]. split; [|split; [exact H3|]].
  - intros p v Hp. rewrite E; [apply H2, Hp|]. right. apply (in_map fst) in Hp. exact Hp.
  - eapply seg_frame; [|exact H4]. intros p Hp. unfold link_of. now rewrite E.
Qed.
Lemma ffresh (m : memory) : valid m -> object_at m (names m) = None.
Proof. intros Hv. destruct (object_at m (names m)) as [o|] eqn:E; [|reflexivity]. exfalso. specialize (Hv (names m)). rewrite E in Hv. specialize (Hv ltac:(discriminate)). lia. Qed.
Lemma forward_names (m : memory) s l p : forward_at m s l -> In p (s :: names_of l) -> object_at m p <> None.
Proof.
  intros (H1 & H2 & _) [<-|Hp].
  - destruct H1 as (k & ->). discriminate.
  - unfold SpecList.names_of in Hp. apply in_map_iff in Hp as ((q, v) & <- & Hp). destruct (H2 q v Hp) as (k & E). cbn. rewrite E. discriminate.
Qed.
Lemma fbelow (m : memory) s l p : valid m -> forward_at m s l -> In p (s :: names_of l) -> p < names m.
Proof. intros Hv Hl Hp. apply Hv. eapply forward_names; eauto. Qed.
Lemma flength (m : memory) s l : valid m -> forward_at m s l -> length l < names m.
Proof.
  intros Hv Hl. assert (H : length (s :: names_of l) <= length (seq 0 (names m))).
  { apply NoDup_incl_length; [apply Hl|]. intros p Hp. apply in_seq. pose proof (fbelow m s l p Hv Hl Hp). lia. }
  rewrite seq_length in H. cbn in H. unfold SpecList.names_of in H. rewrite map_length in H. lia.
Qed.
Lemma fvalue_ok (m : memory) s l p v : forward_at m s l -> In (p, v) l -> value p m = Returned v m.
Proof. intros (_ & H & _) Hp. destruct (H p v Hp) as (k & E). unfold value. now rewrite E. Qed.
Lemma fsame_trans ps qs (m1 m2 m3 : memory) : same_except ps m1 m2 -> same_except qs m2 m3 -> same_except (ps ++ qs) m1 m3.
Proof. intros H1 H2 q Hq. rewrite in_app_iff in Hq. rewrite H2, H1 by tauto. reflexivity. Qed.
Lemma fsame_weaken ps qs (m m' : memory) : same_except ps m m' -> incl ps qs -> same_except qs m m'.
Proof. intros H Hi q Hq. apply H. intros Hin. apply Hq, Hi, Hin. Qed.
Lemma fvalid_same (m m' : memory) ps : valid m -> same_except ps m m' -> names m <= names m' -> (forall p, In p ps -> p < names m') -> valid m'.
Proof.
  intros Hv Hs Hn Hp q Hq. destruct (in_dec Nat.eq_dec q ps) as [Hi|Hi]; [auto|]. rewrite Hs in Hq by exact Hi. specialize (Hv q Hq). lia.
Qed.

Lemma fmake_ok (m : memory) v : valid m ->
  match make_node no_link v m with
  | Returned p m' => p = names m /\ names m' = S (names m) /\ object_at m' p = Some (Node None v) /\ same_except [p] m m' /\ valid m'
  | Threw m' => same_except [] m m' /\ names m <= names m' /\ valid m'
  | Undefined => False
  end.
Proof.
  intros Hv. unfold make_node, bind, may_throw, new_object, rethrow_after, no_link. pose proof (ffresh m Hv) as Hf.
  assert (T : forall (o : option (object (option nat) V)) sc sc', let m' := set_object (Memory (fun q => if q =? names m then Some Raw else object_at m q) (S (names m)) sc) (names m) o in
    valid (Memory (object_at m') (names m') sc')).
  { intros o sc sc'. cbn. intros p. cbn. destruct (Nat.eqb_spec p (names m)) as [->|Hne]; [lia|]. intros H. specialize (Hv p H). lia. }
  assert (Hret : forall sc, match (let node := names m in Returned (A := nat) node (set_object (Memory (fun q => if q =? names m then Some Raw else object_at m q) (S (names m)) sc) node (Some (Node None v)))) with
    | Returned p m' => p = names m /\ names m' = S (names m) /\ object_at m' p = Some (Node None v) /\ same_except [p] m m' /\ valid m' | _ => False end).
  { intros sc. cbn. rewrite Nat.eqb_refl. split; [reflexivity|]. split; [reflexivity|]. split; [reflexivity|]. split.
    - intros q Hq. cbn in *. destruct (Nat.eqb_spec q (names m)) as [->|]; [tauto | reflexivity].
    - exact (T (Some (Node None v)) sc sc). }
  destruct (script m) as [|[|] sc] eqn:Es; cbn [script names object_at].
  - rewrite Es. exact (Hret _).
  - split; [intros q _; reflexivity|]. split; [cbn; lia|]. exact Hv.
  - destruct sc as [|[|] sc]; cbn [script names object_at].
    + exact (Hret _).
    + cbn [object_at names]. split; [|split; [cbn; lia|]].
      * intros q _. cbn. destruct (Nat.eqb_spec q (names m)) as [->|]; [now rewrite Hf | reflexivity].
      * exact (T None sc sc).
    + exact (Hret _).
Qed.
Lemma fdefault_ok (m : memory) : valid m -> exists m', forward_default m = Returned (names m) m' /\ names m' = S (names m) /\ valid m' /\ same_except [names m] m m' /\ forward_at m' (names m) [].
Proof.
  intros Hv. eexists. split; [reflexivity|]. split; [reflexivity|]. split; [|split].
  - intros p. cbn. destruct (Nat.eqb_spec p (names m)) as [->|]; [lia|]. intros H. specialize (Hv p H). lia.
  - intros q Hq. cbn in *. destruct (Nat.eqb_spec q (names m)) as [->|]; [tauto | reflexivity].
  - apply forward_kind. unfold fkind. cbn. unfold link_of. cbn. rewrite Nat.eqb_refl. split; [reflexivity|]. split; [intros p v []|]. split; [constructor; [intros [] | constructor]|]. split; [reflexivity | exact I].
Qed.

(** The parts of a list on both sides of a place *)
Lemma around (m : memory) s l1 l2 : forward_at m s (l1 ++ l2) ->
  exists A, s :: names_of l1 = A ++ [last_place l1 s] /\ seg m A (Some (last_place l1 s)) /\ link_of m (last_place l1 s) = Some (place l2) /\ seg m (names_of l2) None /\
    NoDup (A ++ last_place l1 s :: names_of l2).
Proof.
  intros H. apply forward_kind in H as (_ & _ & N & S). rewrite fnames_app in *. destruct (last_split l1 s) as (A & E). exists A. split; [exact E|].
  change (s :: names_of l1 ++ names_of l2) with ((s :: names_of l1) ++ names_of l2) in *. rewrite E, <- app_assoc in *. cbn [app] in *.
  apply seg_app in S as (S1 & S2). cbn in S1, S2. destruct S2 as (S2 & S3). split; [exact S1|]. split; [|split; [exact S3 | exact N]].
  rewrite S2. unfold place. destruct (names_of l2); reflexivity.
Qed.
Lemma begin_link (m : memory) s l : forward_at m s l -> forward_begin s m = Returned (place l) m.
Proof. intros H. destruct (around m s [] l H) as (A & _ & _ & HL & _). apply links_ok, HL. Qed.
Lemma place_link (m : memory) s l1 l2 : forward_at m s (l1 ++ l2) -> links (last_place l1 s) m = Returned (place l2) m.
Proof. intros H. destruct (around m s l1 l2 H) as (A & _ & _ & HL & _). apply links_ok, HL. Qed.
Lemma last_place_snoc (l : list (nat * V)) p v s : last_place (l ++ [(p, v)]) s = p.
Proof. unfold last_place. rewrite fnames_app. apply last_last. Qed.

Lemma insert_after_ok (m : memory) s l1 l2 v : valid m -> forward_at m s (l1 ++ l2) ->
  match insert_after (last_place l1 s) v m with
  | Returned p m' => p = names m /\ valid m' /\ forward_at m' s (l1 ++ (p, v) :: l2) /\ same_except [p; last_place l1 s] m m' /\ names m' = S (names m)
  | Threw m' => same_except [] m m' /\ valid m' /\ names m <= names m'
  | Undefined => False
  end.
Proof.
  intros Hv Hl. unfold insert_after. pose proof (fmake_ok m v Hv) as H. destruct (make_node no_link v m) as [p m1|m1|] eqn:E; [| |contradiction].
  - destruct H as (-> & Hn & Ho & Hs & Hv1). rewrite (f_returned _ _ _ _ _ E). set (p := names m) in *.
    assert (Hp : forall q, In q (s :: names_of (l1 ++ l2)) -> q <> p) by (intros q Hq ->; pose proof (fbelow m s _ p Hv Hl Hq); subst p; lia).
    assert (Hl1 : forward_at m1 s (l1 ++ l2)) by (eapply forward_same; [exact Hl|]; intros q Hq; apply Hs; intros [<-|[]]; exact (Hp _ Hq eq_refl)).
    destruct (around m1 s l1 l2 Hl1) as (A & EA & SA & SL & SB & N). set (a := last_place l1 s) in *.
    assert (Ia : In a (s :: names_of (l1 ++ l2))).
    { rewrite fnames_app. change (s :: names_of l1 ++ names_of l2) with ((s :: names_of l1) ++ names_of l2). rewrite EA, <- app_assoc. apply in_or_app. right. now left. }
    rewrite (f_returned _ _ _ _ _ (links_ok m1 a _ SL)).
    destruct (set_links_ok m1 p (place l2) None) as (m2 & H2 & K2 & D2 & S2 & N2); [unfold link_of; now rewrite Ho|]. rewrite (f_returned _ _ _ _ _ H2).
    assert (SL2 : link_of m2 a = Some (place l2)) by (rewrite K2, (proj2 (Nat.eqb_neq a p)) by (apply Hp, Ia); exact SL).
    destruct (set_links_ok m2 a (Some p) _ SL2) as (m3 & H3 & K3 & D3 & S3 & N3). rewrite (f_returned _ _ _ _ _ H3). unfold ret.
    assert (K : forall q, link_of m3 q = if q =? a then Some (Some p) else if q =? p then Some (place l2) else link_of m1 q) by (intros q; rewrite K3; destruct (q =? a); [reflexivity | apply K2]).
    assert (D : forall q, fkind m3 q = fkind m1 q) by (intros q; rewrite D3; apply D2).
    assert (Sm : same_except [p; a] m m3).
    { eapply fsame_weaken; [eapply fsame_trans; [exact Hs | eapply fsame_trans; [exact S2 | exact S3]]|]. intros q. cbn. tauto. }
    split; [reflexivity|]. split; [|split; [|split; [exact Sm | congruence]]].
    + eapply fvalid_same; [exact Hv | exact Sm | rewrite N3, N2, Hn; lia|]. intros q Hq. rewrite N3, N2, Hn. destruct Hq as [<-|[<-|[]]]; [subst p; lia|]. pose proof (fbelow m s _ a Hv Hl Ia). lia.
    + apply forward_kind in Hl1 as (Ks & Kl & Nd & _). apply forward_kind. split; [rewrite D; exact Ks|]. split; [|split].
      * intros q w Hq. rewrite D. apply in_app_or in Hq. destruct Hq as [Hq|[Hq|Hq]]; [apply Kl, in_or_app; now left | | apply Kl, in_or_app; now right].
        injection Hq as <- <-. unfold fkind. now rewrite Ho.
      * rewrite fnames_app in *. cbn [SpecList.names_of map fst]. change (map fst l2) with (names_of l2).
        change (s :: names_of l1 ++ p :: names_of l2) with ((s :: names_of l1) ++ p :: names_of l2). apply NoDup_Add with (a := p) (l := (s :: names_of l1) ++ names_of l2); [apply Add_app|].
        split; [exact Nd|]. intros Hi. exact (Hp _ Hi eq_refl).
      * rewrite fnames_app. cbn [SpecList.names_of map fst]. change (map fst l2) with (names_of l2). change (s :: names_of l1 ++ p :: names_of l2) with ((s :: names_of l1) ++ p :: names_of l2).
        rewrite EA, <- app_assoc. cbn [app]. apply seg_app. cbn.
        assert (Fr : forall q, In q A \/ In q (names_of l2) -> link_of m3 q = link_of m1 q).
        { intros q Hq. rewrite K. rewrite (proj2 (Nat.eqb_neq q p)).
          - rewrite (proj2 (Nat.eqb_neq q a)); [reflexivity|]. intros ->. clear -N Hq. apart. destruct Hq; clash.
          - apply Hp. rewrite fnames_app. change (s :: names_of l1 ++ names_of l2) with ((s :: names_of l1) ++ names_of l2). rewrite EA. rewrite !in_app_iff. tauto. }
        split; [eapply seg_frame; [|exact SA]; intros q Hq; apply Fr; now left|]. split; [rewrite K, Nat.eqb_refl; reflexivity|]. split.
        -- rewrite K. rewrite Nat.eqb_refl. rewrite (proj2 (Nat.eqb_neq p a)) by (intros Epa; exact (Hp a Ia (eq_sym Epa))). unfold place. destruct (names_of l2); reflexivity.
        -- eapply seg_frame; [|exact SB]. intros q Hq. apply Fr. now right.
  - rewrite (f_threw _ _ _ _ E). tauto.
Qed.

Lemma erase_after_ok (m : memory) s l1 p v l2 : valid m -> forward_at m s (l1 ++ (p, v) :: l2) ->
  exists m', erase_after (last_place l1 s) m = Returned (place l2) m' /\ valid m' /\ forward_at m' s (l1 ++ l2) /\ object_at m' p = None /\ same_except [p; last_place l1 s] m m' /\ names m' = names m.
Proof.
  intros Hv Hl. unfold erase_after. destruct (around m s l1 ((p, v) :: l2) Hl) as (A & EA & SA & SL & SB & N). set (a := last_place l1 s) in *.
  rewrite (f_returned _ _ _ _ _ (links_ok m a _ SL)). cbn [place SpecList.names_of map fst hd_error follow]. rewrite (f_returned _ _ m p m) by reflexivity.
  cbn [SpecList.names_of map fst seg] in SB. destruct SB as (SP & SB). change (map fst l2) with (names_of l2) in *.
  assert (SP' : link_of m p = Some (place l2)) by (rewrite SP; unfold place; destruct (names_of l2); reflexivity).
  rewrite (f_returned _ _ _ _ _ (links_ok m p _ SP')).
  destruct (set_links_ok m a (place l2) _ SL) as (m1 & H1 & K1 & D1 & S1 & N1). rewrite (f_returned _ _ _ _ _ H1).
  pose proof Hl as Hk. apply forward_kind in Hk as (Ks & Kl & Nd & _).
  assert (Kp : fkind m1 p = Some (Some v)) by (rewrite D1; apply Kl, in_or_app; right; now left).
  assert (Hd : destroy_node p m1 = Returned tt (set_object m1 p None)).
  { unfold destroy_node. unfold fkind in Kp. destruct (object_at m1 p) as [[]|]; try discriminate. reflexivity. }
  rewrite (f_returned _ _ _ _ _ Hd). unfold ret. exists (set_object m1 p None).
  cbn [SpecList.names_of map fst] in N. change (map fst l2) with (names_of l2) in N.
  assert (Hpa : p <> a) by (clear -N; apart; intros ->; clash).
  assert (Hin : forall q, In q (s :: names_of (l1 ++ l2)) -> q <> p).
  { intros q Hq ->. rewrite fnames_app in Hq. change (s :: names_of l1 ++ names_of l2) with ((s :: names_of l1) ++ names_of l2) in Hq. rewrite EA, <- app_assoc in Hq.
    apply NoDup_remove_2 with (l := A ++ [a]) (l' := names_of l2) (a := p); rewrite <- app_assoc; assumption. }
  split; [reflexivity|]. split; [|split; [|split; [|split]]].
  - intros q. cbn. destruct (Nat.eqb_spec q p) as [->|Hne]; [congruence|]. rewrite N1. intros Hq. apply Hv. destruct (Nat.eq_dec q a) as [->|Hqa].
    + unfold link_of in SL. destruct (object_at m a); congruence.
    + rewrite S1 in Hq; [exact Hq|]. intros [|[]]; congruence.
  - assert (Hl1 : forward_at m1 s (l1 ++ l2)); [|eapply forward_same; [exact Hl1|]; intros q Hq; cbn; rewrite (proj2 (Nat.eqb_neq q p)) by (apply Hin, Hq); reflexivity].
    apply forward_kind. split; [rewrite D1; exact Ks|]. split; [|split].
    + intros q w Hq. rewrite D1. apply Kl. apply in_app_or in Hq. apply in_or_app. destruct Hq as [Hq|Hq]; [now left | right; now right].
    + rewrite fnames_app in *. cbn [SpecList.names_of map fst] in Nd. change (map fst l2) with (names_of l2) in Nd.
      change (s :: names_of l1 ++ p :: names_of l2) with ((s :: names_of l1) ++ p :: names_of l2) in Nd. apply NoDup_remove_1 in Nd. exact Nd.
    + rewrite fnames_app. change (s :: names_of l1 ++ names_of l2) with ((s :: names_of l1) ++ names_of l2). rewrite EA, <- app_assoc. cbn [app]. apply seg_app. cbn.
      assert (Fr : forall q, In q A \/ In q (names_of l2) -> link_of m1 q = link_of m q).
      { intros q Hq. rewrite K1. rewrite (proj2 (Nat.eqb_neq q a)); [reflexivity|]. intros ->. clear -N Hq. apart. destruct Hq; clash. }
      split; [eapply seg_frame; [|exact SA]; intros q Hq; apply Fr; now left|]. split; [rewrite K1, Nat.eqb_refl; unfold place; destruct (names_of l2); reflexivity|].
      eapply seg_frame; [|exact SB]. intros q Hq. apply Fr. now right.
  - cbn. now rewrite Nat.eqb_refl.
  - intros q Hq. cbn in *. rewrite (proj2 (Nat.eqb_neq q p)) by (intros ->; tauto). apply S1. cbn. tauto.
  - exact N1.
Qed.
Lemma splice_after_ok (m : memory) s t k1 k2 l1 l2 l3 : valid m -> forward_at m s (k1 ++ k2) -> forward_at m t (l1 ++ l2 ++ l3) ->
  (forall p, In p (s :: names_of (k1 ++ k2)) -> In p (t :: names_of (l1 ++ l2 ++ l3)) -> False) ->
  exists m', splice_after s (last_place k1 s) t (last_place l1 t) (last_place (l1 ++ l2) t) m = Returned tt m' /\ valid m' /\ forward_at m' s (k1 ++ l2 ++ k2) /\ forward_at m' t (l1 ++ l3) /\
    same_except [last_place k1 s; last_place l1 t; last_place (l1 ++ l2) t] m m' /\ names m' = names m.
Proof.
  intros Hv Hk Hl Hd. unfold splice_after.
  assert (Hst : s <> t) by (intros ->; apply (Hd t); now left). rewrite (f_returned _ _ m tt m) by (rewrite (proj2 (Nat.eqb_neq s t) Hst); reflexivity).
  destruct (around m s k1 k2 Hk) as (P & EP & SP & SLp & SQ & NP). destruct (around m t l1 (l2 ++ l3) Hl) as (A & EA & SA & SLa & SBC & NA).
  set (p := last_place k1 s) in *. set (a := last_place l1 t) in *.
  destruct l2 as [|e l2'] eqn:El2.
  { rewrite app_nil_r. fold a. rewrite Nat.eqb_refl. exists m. cbn [app] in *. split; [reflexivity|]. split; [exact Hv|]. split; [exact Hk|]. split; [exact Hl|]. split; [intros q _; reflexivity | reflexivity]. }
  rewrite <- El2 in *. destruct (exists_last (l := l2) ltac:(rewrite El2; discriminate)) as (lb & (b, vb) & Eb).
  assert (Hb : last_place (l1 ++ l2) t = b) by (rewrite Eb, app_assoc; apply last_place_snoc). rewrite Hb.
  assert (Ib : In b (names_of l2)) by (rewrite Eb, fnames_app; apply in_or_app; right; now left).
  assert (Hab : a <> b).
  { intros E. rewrite fnames_app in NA. rewrite E in NA. clear -NA Ib. apart. clash. }
  rewrite (proj2 (Nat.eqb_neq a b) Hab).
  assert (Ip : In p (s :: names_of (k1 ++ k2))).
  { rewrite fnames_app. change (s :: names_of k1 ++ names_of k2) with ((s :: names_of k1) ++ names_of k2). rewrite EP, <- app_assoc. apply in_or_app. right. now left. }
  assert (Ia : In a (t :: names_of (l1 ++ l2 ++ l3))).
  { rewrite fnames_app. change (t :: names_of l1 ++ names_of (l2 ++ l3)) with ((t :: names_of l1) ++ names_of (l2 ++ l3)). rewrite EA, <- app_assoc. apply in_or_app. right. now left. }
  assert (Ib' : In b (t :: names_of (l1 ++ l2 ++ l3))) by (right; rewrite !fnames_app, !in_app_iff; tauto).
  assert (Hpa : p <> a) by (intros E; apply (Hd p Ip); rewrite E; exact Ia). assert (Hpb : p <> b) by (intros E; apply (Hd p Ip); rewrite E; exact Ib').
  assert (SLb : link_of m b = Some (place l3)).
  { rewrite app_assoc in Hl. destruct (around m t (l1 ++ l2) l3 Hl) as (X & _ & _ & HX & _). rewrite Hb in HX. exact HX. }
  rewrite (f_returned _ _ _ _ _ (links_ok m p _ SLp)), (f_returned _ _ _ _ _ (links_ok m a _ SLa)).
  destruct (set_links_ok m p (place (l2 ++ l3)) _ SLp) as (m1 & H1 & K1 & D1 & S1 & N1). rewrite (f_returned _ _ _ _ _ H1).
  assert (SLb1 : link_of m1 b = Some (place l3)) by (rewrite K1, (proj2 (Nat.eqb_neq b p)) by congruence; exact SLb). rewrite (f_returned _ _ _ _ _ (links_ok m1 b _ SLb1)).
  destruct (set_links_ok m1 b (place k2) _ SLb1) as (m2 & H2 & K2 & D2 & S2 & N2). rewrite (f_returned _ _ _ _ _ H2).
  assert (SLa2 : link_of m2 a = Some (place (l2 ++ l3))) by (rewrite K2, (proj2 (Nat.eqb_neq a b)), K1, (proj2 (Nat.eqb_neq a p)) by congruence; exact SLa).
  destruct (set_links_ok m2 a (place l3) _ SLa2) as (m3 & H3 & K3 & D3 & S3 & N3). exists m3. split; [exact H3|].
  assert (Sm : same_except [p; a; b] m m3).
  { eapply fsame_weaken; [eapply fsame_trans; [exact S1 | eapply fsame_trans; [exact S2 | exact S3]]|]. intros q. cbn. tauto. }
  assert (K : forall q, link_of m3 q = if q =? a then Some (place l3) else if q =? b then Some (place k2) else if q =? p then Some (place (l2 ++ l3)) else link_of m q).
  { intros q. rewrite K3. destruct (q =? a); [reflexivity|]. rewrite K2. destruct (q =? b); [reflexivity|]. apply K1. }
  assert (D : forall q, fkind m3 q = fkind m q) by (intros q; rewrite D3, D2; apply D1).
  assert (Fr : forall q, q <> p -> q <> a -> q <> b -> link_of m3 q = link_of m q) by (intros q E1 E2 E3; rewrite K, !(proj2 (Nat.eqb_neq q _)) by assumption; reflexivity).
  pose proof Hk as Hk'. pose proof Hl as Hl'. apply forward_kind in Hk' as (Ks & Kk & Nk & _), Hl' as (Kt & Kl & Nl & _).
  assert (InP : forall q, In q P \/ In q (names_of k2) -> In q (s :: names_of (k1 ++ k2)) /\ q <> p).
  { intros q Hq. split.
    - rewrite fnames_app. change (s :: names_of k1 ++ names_of k2) with ((s :: names_of k1) ++ names_of k2). rewrite EP, !in_app_iff. tauto.
    - intros ->. clear -NP Hq. apart. destruct Hq; clash. }
  assert (InA : forall q, In q A \/ In q (names_of l3) -> In q (t :: names_of (l1 ++ l2 ++ l3)) /\ q <> a /\ q <> b).
  { intros q Hq. rewrite fnames_app in NA; rewrite !fnames_app. split; [|split].
    - change (t :: names_of l1 ++ names_of l2 ++ names_of l3) with ((t :: names_of l1) ++ names_of l2 ++ names_of l3). rewrite EA, !in_app_iff. tauto.
    - intros ->. clear -NA Hq. apart. destruct Hq; clash.
    - intros ->. clear -NA Hq Ib. apart. destruct Hq; clash. }
  assert (InB : forall q, In q (names_of lb) -> In q (t :: names_of (l1 ++ l2 ++ l3)) /\ q <> a /\ q <> b).
  { intros q Hq. assert (Hq2 : In q (names_of l2)) by (rewrite Eb, fnames_app; apply in_or_app; now left). rewrite fnames_app in NA; rewrite !fnames_app. split; [|split].
    - right. rewrite !in_app_iff. tauto.
    - intros ->. clear -NA Hq2. apart. clash.
    - intros ->. rewrite Eb, fnames_app in NA. cbn [SpecList.names_of map fst] in NA. clear -NA Hq. rewrite <- !app_assoc in NA. apart. clash. }
  assert (SB : seg m (names_of lb) (Some b) /\ seg m (names_of l3) None).
  { rewrite fnames_app in SBC. apply seg_app in SBC as (SB & SC). split; [|exact SC]. rewrite Eb, fnames_app in SB. apply seg_app in SB as (SB & _). exact SB. }
  destruct SB as (SB & SC).
  split; [|split; [|split; [|split; [exact Sm | congruence]]]].
  - eapply fvalid_same; [exact Hv | exact Sm | rewrite N3, N2, N1; lia|]. intros q Hq. rewrite N3, N2, N1. destruct Hq as [<-|[<-|[<-|[]]]]; [exact (fbelow m s _ p Hv Hk Ip) | exact (fbelow m t _ a Hv Hl Ia) | exact (fbelow m t _ b Hv Hl Ib')].
  - apply forward_kind. split; [rewrite D; exact Ks|]. split; [|split].
    + intros q w Hq. rewrite D. apply in_app_or in Hq. destruct Hq as [Hq|Hq]; [apply Kk, in_or_app; now left|]. apply in_app_or in Hq.
      destruct Hq as [Hq|Hq]; [apply Kl; rewrite !in_app_iff; tauto | apply Kk, in_or_app; now right].
    + repeat rewrite fnames_app in *. clear -Nk Nl Hd. cbn [In] in Hd. setoid_rewrite in_app_iff in Hd. setoid_rewrite in_app_iff in Hd.
      apart. rewrite !nodup_cons, !nodup_app. split; [split; [assumption|split; [split; [assumption|split; [assumption|]]|]]|].
      * intros x Hx Hy. apply (Hd x); tauto.
      * intros x Hx Hy. apply in_app_or in Hy. destruct Hy as [Hy|Hy]; [apply (Hd x); tauto | clash].
      * intros Hx. rewrite !in_app_iff in Hx. destruct Hx as [Hx|[Hx|Hx]]; [clash | apply (Hd s); tauto | clash].
    + rewrite !fnames_app. change (s :: names_of k1 ++ names_of l2 ++ names_of k2) with ((s :: names_of k1) ++ names_of l2 ++ names_of k2). rewrite EP, <- app_assoc. cbn [app].
      apply seg_app. cbn [hd_error or_else]. split; [eapply seg_frame; [|exact SP]; intros q Hq; destruct (InP q (or_introl Hq)) as (I1 & I2); apply Fr; [exact I2 | intros ->; exact (Hd a I1 Ia) | intros ->; exact (Hd b I1 Ib')]|].
      cbn [seg]. split; [|apply seg_app; split].
      * rewrite K, (proj2 (Nat.eqb_neq p a) Hpa), (proj2 (Nat.eqb_neq p b) Hpb), Nat.eqb_refl. rewrite El2. reflexivity.
      * rewrite Eb, fnames_app. apply seg_app. cbn [SpecList.names_of map fst hd_error or_else seg]. split; [|split; [|exact I]].
        -- eapply seg_frame; [|exact SB]. intros q Hq. destruct (InB q Hq) as (I1 & I2 & I3). apply Fr; [intros ->; exact (Hd p Ip I1) | exact I2 | exact I3].
        -- rewrite K, (proj2 (Nat.eqb_neq b a)), Nat.eqb_refl by congruence. unfold place, SpecList.names_of. destruct (map fst k2); reflexivity.
      * eapply seg_frame; [|exact SQ]. intros q Hq. destruct (InP q (or_intror Hq)) as (I1 & I2). apply Fr; [exact I2 | intros ->; exact (Hd a I1 Ia) | intros ->; exact (Hd b I1 Ib')].
  - apply forward_kind. split; [rewrite D; exact Kt|]. split; [|split].
    + intros q w Hq. rewrite D. apply Kl. rewrite !in_app_iff in *. tauto.
    + repeat rewrite fnames_app in *. clear -Nl. apart. rewrite nodup_cons, nodup_app. split; [split; [assumption|split; [assumption|]]|].
      * intros x Hx Hy. clash.
      * intros Hx. rewrite in_app_iff in Hx. destruct Hx; clash.
    + rewrite !fnames_app. change (t :: names_of l1 ++ names_of l3) with ((t :: names_of l1) ++ names_of l3). rewrite EA, <- app_assoc. cbn [app].
      apply seg_app. cbn [hd_error or_else seg]. split; [|split].
      * eapply seg_frame; [|exact SA]. intros q Hq. destruct (InA q (or_introl Hq)) as (I1 & I2 & I3). apply Fr; [intros ->; exact (Hd p Ip I1) | exact I2 | exact I3].
      * rewrite K, Nat.eqb_refl. unfold place. destruct (names_of l3); reflexivity.
      * eapply seg_frame; [|exact SC]. intros q Hq. destruct (InA q (or_intror Hq)) as (I1 & I2 & I3). apply Fr; [intros ->; exact (Hd p Ip I1) | exact I2 | exact I3].
Qed.

Lemma fswap_ok (m : memory) s t l k : valid m -> forward_at m s l -> forward_at m t k -> (forall p, In p (s :: names_of l) -> In p (t :: names_of k) -> False) ->
  exists m', forward_swap s t m = Returned tt m' /\ valid m' /\ forward_at m' s k /\ forward_at m' t l /\ same_except [s; t] m m' /\ names m' = names m.
Proof.
  intros Hv Hl Hk Hd. destruct (around m s [] l Hl) as (A & _ & _ & SL & SB & NL). destruct (around m t [] k Hk) as (A' & _ & _ & SK & SC & NK). cbn [last_place SpecList.names_of map last] in *.
  change (last_place [] s) with s in *. change (last_place [] t) with t in *.
  assert (Hst : s <> t) by (intros ->; apply (Hd t); now left).
  unfold forward_swap. rewrite (f_returned _ _ _ _ _ (links_ok m s _ SL)), (f_returned _ _ _ _ _ (links_ok m t _ SK)).
  destruct (set_links_ok m s (place k) _ SL) as (m1 & H1 & K1 & D1 & S1 & N1). rewrite (f_returned _ _ _ _ _ H1).
  assert (SK1 : link_of m1 t = Some (place k)) by (rewrite K1, (proj2 (Nat.eqb_neq t s)) by congruence; exact SK).
  destruct (set_links_ok m1 t (place l) _ SK1) as (m2 & H2 & K2 & D2 & S2 & N2). exists m2. split; [exact H2|].
  assert (Sm : same_except [s; t] m m2) by (eapply fsame_weaken; [eapply fsame_trans; [exact S1 | exact S2]|]; intros q; cbn; tauto).
  assert (D : forall q, fkind m2 q = fkind m q) by (intros q; rewrite D2; apply D1).
  assert (K : forall q, link_of m2 q = if q =? t then Some (place l) else if q =? s then Some (place k) else link_of m q) by (intros q; rewrite K2; destruct (q =? t); [reflexivity | apply K1]).
  pose proof Hl as Hl'. pose proof Hk as Hk'. apply forward_kind in Hl' as (Ks & Kl & Nl & _), Hk' as (Kt & Kk & Nk & _).
  apply nodup_cons in Nl as (Nl & Ns), Nk as (Nk & Nt).
  split; [|split; [|split; [|split; [exact Sm | congruence]]]].
  - eapply fvalid_same; [exact Hv | exact Sm | rewrite N2, N1; lia|]. intros q Hq. rewrite N2, N1. destruct Hq as [<-|[<-|[]]]; [apply (fbelow m s l s Hv Hl) | apply (fbelow m t k t Hv Hk)]; now left.
  - apply forward_kind. split; [rewrite D; exact Ks|]. split; [intros q w Hq; rewrite D; apply Kk, Hq|]. split.
    + apply nodup_cons. split; [exact Nk|]. intros H. apply (Hd s); [now left | now right].
    + cbn [seg]. rewrite K, (proj2 (Nat.eqb_neq s t) Hst), Nat.eqb_refl. split; [unfold place; destruct (names_of k); reflexivity|]. eapply seg_frame; [|exact SC].
      intros q Hq. rewrite K, (proj2 (Nat.eqb_neq q t)), (proj2 (Nat.eqb_neq q s)); [reflexivity | |].
      * intros ->. apply (Hd s); [now left | now right].
      * intros ->. exact (Nt Hq).
  - apply forward_kind. split; [rewrite D; exact Kt|]. split; [intros q w Hq; rewrite D; apply Kl, Hq|]. split.
    + apply nodup_cons. split; [exact Nl|]. intros H. apply (Hd t); [now right | now left].
    + cbn [seg]. rewrite K, Nat.eqb_refl. split; [unfold place; destruct (names_of l); reflexivity|]. eapply seg_frame; [|exact SB].
      intros q Hq. rewrite K, (proj2 (Nat.eqb_neq q t)), (proj2 (Nat.eqb_neq q s)); [reflexivity | |].
      * intros ->. exact (Ns Hq).
      * intros ->. apply (Hd t); [now right | now left].
Qed.
Lemma fself_swap (m : memory) s l : valid m -> forward_at m s l ->
  exists m', forward_swap s s m = Returned tt m' /\ valid m' /\ forward_at m' s l /\ (forall q, object_at m' q = object_at m q).
Proof.
  intros Hv Hl. unfold forward_swap, links, bind. destruct Hl as ((k & Ek) & Hl). rewrite !Ek. unfold set_links. rewrite Ek. cbn [object_at set_object]. rewrite Nat.eqb_refl.
  eexists. split; [reflexivity|]. assert (Ho : forall q, object_at (set_object (set_object m s (Some (Sentinel k))) s (Some (Sentinel k))) q = object_at m q).
  { intros q. cbn. destruct (Nat.eqb_spec q s) as [->|]; congruence. }
  split; [intros q Hq; rewrite Ho in Hq; exact (Hv q Hq)|]. split; [|exact Ho]. eapply forward_same; [split; [eauto | exact Hl]|]. intros q _. apply Ho.
Qed.
Lemma fmove_ok (m : memory) t k : valid m -> forward_at m t k ->
  exists s m', forward_move t m = Returned s m' /\ object_at m s = None /\ valid m' /\ forward_at m' s k /\ forward_at m' t [] /\ same_except [s; t] m m'.
Proof.
  intros Hv Hk. unfold forward_move. destruct (fdefault_ok m Hv) as (m1 & H1 & Hn1 & Hv1 & Hs1 & Ht1). rewrite (f_returned _ _ _ _ _ H1).
  assert (Hb : forall p, In p (t :: names_of k) -> p < names m) by (intros p Hp; exact (fbelow m t _ p Hv Hk Hp)).
  assert (Hk1 : forward_at m1 t k) by (eapply forward_same; [exact Hk|]; intros p Hp; apply Hs1; cbn; specialize (Hb p Hp); lia).
  destruct (fswap_ok m1 (names m) t [] k Hv1 Ht1 Hk1) as (m2 & H2 & Hv2 & Hl2 & Hk2 & Hs2 & Hn2).
  { intros p [<-|[]] Hp. specialize (Hb _ Hp). lia. }
  rewrite (f_returned _ _ _ _ _ H2). exists (names m), m2. split; [reflexivity|]. split; [apply ffresh, Hv|]. split; [exact Hv2|]. split; [exact Hl2|]. split; [exact Hk2|].
  eapply fsame_weaken; [eapply fsame_trans; [exact Hs1 | exact Hs2]|]. intros q. cbn. tauto.
Qed.

Lemma erase_loop_ok l2 : forall (m : memory) s l1 fuel, valid m -> forward_at m s (l1 ++ l2) -> length l2 < fuel ->
  exists m', erase_after_loop fuel (last_place l1 s) (place l2) m = Returned tt m' /\ valid m' /\ forward_at m' s l1 /\ (forall p, In p (names_of l2) -> object_at m' p = None) /\
    same_except (last_place l1 s :: names_of l2) m m' /\ names m' = names m.
Proof.
  induction l2 as [|(p, v) l2 IH]; intros m s l1 fuel Hv Hl Hf; (destruct fuel as [|fuel]; [lia|]); cbn [erase_after_loop place SpecList.names_of map hd_error fst].
  - rewrite app_nil_r in Hl. exists m. split; [reflexivity|]. split; [exact Hv|]. split; [exact Hl|]. split; [intros p []|]. split; [intros q _; reflexivity | reflexivity].
  - destruct (erase_after_ok m s l1 p v l2 Hv Hl) as (m1 & H1 & Hv1 & Hl1 & Ho1 & Hs1 & Hn1). rewrite (f_returned _ _ _ _ _ H1).
    destruct (IH m1 s l1 fuel Hv1 Hl1 ltac:(cbn in Hf; lia)) as (m2 & H2 & Hv2 & Hl2 & Ho2 & Hs2 & Hn2). exists m2. split; [exact H2|]. split; [exact Hv2|]. split; [exact Hl2|]. split; [|split; [|congruence]].
    + intros q [<-|Hq]; [|apply Ho2, Hq]. cbn [fst]. rewrite Hs2; [exact Ho1|].
      destruct (around m s l1 ((p, v) :: l2) Hl) as (A & _ & _ & _ & _ & N). cbn [SpecList.names_of map fst] in N. change (map fst l2) with (names_of l2) in N. clear -N. apart. cbn [In]. intros [E|E]; [rewrite E in *|]; clash.
    + eapply fsame_weaken; [eapply fsame_trans; [exact Hs1 | exact Hs2]|]. intros q. cbn. tauto.
Qed.
Lemma erase_all_ok (m : memory) s l1 l2 : valid m -> forward_at m s (l1 ++ l2) ->
  exists m', erase_all_after (last_place l1 s) m = Returned tt m' /\ valid m' /\ forward_at m' s l1 /\ (forall p, In p (names_of l2) -> object_at m' p = None) /\
    same_except (last_place l1 s :: names_of l2) m m' /\ names m' = names m.
Proof.
  intros Hv Hl. unfold erase_all_after. rewrite (f_returned _ _ _ _ _ (place_link m s l1 l2 Hl)). unfold with_fuel. apply erase_loop_ok; auto.
  pose proof (flength m s _ Hv Hl). rewrite app_length in H. lia.
Qed.
Lemma fclear_loop_ok l : forall (m : memory) s fuel, valid m -> forward_at m s l -> length l < fuel ->
  exists m', forward_clear_loop fuel s m = Returned tt m' /\ valid m' /\ forward_at m' s [] /\ (forall p, In p (names_of l) -> object_at m' p = None) /\ same_except (s :: names_of l) m m' /\ names m' = names m.
Proof.
  induction l as [|(p, v) l IH]; intros m s fuel Hv Hl Hf; (destruct fuel as [|fuel]; [lia|]); cbn [forward_clear_loop]; rewrite (f_returned _ _ _ _ _ (begin_link m s _ Hl)); cbn [place SpecList.names_of map hd_error fst].
  - exists m. split; [reflexivity|]. split; [exact Hv|]. split; [exact Hl|]. split; [intros p []|]. split; [intros q _; reflexivity | reflexivity].
  - destruct (erase_after_ok m s [] p v l Hv Hl) as (m1 & H1 & Hv1 & Hl1 & Ho1 & Hs1 & Hn1). change (last_place [] s) with s in *. unfold before_begin. rewrite (f_returned _ _ _ _ _ H1).
    destruct (IH m1 s fuel Hv1 Hl1 ltac:(cbn in Hf; lia)) as (m2 & H2 & Hv2 & Hl2 & Ho2 & Hs2 & Hn2). exists m2. split; [exact H2|]. split; [exact Hv2|]. split; [exact Hl2|]. split; [|split; [|congruence]].
    + intros q [<-|Hq]; [|apply Ho2, Hq]. cbn [fst]. rewrite Hs2; [exact Ho1|]. destruct Hl as (_ & _ & N & _). cbn in N. apply nodup_cons in N as (N & N'). apply nodup_cons in N as (_ & N).
      intros [E|E]; [apply N'; now left | exact (N E)].
    + eapply fsame_weaken; [eapply fsame_trans; [exact Hs1 | exact Hs2]|]. intros q. cbn. tauto.
Qed.
Lemma fclear_ok (m : memory) s l : valid m -> forward_at m s l ->
  exists m', forward_clear s m = Returned tt m' /\ valid m' /\ forward_at m' s [] /\ (forall p, In p (names_of l) -> object_at m' p = None) /\ same_except (s :: names_of l) m m' /\ names m' = names m.
Proof. intros Hv Hl. unfold forward_clear, with_fuel. apply fclear_loop_ok; auto. pose proof (flength m s l Hv Hl). lia. Qed.
Lemma fdestroy_ok (m : memory) s l : valid m -> forward_at m s l ->
  exists m', forward_destroy s m = Returned tt m' /\ valid m' /\ (forall p, In p (s :: names_of l) -> object_at m' p = None) /\ same_except (s :: names_of l) m m' /\ names m' = names m.
Proof.
  intros Hv Hl. destruct (fclear_ok m s l Hv Hl) as (m1 & H1 & Hv1 & Hl1 & Ho1 & Hs1 & Hn1). unfold forward_destroy. rewrite (f_returned _ _ _ _ _ H1).
  assert (Hd : end_sentinel s m1 = Returned tt (set_object m1 s None)) by (unfold end_sentinel; destruct Hl1 as ((k & ->) & _); reflexivity).
  exists (set_object m1 s None). split; [exact Hd|]. split; [|split; [|split]].
  - intros q. cbn. destruct (Nat.eqb_spec q s) as [->|]; [congruence|]. apply Hv1.
  - intros p Hp. cbn. destruct (Nat.eqb_spec p s) as [->|Hne]; [reflexivity|]. destruct Hp as [->|Hp]; [congruence|]. apply Ho1, Hp.
  - intros q Hq. cbn. destruct (Nat.eqb_spec q s) as [->|Hne]; [exfalso; apply Hq; now left|]. apply Hs1, Hq.
  - exact Hn1.
Qed.

(** append_after where nothing follows *)
Lemma fappend_ok vs : forall (m : memory) s l, valid m -> forward_at m s l ->
  match append_after (last_place l s) vs m with
  | Returned _ m' => exists k, map snd k = vs /\ (forall p, In p (names_of k) -> names m <= p) /\ valid m' /\ forward_at m' s (l ++ k) /\ same_except (s :: names_of (l ++ k)) m m' /\ names m <= names m'
  | Threw m' => exists k, (exists vs', vs' <> [] /\ map snd k ++ vs' = vs) /\ (forall p, In p (names_of k) -> names m <= p) /\ valid m' /\ forward_at m' s (l ++ k) /\ same_except (s :: names_of (l ++ k)) m m' /\ names m <= names m'
  | Undefined => False
  end.
Proof.
  induction vs as [|v vs IH]; intros m s l Hv Hl; cbn [append_after].
  - exists []. cbn. rewrite app_nil_r. split; [reflexivity|]. split; [intros p []|]. split; [exact Hv|]. split; [exact Hl|]. split; [intros q _; reflexivity | lia].
  - rewrite <- (app_nil_r l) in Hl. pose proof (insert_after_ok m s l [] v Hv Hl) as H. rewrite app_nil_r in Hl. destruct (insert_after (last_place l s) v m) as [p m1|m1|] eqn:E; [| |contradiction].
    + rewrite (f_returned _ _ _ _ _ E). destruct H as (-> & Hv1 & Hl1 & Hs1 & Hn1). specialize (IH m1 s (l ++ [(names m, v)]) Hv1 Hl1). rewrite last_place_snoc in IH.
      assert (Il : In (last_place l s) (s :: names_of l)) by (destruct (last_split l s) as (A & EA); rewrite EA; apply in_or_app; right; now left).
      assert (T : forall m' k, (forall p, In p (names_of k) -> names m1 <= p) -> same_except (s :: names_of ((l ++ [(names m, v)]) ++ k)) m1 m' ->
        (forall p, In p (names_of ((names m, v) :: k)) -> names m <= p) /\ same_except (s :: names_of (l ++ (names m, v) :: k)) m m').
      { intros m' k Hk Hs. split.
        - intros p [<-|Hp]; [cbn; lia|]. specialize (Hk p Hp). lia.
        - eapply fsame_weaken; [eapply fsame_trans; [exact Hs1 | exact Hs]|]. intros q Hq. rewrite <- app_assoc in Hq. cbn [app] in Hq. destruct Hq as [<-|[<-|Hq]]; [| |exact Hq].
          + right. rewrite fnames_app. apply in_or_app. right. now left.
          + destruct Il as [<-|Il]; [now left|]. right. rewrite fnames_app. apply in_or_app. now left. }
      destruct (append_after (names m) vs m1) as [u m'|m'|]; [| |contradiction].
      * destruct IH as (k & Ek & Hk & Hv' & Hl' & Hs' & Hn'). destruct (T m' k Hk Hs') as (T1 & T2). exists ((names m, v) :: k). cbn [map snd]. rewrite Ek. rewrite <- app_assoc in Hl'.
        split; [reflexivity|]. split; [exact T1|]. split; [exact Hv'|]. split; [exact Hl'|]. split; [exact T2 | lia].
      * destruct IH as (k & (vs' & Hne & Ek) & Hk & Hv' & Hl' & Hs' & Hn'). destruct (T m' k Hk Hs') as (T1 & T2). exists ((names m, v) :: k). cbn [map snd]. rewrite <- app_assoc in Hl'.
        split; [exists vs'; cbn [app]; rewrite Ek; auto|]. split; [exact T1|]. split; [exact Hv'|]. split; [exact Hl'|]. split; [exact T2 | lia].
    + rewrite (f_threw _ _ _ _ E). destruct H as (Hs & Hv1 & Hn1). exists []. cbn. rewrite app_nil_r. split; [exists (v :: vs); split; [discriminate | reflexivity]|].
      split; [intros p []|]. split; [exact Hv1|]. split; [|split; [|lia]].
      * eapply forward_same; [exact Hl|]. intros p _. apply Hs. intros [].
      * eapply fsame_weaken; [exact Hs|]. intros q [].
Qed.
Definition fseparate (s : nat) (l : list (nat * V)) (t : nat) (k : list (nat * V)) : Prop :=
  forall p, In p (s :: names_of l) -> In p (t :: names_of k) -> False.
Lemma forward_separate (m m' : memory) t k ps : forward_at m t k -> same_except ps m m' -> (forall p, In p ps -> In p (t :: names_of k) -> False) -> forward_at m' t k.
Proof. intros Hk Hs Hd. eapply forward_same; [exact Hk|]. intros p Hp. apply Hs. intros Hi. exact (Hd p Hi Hp). Qed.
Lemma last_in (l : list (nat * V)) s : In (last_place l s) (s :: names_of l).
Proof. destruct (last_split l s) as (A & E). rewrite E. apply in_or_app. right. now left. Qed.
Lemma fappend_list_ok k2 : forall (m : memory) s l t k1 fuel, valid m -> forward_at m s l -> forward_at m t (k1 ++ k2) -> fseparate s l t (k1 ++ k2) -> length k2 < fuel ->
  append_list_after fuel (last_place l s) (place k2) m = append_after (last_place l s) (map snd k2) m.
Proof.
  induction k2 as [|(p, v) k2 IH]; intros m s l t k1 fuel Hv Hl Hk Hd Hf; (destruct fuel as [|fuel]; [lia|]); cbn [append_list_after place SpecList.names_of hd_error fst map snd append_after]; [reflexivity|].
  rewrite (f_returned _ _ _ _ _ (fvalue_ok m t _ p v Hk ltac:(apply in_or_app; right; now left))).
  rewrite <- (app_nil_r l) in Hl. pose proof (insert_after_ok m s l [] v Hv Hl) as H. rewrite app_nil_r in Hl. destruct (insert_after (last_place l s) v m) as [q m1|m1|] eqn:E; [| |contradiction].
  - rewrite !(f_returned _ _ _ _ _ E). destruct H as (-> & Hv1 & Hl1 & Hs1 & Hn1).
    assert (Hk1 : forward_at m1 t (k1 ++ (p, v) :: k2)).
    { eapply forward_separate; [exact Hk | exact Hs1|]. intros q [<-|[<-|[]]] Hq'; [pose proof (fbelow m t _ _ Hv Hk Hq'); lia | exact (Hd _ (last_in l s) Hq')]. }
    replace (k1 ++ (p, v) :: k2) with ((k1 ++ [(p, v)]) ++ k2) in * by (rewrite <- app_assoc; reflexivity).
    pose proof (place_link m1 t (k1 ++ [(p, v)]) k2 Hk1) as Hp. rewrite last_place_snoc in Hp. rewrite (f_returned _ _ _ _ _ Hp).
    pose proof (IH m1 s (l ++ [(names m, v)]) t (k1 ++ [(p, v)]) fuel Hv1 Hl1 Hk1) as IH'. rewrite last_place_snoc in IH'. apply IH'; [|cbn in Hf; lia].
    intros q Hq Hq'. rewrite fnames_app in Hq. change (s :: names_of l ++ names_of [(names m, v)]) with ((s :: names_of l) ++ [names m]) in Hq.
    apply in_app_or in Hq. destruct Hq as [Hq|[<-|[]]]; [exact (Hd q Hq Hq')|]. pose proof (fbelow m t _ _ Hv Hk Hq'). lia.
  - rewrite !(f_threw _ _ _ _ E). reflexivity.
Qed.
Lemma ffrom_ok (m : memory) vs : valid m ->
  match forward_from vs m with
  | Returned s m' => exists k, map snd k = vs /\ s = names m /\ (forall p, In p (names_of k) -> names m <= p) /\ valid m' /\ forward_at m' s k /\ same_except (s :: names_of k) m m' /\ names m <= names m'
  | Threw m' => valid m' /\ (forall q, q < names m -> object_at m' q = object_at m q) /\ names m <= names m'
  | Undefined => False
  end.
Proof.
  intros Hv. unfold forward_from. destruct (fdefault_ok m Hv) as (m1 & H1 & Hn1 & Hv1 & Hs1 & Ht1). rewrite (f_returned _ _ _ _ _ H1).
  pose proof (fappend_ok vs m1 (names m) [] Hv1 Ht1) as H. change (last_place [] (names m)) with (names m) in H. unfold before_begin. destruct (append_after (names m) vs m1) as [u m2|m2|] eqn:E; [| |contradiction].
  - destruct H as (k & Ek & Hk & Hv2 & Hl2 & Hs2 & Hn2). unfold rethrow_after, bind. rewrite E. unfold ret. exists k. split; [exact Ek|]. split; [reflexivity|].
    split; [intros p Hp; specialize (Hk p Hp); lia|]. split; [exact Hv2|]. split; [exact Hl2|]. split; [|lia].
    eapply fsame_weaken; [eapply fsame_trans; [exact Hs1 | exact Hs2]|]. intros q. cbn. tauto.
  - destruct H as (k & _ & Hk & Hv2 & Hl2 & Hs2 & Hn2). unfold rethrow_after, bind. rewrite E.
    assert (Hd : end_sentinel (names m) m2 = Returned tt (set_object m2 (names m) None)) by (unfold end_sentinel; destruct Hl2 as ((j & ->) & _); reflexivity). rewrite Hd.
    split; [|split; [|cbn; lia]].
    + intros q. cbn. destruct (Nat.eqb_spec q (names m)) as [->|]; [congruence|]. apply Hv2.
    + intros q Hq. cbn. rewrite (proj2 (Nat.eqb_neq q (names m))) by lia. rewrite Hs2, Hs1; [reflexivity | |].
      * cbn. lia.
      * cbn. intros [Hi|Hi]; [lia|]. specialize (Hk q Hi). lia.
Qed.
Lemma fcopy_from (m : memory) t k : valid m -> forward_at m t k -> forward_copy t m = forward_from (map snd k) m.
Proof.
  intros Hv Hk. unfold forward_copy, forward_from. destruct (fdefault_ok m Hv) as (m1 & H1 & Hn1 & Hv1 & Hs1 & Ht1). rewrite !(f_returned _ _ _ _ _ H1).
  assert (Hb : forall p, In p (t :: names_of k) -> p < names m) by (intros p Hp; exact (fbelow m t _ p Hv Hk Hp)).
  assert (Hk1 : forward_at m1 t k) by (eapply forward_same; [exact Hk|]; intros p Hp; apply Hs1; cbn; specialize (Hb p Hp); lia).
  unfold rethrow_after at 1. unfold bind at 1. rewrite (f_returned _ _ _ _ _ (begin_link m1 t k Hk1)). unfold with_fuel, before_begin.
  pose proof (fappend_list_ok k m1 (names m) [] t [] (S (names m1)) Hv1 Ht1 Hk1) as H. change (last_place [] (names m)) with (names m) in H. rewrite H; [reflexivity | |].
  - intros p [<-|[]] Hp. specialize (Hb _ Hp). lia.
  - pose proof (flength m1 t k Hv1 Hk1). lia.
Qed.
Lemma fcopy_ok (m : memory) t k : valid m -> forward_at m t k ->
  match forward_copy t m with
  | Returned s m' => exists l, map snd l = map snd k /\ object_at m s = None /\ (forall p, In p (names_of l) -> object_at m p = None) /\ valid m' /\ forward_at m' s l /\ forward_at m' t k /\ same_except (s :: names_of l) m m'
  | Threw m' => valid m' /\ (forall q, object_at m q <> None -> object_at m' q = object_at m q)
  | Undefined => False
  end.
Proof.
  intros Hv Hk. rewrite (fcopy_from m t k Hv Hk). pose proof (ffrom_ok m (map snd k) Hv) as H. destruct (forward_from (map snd k) m) as [s m'|m'|]; [| |contradiction].
  - destruct H as (l & El & -> & Hp & Hv' & Hl' & Hs' & Hn'). exists l. split; [exact El|]. split; [apply ffresh, Hv|]. split; [|split; [exact Hv'|split; [exact Hl'|split; [|exact Hs']]]].
    + intros p Hi. specialize (Hp p Hi). destruct (object_at m p) eqn:E; [|reflexivity]. specialize (Hv p ltac:(congruence)). lia.
    + eapply forward_separate; [exact Hk | exact Hs'|]. intros p Hi Hk'. pose proof (fbelow m t _ _ Hv Hk Hk'). destruct Hi as [<-|Hi]; [lia|]. specialize (Hp p Hi). lia.
  - destruct H as (Hv' & Hs' & _). split; [exact Hv'|]. intros q Hq. apply Hs', Hv, Hq.
Qed.

Lemma fset_value_ok (m : memory) s l1 p w l2 v : valid m -> forward_at m s (l1 ++ (p, w) :: l2) ->
  exists m', set_value p v m = Returned tt m' /\ valid m' /\ forward_at m' s (l1 ++ (p, v) :: l2) /\ same_except [p] m m' /\ names m' = names m.
Proof.
  intros Hv Hl. pose proof Hl as (_ & H2 & H3 & _). destruct (H2 p w) as (k & Ek); [apply in_or_app; right; now left|].
  apply forward_kind in Hl as (K1 & K2 & _ & K4).
  unfold set_value. rewrite Ek. eexists. split; [reflexivity|].
  assert (En : names_of (l1 ++ (p, w) :: l2) = names_of (l1 ++ (p, v) :: l2)) by (rewrite !fnames_app; reflexivity).
  assert (Hps : p <> s).
  { intros ->. apply nodup_cons in H3 as (_ & H3). apply H3. rewrite fnames_app. apply in_or_app. right. now left. }
  split; [|split; [|split; [|reflexivity]]].
  - intros q. cbn. destruct (Nat.eqb_spec q p) as [->|]; [intros _; apply Hv; congruence | apply Hv].
  - apply forward_kind. split; [|split; [|split]].
    + unfold fkind in *. cbn. rewrite (proj2 (Nat.eqb_neq s p)) by congruence. exact K1.
    + intros q u Hq. unfold fkind in *. cbn. destruct (Nat.eqb_spec q p) as [->|Hne].
      * apply in_app_or in Hq. assert (Hq' : In (p, u) l1 \/ (p, v) = (p, u) \/ In (p, u) l2) by tauto. rewrite fnames_app in H3. cbn [SpecList.names_of map fst] in H3. apply nodup_cons in H3 as (H3 & _).
        apply NoDup_remove_2 in H3. destruct Hq' as [Hq'|[Hq'|Hq']]; [|injection Hq' as <-; reflexivity|]; exfalso; apply H3, in_or_app; [left | right]; apply (in_map fst) in Hq'; exact Hq'.
      * apply K2. apply in_app_or in Hq. apply in_or_app. destruct Hq as [Hq|[Hq|Hq]]; [now left | injection Hq as <- <-; congruence | right; now right].
    + rewrite <- En. exact H3.
    + rewrite <- En. eapply seg_frame; [|exact K4]. intros r _. unfold link_of. cbn. destruct (Nat.eqb_spec r p) as [->|]; [|reflexivity]. now rewrite Ek.
  - intros q Hq. cbn in *. rewrite (proj2 (Nat.eqb_neq q p)) by (intros ->; tauto). reflexivity.
Qed.
Fixpoint foverwrite (k l : list (nat * V)) : list (nat * V) :=
  match k, l with
  | (_, v) :: k, (p, _) :: l => (p, v) :: foverwrite k l
  | _, _ => []
  end.
Lemma foverwrite_spec k l : names_of (foverwrite k l) = firstn (length k) (names_of l) /\ map snd (foverwrite k l) = firstn (length l) (map snd k).
Proof.
  revert l. induction k as [|(i, v) k IH]; intros [|(o, w) l]; try (cbn; auto; fail). destruct (IH l) as (H1 & H2). cbn. unfold SpecList.names_of in H1. now rewrite H1, H2.
Qed.
Lemma ftruncate_ok k2 : forall l2 (m : memory) s l1 t k1 fuel, valid m -> forward_at m s (l1 ++ l2) -> forward_at m t (k1 ++ k2) -> fseparate s (l1 ++ l2) t (k1 ++ k2) -> length k2 < fuel ->
  match copy_truncate_after fuel (place k2) (place l2) (last_place l1 s) m with
  | Returned r m' => r = (place (skipn (length l2) k2), last_place (l1 ++ foverwrite k2 l2) s) /\ valid m' /\ forward_at m' s (l1 ++ foverwrite k2 l2 ++ skipn (length k2) l2) /\ same_except (names_of l2) m m' /\ names m' = names m
  | Threw m' => exists l2', names_of l2' = names_of l2 /\ valid m' /\ forward_at m' s (l1 ++ l2') /\ same_except (names_of l2) m m' /\ names m' = names m /\
      exists i, i < length k2 /\ i < length l2 /\ map snd l2' = firstn i (map snd k2) ++ skipn i (map snd l2)
  | Undefined => False
  end.
Proof.
  induction k2 as [|(i, v) k2 IH]; intros l2 m s l1 t k1 fuel Hv Hl Hk Hd Hf; (destruct fuel as [|fuel]; [lia|]).
  - cbn [copy_truncate_after place SpecList.names_of hd_error map fst]. cbn [foverwrite app skipn length]. rewrite skipn_nil, app_nil_r. split; [reflexivity|]. split; [exact Hv|]. split; [exact Hl|]. split; [intros q _; reflexivity | reflexivity].
  - destruct l2 as [|(o, w) l2].
    { cbn [copy_truncate_after place SpecList.names_of hd_error map fst foverwrite app skipn length]. rewrite app_nil_r. split; [reflexivity|]. rewrite app_nil_r in Hl. split; [exact Hv|]. split; [exact Hl|]. split; [intros q _; reflexivity | reflexivity]. }
    cbn [copy_truncate_after place SpecList.names_of hd_error map fst].
    rewrite (f_returned _ _ _ _ _ (fvalue_ok m t _ i v Hk ltac:(apply in_or_app; right; now left))).
    set (m0 := Memory (object_at m) (names m) (tl (script m))).
    assert (Hv0 : valid m0) by exact Hv. assert (Hl0 : forward_at m0 s (l1 ++ (o, w) :: l2)) by (eapply forward_same; [exact Hl | reflexivity]). assert (Hk0 : forward_at m0 t (k1 ++ (i, v) :: k2)) by (eapply forward_same; [exact Hk | reflexivity]).
    assert (Hm : (may_throw (L := option nat) (V := V) m = Returned tt m0) \/ may_throw (L := option nat) (V := V) m = Threw m0).
    { unfold may_throw, m0. destruct m as [ob nm [|[|] sc]]; cbn; auto. }
    destruct Hm as [Hm|Hm].
    + rewrite (f_returned _ _ _ _ _ Hm). destruct (fset_value_ok m0 s l1 o w l2 v Hv0 Hl0) as (m1 & H1 & Hv1 & Hl1 & Hs1 & Hn1). rewrite (f_returned _ _ _ _ _ H1).
      assert (Io : In o (s :: names_of (l1 ++ (o, w) :: l2))) by (right; rewrite fnames_app; apply in_or_app; right; now left).
      assert (Hk1 : forward_at m1 t (k1 ++ (i, v) :: k2)) by (eapply forward_separate; [exact Hk0 | exact Hs1|]; intros q [<-|[]] Hq; exact (Hd o Io Hq)).
      replace (l1 ++ (o, v) :: l2) with ((l1 ++ [(o, v)]) ++ l2) in Hl1 by (rewrite <- app_assoc; reflexivity).
      replace (k1 ++ (i, v) :: k2) with ((k1 ++ [(i, v)]) ++ k2) in * by (rewrite <- app_assoc; reflexivity).
      pose proof (place_link m1 t (k1 ++ [(i, v)]) k2 Hk1) as Pi. rewrite last_place_snoc in Pi. pose proof (place_link m1 s (l1 ++ [(o, v)]) l2 Hl1) as Po. rewrite last_place_snoc in Po.
      rewrite (f_returned _ _ _ _ _ Pi), (f_returned _ _ _ _ _ Po).
      assert (Hd1 : fseparate s ((l1 ++ [(o, v)]) ++ l2) t ((k1 ++ [(i, v)]) ++ k2)).
      { intros q Hq. apply (Hd q). repeat rewrite fnames_app in *. rewrite <- app_assoc in Hq. exact Hq. }
      specialize (IH l2 m1 s (l1 ++ [(o, v)]) t (k1 ++ [(i, v)]) fuel Hv1 Hl1 Hk1 Hd1 ltac:(cbn in Hf; lia)). rewrite last_place_snoc in IH.
      assert (T : forall m', same_except (names_of l2) m1 m' -> same_except (names_of ((o, w) :: l2)) m m').
      { intros m' H'. change (same_except (names_of ((o, w) :: l2)) m0 m'). eapply fsame_weaken; [eapply fsame_trans; [exact Hs1 | exact H']|]. intros q. cbn. tauto. }
      destruct (copy_truncate_after fuel (place k2) (place l2) o m1) as [r m'|m'|]; [| |contradiction].
      * destruct IH as (-> & Hv' & Hl' & Hs' & Hn'). cbn [length skipn foverwrite]. rewrite <- !app_assoc in *. cbn [app] in *. split; [reflexivity|]. split; [exact Hv'|]. split; [exact Hl'|]. split; [apply T, Hs' | cbn in *; congruence].
      * destruct IH as (l2' & En & Hv' & Hl' & Hs' & Hn' & j & Hj & Hj' & Ej). exists ((o, v) :: l2'). rewrite <- app_assoc in Hl'. split; [cbn; unfold SpecList.names_of in En; now rewrite En|]. split; [exact Hv'|]. split; [exact Hl'|]. split; [apply T, Hs'|]. split; [cbn in *; congruence|].
        exists (S j). cbn [length map firstn skipn snd app]. rewrite Ej. split; [lia|]. split; [lia|reflexivity].
    + rewrite (f_threw _ _ _ _ Hm). exists ((o, w) :: l2). split; [reflexivity|]. split; [exact Hv0|]. split; [exact Hl0|]. split; [intros q _; reflexivity|]. split; [reflexivity|]. exists 0. cbn. split; [lia|]. split; [lia|reflexivity].
Qed.
Lemma fcopy_assign_ok (m : memory) s l t k : valid m -> forward_at m s l -> forward_at m t k -> fseparate s l t k ->
  match forward_copy_assign s t m with
  | Returned _ m' => exists l', map snd l' = map snd k /\ (forall n, n <= length l -> n <= length k -> firstn n (names_of l') = firstn n (names_of l)) /\ valid m' /\ forward_at m' s l' /\ forward_at m' t k /\
      (forall p, In p (skipn (length k) (names_of l)) -> object_at m' p = None) /\ same_except (s :: names_of l ++ names_of l') m m' /\
      (forall p, In p (names_of l') -> In p (names_of l) \/ object_at m p = None)
  | Threw m' => exists l', valid m' /\ forward_at m' s l' /\ forward_at m' t k /\ same_except (s :: names_of l ++ names_of l') m m' /\
      (forall p, In p (names_of l) -> ~ In p (names_of l') -> object_at m' p = None) /\ (forall p, In p (names_of l') -> In p (names_of l) \/ object_at m p = None) /\
      firstn (length l) (names_of l') = names_of l /\
      exists i, i < length k /\ map snd l' = firstn i (map snd k) ++ skipn i (map snd l)
  | Undefined => False
  end.
Proof.
  intros Hv Hl Hk Hd. unfold forward_copy_assign. rewrite (proj2 (Nat.eqb_neq s t)) by (intros ->; apply (Hd t); now left).
  rewrite (f_returned _ _ _ _ _ (begin_link m t k Hk)), (f_returned _ _ _ _ _ (begin_link m s l Hl)). unfold before_begin.
  pose proof (ftruncate_ok k l m s [] t [] (S (names m)) Hv Hl Hk Hd ltac:(pose proof (flength m t k Hv Hk); lia)) as H. change (last_place [] s) with s in H.
  unfold with_fuel at 1. unfold bind at 1. destruct (copy_truncate_after (S (names m)) (place k) (place l) s m) as [r m1|m1|]; [| |contradiction].
  - destruct H as (-> & Hv1 & Hl1 & Hs1 & Hn1). cbn [app fst snd] in *.
    assert (Hk1 : forward_at m1 t k) by (eapply forward_separate; [exact Hk | exact Hs1|]; intros p Hp Hp'; apply (Hd p); [now right | exact Hp']).
    destruct (erase_all_ok m1 s _ _ Hv1 Hl1) as (m2 & H2 & Hv2 & Hl2 & Ho2 & Hs2 & Hn2). rewrite (f_returned _ _ _ _ _ H2).
    set (l1 := foverwrite k l) in *. destruct (foverwrite_spec k l) as (On & Ov). fold l1 in On, Ov.
    assert (Incl : incl (s :: names_of (l1 ++ skipn (length k) l)) (s :: names_of l)).
    { intros q [<-|Hq]; [now left|]. right. rewrite fnames_app, On in Hq. unfold SpecList.names_of in *. rewrite <- skipn_map, firstn_skipn in Hq. exact Hq. }
    assert (Hs2' : same_except (s :: names_of l) m m2).
    { eapply fsame_weaken; [eapply fsame_trans; [exact Hs1 | exact Hs2]|]. intros q Hq. apply in_app_or in Hq. destruct Hq as [Hq|Hq]; [now right | apply Incl].
      rewrite fnames_app. destruct Hq as [<-|Hq]; [|right; apply in_or_app; now right]. destruct (last_in l1 s) as [<-|Hq]; [now left | right; apply in_or_app; now left]. }
    assert (Hk2 : forward_at m2 t k) by (eapply forward_separate; [exact Hk | exact Hs2'|]; intros p Hp Hp'; exact (Hd p Hp Hp')).
    assert (Hd2 : fseparate s l1 t k).
    { intros p Hp. apply (Hd p). apply Incl. rewrite fnames_app. destruct Hp as [<-|Hp]; [now left | right; apply in_or_app; now left]. }
    assert (Old : forall e, (forall p, In p (names_of e) -> names m2 <= p) -> forall p, In p (names_of (l1 ++ e)) -> In p (names_of l) \/ object_at m p = None).
    { intros e He p Hp. rewrite fnames_app in Hp. apply in_app_or in Hp. destruct Hp as [Hp|Hp].
      - left. rewrite On in Hp. rewrite <- (firstn_skipn (length k)). apply in_or_app. now left.
      - right. destruct (object_at m p) eqn:Eo; [|reflexivity]. specialize (He p Hp). assert (p < names m) by (apply Hv; congruence). lia. }
    assert (Pre : forall e n, n <= length l -> n <= length k -> firstn n (names_of (l1 ++ e)) = firstn n (names_of l)).
    { intros e n Hn Hn'. rewrite fnames_app, On. rewrite firstn_app. assert (Hlen : length (firstn (length k) (names_of l)) = Nat.min (length k) (length l)) by (rewrite firstn_length; unfold SpecList.names_of; now rewrite map_length).
      rewrite Hlen. replace (n - Nat.min (length k) (length l)) with 0 by lia. rewrite firstn_O, app_nil_r, firstn_firstn. f_equal. lia. }
    unfold with_fuel.
    assert (Ek : firstn (length l) k ++ skipn (length l) k = k) by apply firstn_skipn.
    rewrite (fappend_list_ok (skipn (length l) k) m2 s l1 t (firstn (length l) k) (S (names m2)) Hv2 Hl2); [|rewrite Ek; exact Hk2 | rewrite Ek; exact Hd2 | pose proof (flength m2 t k Hv2 Hk2); rewrite skipn_length; lia].
    pose proof (fappend_ok (map snd (skipn (length l) k)) m2 s l1 Hv2 Hl2) as H. destruct (append_after (last_place l1 s) (map snd (skipn (length l) k)) m2) as [u m3|m3|]; [| |contradiction].
    + destruct H as (e & Ee & He & Hv3 & Hl3 & Hs3 & Hn3). exists (l1 ++ e).
      assert (Gone : forall p, In p (skipn (length k) (names_of l)) -> object_at m3 p = None).
      { intros p Hp. assert (Hp' : In p (names_of (skipn (length k) l))) by (unfold SpecList.names_of in *; rewrite <- skipn_map; exact Hp).
        assert (Ipl : In p (names_of l)) by (rewrite <- (firstn_skipn (length k)); apply in_or_app; now right).
        pose proof (fbelow m s l p Hv Hl ltac:(now right)) as Hlt.
        rewrite Hs3; [apply Ho2, Hp'|]. intros [<-|Hi]; [destruct Hl as (_ & _ & N & _); apply nodup_cons in N as (_ & N); exact (N Ipl)|]. rewrite fnames_app in Hi. apply in_app_or in Hi. destruct Hi as [Hi|Hi].
        - destruct Hl1 as (_ & _ & N & _). apply nodup_cons in N as (N & _). rewrite fnames_app in N. apply nodup_app in N as (_ & _ & D). exact (D p Hi Hp').
        - specialize (He p Hi). lia. }
      split.
      * rewrite map_app, Ee, Ov, <- skipn_map. apply firstn_skipn.
      * split; [|split; [exact Hv3|split; [exact Hl3|split; [|split; [exact Gone|split; [|exact (Old e He)]]]]]].
        -- exact (Pre e).
        -- eapply forward_separate; [exact Hk2 | exact Hs3|]. intros p Hp Hp'. destruct Hp as [<-|Hp]; [apply (Hd s); [now left | exact Hp']|]. rewrite fnames_app in Hp. apply in_app_or in Hp.
           destruct Hp as [Hp|Hp]; [exact (Hd2 p ltac:(now right) Hp')|]. specialize (He p Hp). pose proof (fbelow m2 t k p Hv2 Hk2 Hp'). lia.
        -- eapply fsame_weaken; [eapply fsame_trans; [exact Hs2' | exact Hs3]|]. intros q Hq. clear -Hq. rewrite in_app_iff in Hq. cbn [In] in *. rewrite in_app_iff. tauto.
    + destruct H as (e & (vs' & Hvs & Evs) & He & Hv3 & Hl3 & Hs3 & Hn3). exists (l1 ++ e). split; [exact Hv3|]. split; [exact Hl3|]. split; [|split; [|split; [|split; [exact (Old e He)|split; [|]]]]].
      * eapply forward_separate; [exact Hk2 | exact Hs3|]. intros p Hp Hp'. destruct Hp as [<-|Hp]; [apply (Hd s); [now left | exact Hp']|]. rewrite fnames_app in Hp. apply in_app_or in Hp.
        destruct Hp as [Hp|Hp]; [exact (Hd2 p ltac:(now right) Hp')|]. specialize (He p Hp). pose proof (fbelow m2 t k p Hv2 Hk2 Hp'). lia.
      * eapply fsame_weaken; [eapply fsame_trans; [exact Hs2' | exact Hs3]|]. intros q Hq. clear -Hq. rewrite in_app_iff in Hq. cbn [In] in *. rewrite in_app_iff. tauto.
      * intros p Hp Hn. assert (Hi : In p (names_of (skipn (length k) l))).
        { rewrite <- (firstn_skipn (length k) (names_of l)), <- On in Hp. apply in_app_or in Hp. destruct Hp as [Hp|Hp]; [exfalso; apply Hn; rewrite fnames_app; apply in_or_app; now left|].
          unfold SpecList.names_of in *. rewrite <- skipn_map. exact Hp. }
        rewrite Hs3; [apply Ho2, Hi|]. intros [<-|H]; [destruct Hl as (_ & _ & N & _); apply nodup_cons in N as (_ & N); exact (N Hp) | exact (Hn H)].
      * assert (L : length e + length vs' = length k - length l) by (rewrite <- (map_length snd e), <- app_length, Evs, map_length, skipn_length; reflexivity).
        assert (length vs' <> 0) by (now destruct vs'). rewrite (Pre e) by lia. apply firstn_all2. unfold SpecList.names_of. rewrite map_length. lia.
      * assert (L : length e + length vs' = length k - length l) by (rewrite <- (map_length snd e), <- app_length, Evs, map_length, skipn_length; reflexivity).
        assert (length vs' <> 0) by (now destruct vs'). exists (length l + length e). split; [lia|].
        rewrite map_app, Ov, skipn_all2 with (l := map snd l), app_nil_r by (rewrite map_length; lia). rewrite <- skipn_map in Evs.
        rewrite <- (firstn_skipn (length l) (map snd k)) at 2. rewrite firstn_app, firstn_firstn, firstn_length, map_length. replace (Nat.min (length l + length e) (length l)) with (length l) by lia.
        f_equal. replace (length l + length e - Nat.min (length l) (length k)) with (length (map snd e)) by (rewrite map_length; lia). rewrite <- Evs, firstn_app, Nat.sub_diag, firstn_all, app_nil_r. reflexivity.
  - destruct H as (l' & En & Hv1 & Hl1 & Hs1 & Hn1 & i & Hi & Hi' & Ei). exists l'. split; [exact Hv1|]. split; [exact Hl1|]. split; [|split; [|split; [|split; [|split; [|exists i; auto]]]]].
    + eapply forward_separate; [exact Hk | exact Hs1|]. intros p Hp Hp'. apply (Hd p); [now right | exact Hp'].
    + eapply fsame_weaken; [exact Hs1|]. intros q Hq. right. apply in_or_app. now left.
    + intros p Hp Hn. exfalso. apply Hn. rewrite En. exact Hp.
    + intros p Hp. left. rewrite <- En. exact Hp.
    + rewrite En. apply firstn_all2. unfold SpecList.names_of. rewrite map_length. lia.
Qed.
End Forward.
