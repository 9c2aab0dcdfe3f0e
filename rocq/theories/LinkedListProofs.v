(** * Proofs about bidirectional linked lists: links *)

From Coq Require Import List Arith Bool Lia.
From Verif Require Import LinkedList SpecList.
Import ListNotations.
Local Open Scope nat_scope.

Section Lists.
Lemma nodup_app {A} (l k : list A) : NoDup (l ++ k) <-> NoDup l /\ NoDup k /\ forall x, In x l -> In x k -> False.
Proof.
  induction l as [|a l IH]; cbn.
  - split; [intros H; split; [constructor | split; [exact H | tauto]] | tauto].
  - rewrite !NoDup_cons_iff, IH, in_app_iff. firstorder (subst; eauto).
Qed.
Lemma nodup_cons {A} (a : A) (k : list A) : NoDup (a :: k) <-> NoDup k /\ (In a k -> False).
Proof. rewrite NoDup_cons_iff. tauto. Qed.
End Lists.
Ltac apart :=
  repeat match goal with
         | H : NoDup (_ ++ _) |- _ => apply nodup_app in H as (? & ? & ?)
         | H : NoDup (_ :: _) |- _ => apply nodup_cons in H as (? & ?)
         end.
Ltac member := repeat progress (rewrite ?in_app_iff; cbn [In]); tauto.
Ltac clash :=
  exfalso;
  match goal with
  | H : In ?x ?s, D : forall x, In x ?l -> In x ?k -> False |- _ => solve [apply (D x); first [assumption | member]]
  | D : forall x, In x (?y :: _) -> In x ?k -> False |- _ => solve [apply (D y); member]
  | D : In ?x ?k -> False |- _ => solve [apply D; first [assumption | member]]
  end.

Section Memory.
Context {V : Type}.
Notation memory := (memory (nat * nat) V).
Notation B := (M (nat * nat) V).

Definition kind (m : memory) (p : nat) : option (option V) :=
  match object_at m p with Some (Sentinel _) => Some None | Some (Node _ v) => Some (Some v) | _ => None end.
Fixpoint over (k : list (nat * nat)) (r : nat) (d : option nat) : option nat :=
  match k with [] => d | (a, b) :: k => if r =? a then Some b else over k r d end.
(** Only links differ: some have new [next], some new [previous]. *)
Record relink (m m' : memory) (ns ps : list (nat * nat)) : Prop := {
  r_next : forall r, next_of m' r = over ns r (next_of m r);
  r_previous : forall r, previous_of m' r = over ps r (previous_of m r);
  r_kind : forall r, kind m' r = kind m r;
  r_object : forall r, ~ In r (map fst ns ++ map fst ps) -> object_at m' r = object_at m r;
  r_names : names m' = names m }.
Lemma relink_refl m : relink m m [] [].
Proof. split; auto. Qed.

Lemma kind_links (m : memory) p : kind m p <> None -> exists l, links p m = Returned l m /\ next_of m p = Some (snd l) /\ previous_of m p = Some (fst l).
Proof. unfold kind, links, next_of, previous_of. destruct (object_at m p) as [[l| |l v]|]; intros H; try congruence; eauto. Qed.
Lemma next_kind (m : memory) p q : next_of m p = Some q -> kind m p <> None.
Proof. unfold kind, next_of. destruct (object_at m p) as [[l| |l v]|]; congruence. Qed.
Lemma previous_kind (m : memory) p q : previous_of m p = Some q -> kind m p <> None.
Proof. unfold kind, previous_of. destruct (object_at m p) as [[l| |l v]|]; congruence. Qed.
Lemma run_next (m : memory) p q : next_of m p = Some q -> get_next p m = Returned q m.
Proof. intros H. destruct (kind_links m p (next_kind _ _ _ H)) as (l & Hl & Hn & _). unfold get_next, bind. rewrite Hl. unfold ret. congruence. Qed.
Lemma run_previous (m : memory) p q : previous_of m p = Some q -> get_previous p m = Returned q m.
Proof. intros H. destruct (kind_links m p (previous_kind _ _ _ H)) as (l & Hl & _ & Hn). unfold get_previous, bind. rewrite Hl. unfold ret. congruence. Qed.

Lemma run_set (m : memory) p l : kind m p <> None -> exists m', set_links p l m = Returned tt m' /\
  (forall r, object_at m' r = if r =? p then match object_at m p with Some (Node _ v) => Some (Node l v) | _ => Some (Sentinel l) end else object_at m r) /\ names m' = names m.
Proof.
  unfold kind, set_links. destruct (object_at m p) as [[k| |k v]|] eqn:E; intros H; try congruence.
  - eexists. split; [reflexivity|]. split; reflexivity.
  - eexists. split; [reflexivity|]. split; reflexivity.
Qed.
Lemma run_set_next (m0 m : memory) p q ns ps : relink m0 m ns ps -> kind m0 p <> None ->
  exists m', set_next p q m = Returned tt m' /\ relink m0 m' ((p, q) :: ns) ps.
Proof.
  intros R Hk. rewrite <- (r_kind _ _ _ _ R) in Hk. destruct (kind_links m p Hk) as (l & Hl & Hn & Hp).
  destruct (run_set m p (fst l, q) Hk) as (m' & Hs & Ho & Hnm). exists m'. unfold set_next, bind. rewrite Hl. split; [exact Hs|].
  unfold kind in Hk. split.
  - intros r. cbn [over]. unfold next_of. rewrite Ho. destruct (Nat.eqb_spec r p) as [->|Hne].
    + destruct (object_at m p) as [[k| |k v]|]; try congruence; reflexivity.
    + apply (r_next _ _ _ _ R).
  - intros r. rewrite <- (r_previous _ _ _ _ R r). unfold previous_of in *. rewrite Ho. destruct (Nat.eqb_spec r p) as [->|Hne]; [|reflexivity].
    destruct (object_at m p) as [[k| |k v]|]; try congruence; cbn; congruence.
  - intros r. rewrite <- (r_kind _ _ _ _ R r). unfold kind. rewrite Ho. destruct (Nat.eqb_spec r p) as [->|Hne]; [|reflexivity].
    destruct (object_at m p) as [[k| |k v]|]; try congruence; reflexivity.
  - intros r Hr. cbn in Hr. rewrite Ho. destruct (Nat.eqb_spec r p) as [->|Hne]; [exfalso; apply Hr; now left|]. apply (r_object _ _ _ _ R). tauto.
  - rewrite Hnm. apply (r_names _ _ _ _ R).
Qed.
Lemma run_set_previous (m0 m : memory) p q ns ps : relink m0 m ns ps -> kind m0 p <> None ->
  exists m', set_previous p q m = Returned tt m' /\ relink m0 m' ns ((p, q) :: ps).
Proof.
  intros R Hk. rewrite <- (r_kind _ _ _ _ R) in Hk. destruct (kind_links m p Hk) as (l & Hl & Hn & Hp).
  destruct (run_set m p (q, snd l) Hk) as (m' & Hs & Ho & Hnm). exists m'. unfold set_previous, bind. rewrite Hl. split; [exact Hs|].
  unfold kind in Hk. split.
  - intros r. rewrite <- (r_next _ _ _ _ R r). unfold next_of in *. rewrite Ho. destruct (Nat.eqb_spec r p) as [->|Hne]; [|reflexivity].
    destruct (object_at m p) as [[k| |k v]|]; try congruence; cbn; congruence.
  - intros r. cbn [over]. unfold previous_of. rewrite Ho. destruct (Nat.eqb_spec r p) as [->|Hne].
    + destruct (object_at m p) as [[k| |k v]|]; try congruence; reflexivity.
    + apply (r_previous _ _ _ _ R).
  - intros r. rewrite <- (r_kind _ _ _ _ R r). unfold kind. rewrite Ho. destruct (Nat.eqb_spec r p) as [->|Hne]; [|reflexivity].
    destruct (object_at m p) as [[k| |k v]|]; try congruence; reflexivity.
  - intros r Hr. rewrite map_cons, in_app_iff in Hr. cbn in Hr. rewrite Ho. destruct (Nat.eqb_spec r p) as [->|Hne]; [exfalso; apply Hr; right; now left|].
    apply (r_object _ _ _ _ R). rewrite in_app_iff. tauto.
  - rewrite Hnm. apply (r_names _ _ _ _ R).
Qed.

Lemma bind_returned {A C} (x : B A) (f : A -> B C) m a m' : x m = Returned a m' -> bind x f m = f a m'.
Proof. intros H. unfold bind. now rewrite H. Qed.
Lemma require_true {A} (f : unit -> B A) b m : b = true -> bind (require b) f m = f tt m.
Proof. intros ->. reflexivity. Qed.

Lemma unlink_ok (m0 m : memory) a b c ns ps : relink m0 m ns ps -> previous_of m b = Some a -> kind m0 a <> None -> kind m0 c <> None ->
  exists m', unlink_range b c m = Returned tt m' /\ relink m0 m' ((a, c) :: ns) ((c, a) :: ps).
Proof.
  intros R Hb Ha Hc. unfold unlink_range. rewrite (bind_returned _ _ _ _ _ (run_previous _ _ _ Hb)).
  destruct (run_set_next m0 m a c ns ps R Ha) as (m1 & H1 & R1). rewrite (bind_returned _ _ _ _ _ H1).
  exact (run_set_previous m0 m1 c a _ _ R1 Hc).
Qed.
Lemma link_ok (m0 m : memory) p b b' q ns ps : relink m0 m ns ps -> next_of m p = Some q -> previous_of m q = Some p -> kind m0 p <> None -> kind m0 q <> None ->
  kind m0 b <> None -> kind m0 b' <> None ->
  exists m', link_range p b b' q m = Returned tt m' /\ relink m0 m' ((b', q) :: (p, b) :: ns) ((q, b') :: (b, p) :: ps).
Proof.
  intros R Hn Hp Kp Kq Kb Kb'. unfold link_range. rewrite (bind_returned _ _ _ _ _ (run_next _ _ _ Hn)), require_true by apply Nat.eqb_refl.
  rewrite (bind_returned _ _ _ _ _ (run_previous _ _ _ Hp)), require_true by apply Nat.eqb_refl.
  destruct (run_set_next m0 m p b ns ps R Kp) as (m1 & H1 & R1). rewrite (bind_returned _ _ _ _ _ H1).
  destruct (run_set_previous m0 m1 b p _ _ R1 Kb) as (m2 & H2 & R2). rewrite (bind_returned _ _ _ _ _ H2).
  destruct (run_set_next m0 m2 b' q _ _ R2 Kb') as (m3 & H3 & R3). rewrite (bind_returned _ _ _ _ _ H3).
  exact (run_set_previous m0 m3 q b' _ _ R3 Kq).
Qed.

(** *** Chains of links *)
Lemma linked_cut (m : memory) X p q Y : linked m (X ++ p :: q :: Y) <-> linked m (X ++ [p]) /\ (next_of m p = Some q /\ previous_of m q = Some p) /\ linked m (q :: Y).
Proof.
  induction X as [|a X IH]; [cbn; tauto|]. cbn [app]. destruct X as [|a' X]; cbn [app] in *; cbn [linked] in *; tauto.
Qed.
Lemma linked_parts (m : memory) X Y : linked m (X ++ Y) -> linked m X /\ linked m Y.
Proof.
  destruct X as [|x X _] using rev_ind; [cbn; auto|]. destruct Y as [|y Y]; [rewrite app_nil_r; cbn; auto|].
  rewrite <- app_assoc. cbn [app]. intros H. apply linked_cut in H. tauto.
Qed.
Lemma linked_kind (m : memory) X p Y : linked m (X ++ p :: Y) -> X ++ Y <> [] -> kind m p <> None.
Proof.
  intros H Hne. destruct Y as [|y Y].
  - destruct X as [|x X] using rev_ind; [cbn in Hne; congruence|]. rewrite <- app_assoc in H. cbn [app] in H.
    apply linked_cut in H as (_ & (_ & H) & _). eapply previous_kind, H.
  - apply linked_cut in H as (_ & (H & _) & _). eapply next_kind, H.
Qed.
Lemma linked_frame (m m' : memory) X x : (forall r, In r X -> next_of m' r = next_of m r) -> (forall r, In r (tl (X ++ [x])) -> previous_of m' r = previous_of m r) ->
  linked m (X ++ [x]) -> linked m' (X ++ [x]).
Proof.
  induction X as [|a X IH]; intros Hn Hp H; [exact I|]. cbn [app tl] in *.
  destruct X as [|b X]; cbn [app] in *; cbn [linked] in *.
  - rewrite Hn, Hp by now left. exact H.
  - destruct H as (H1 & H2 & H3). rewrite Hn, Hp by now left. split; [exact H1|]. split; [exact H2|]. apply IH; [| |exact H3].
    + intros r Hr. apply Hn. now right.
    + intros r Hr. apply Hp. now right.
Qed.
Lemma over_none k r d : ~ In r (map fst k) -> over k r d = d.
Proof. induction k as [|(a, b) k IH]; cbn; [auto|]. intros H. destruct (Nat.eqb_spec r a) as [->|]; [tauto | auto]. Qed.
Lemma linked_relink (m m' : memory) ns ps X x : relink m m' ns ps -> linked m (X ++ [x]) -> (forall r, In r X -> ~ In r (map fst ns)) ->
  (forall r, In r (tl (X ++ [x])) -> ~ In r (map fst ps)) -> linked m' (X ++ [x]).
Proof.
  intros R H Hn Hp. eapply linked_frame; [| |exact H].
  - intros r Hr. rewrite (r_next _ _ _ _ R). apply over_none. auto.
  - intros r Hr. rewrite (r_previous _ _ _ _ R). apply over_none. auto.
Qed.
End Memory.
