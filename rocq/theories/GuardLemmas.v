(** * Proofs about scope guards *)

From Coq Require Import List Arith Bool ZArith Lia.
From Verif Require Import Guard SpecGuard.
Import ListNotations.

Lemma exec_meaning s : forall u, exec u s = meaning s.
Proof.
  induction s as [| | |a IHa b IHb|a IHa b IHb|d IHd a IHa|f IHf a IHa]; intros u; cbn [exec meaning]; auto.
  - rewrite IHa. destruct (meaning a) as [t []]; auto. now rewrite IHb.
  - rewrite IHa. destruct (meaning a) as [t []]; auto. now rewrite IHb.
  - rewrite IHa. destruct (meaning a) as [t e]. now rewrite IHd.
  - rewrite IHa. destruct (meaning a) as [t e]. unfold fail_destroy, fail_new. cbn [f_count].
    destruct e.
    + rewrite Z.eqb_refl. cbn. now rewrite app_nil_r.
    + destruct (Z.eqb_spec u (u + 1)); [lia|]. cbn [f_active]. now rewrite IHf.
    + rewrite Z.eqb_refl. reflexivity.
Qed.

(** The state agrees with the fate of [f]. *)
Definition count (f : nat) (l : list nat) : nat := count_occ Nat.eq_dec l f.
Definition agrees (f : nat) (w : world) (s : fate) (todo : list event) : Prop :=
  count f (calls w) = (match s with Ended => 1 | _ => 0 end) /\
  (forall g o, objects w g = Some o -> g_active o = true -> g_function o = f -> s = Guarded g) /\
  (forall g, s = Guarded g -> exists o, objects w g = Some o /\ g_active o = true /\ g_function o = f) /\
  (s <> Unborn -> ~ In f (functions todo)).

Lemma set_eq m k v : set m k v k = v.
Proof. unfold set. now rewrite Nat.eqb_refl. Qed.
Lemma set_ne m k v n : n <> k -> set m k v n = m n.
Proof. intros H. unfold set. destruct (Nat.eqb_spec n k); congruence. Qed.

Lemma count_app f a b : count f (a ++ b) = count f a + count f b.
Proof. apply count_occ_app. Qed.

Lemma step_agrees f w s e es w' :
  agrees f w s (e :: es) -> NoDup (functions (e :: es)) -> guard_step w e = Some w' ->
  agrees f w' (follow f s e) es.
Proof.
  intros (C & A1 & A2 & A3) N H.
  destruct e as [g f'|src dst|g|g]; cbn [guard_step] in H.
  - (* New *)
    destruct (objects w g) as [o|] eqn:E; [discriminate|]. injection H as <-.
    cbn [functions flat_map app] in *. inversion N as [|? ? NI N']; subst.
    destruct (Nat.eq_dec f' f) as [->|NE].
    + assert (s = Unborn) as ->.
      { destruct s; auto; exfalso; apply A3; try discriminate; now left. }
      cbn [follow]. rewrite Nat.eqb_refl. split; [exact C|]. cbn [objects]. split; [|split].
      * intros k o H1 H2 H3. destruct (Nat.eq_dec k g) as [->|]; [auto|].
        rewrite set_ne in H1 by auto. specialize (A1 _ _ H1 H2 H3). discriminate.
      * intros k K. injection K as <-. exists (guard_new f). now rewrite set_eq.
      * intros _. exact NI.
    + assert (follow f s (New g f') = s) as ->.
      { destruct s; cbn; auto. destruct (Nat.eqb_spec f' f); congruence. }
      split; [exact C|]. cbn [objects]. split; [|split].
      * intros k o H1 H2 H3. destruct (Nat.eq_dec k g) as [->|].
        { rewrite set_eq in H1. injection H1 as <-. cbn in H3. congruence. }
        rewrite set_ne in H1 by auto. eauto.
      * intros k K. destruct (A2 _ K) as (o & H1 & H2). exists o.
        destruct (Nat.eq_dec k g) as [->|]; [congruence|]. now rewrite set_ne.
      * intros K. specialize (A3 K). intros I. apply A3. now right.
  - (* Move *)
    destruct (objects w src) as [o|] eqn:E1; [|discriminate].
    destruct (objects w dst) as [|] eqn:E2; [discriminate|]. cbn [guard_move] in H. injection H as <-.
    assert (src <> dst) as NE by congruence. cbn [functions flat_map app] in *.
    assert (forall k k', s = Guarded k -> objects w k' = Some o -> g_active o = true -> g_function o = f -> k = k') as U.
    { intros k k' K O1 O2 O3. specialize (A1 _ _ O1 O2 O3). congruence. }
    split; [|split; [|split]]; cbn [objects calls].
    + destruct s; cbn; auto. destruct (src =? g); auto.
    + intros k p H1 H2 H3. destruct (Nat.eq_dec k dst) as [->|].
      * rewrite set_eq in H1. injection H1 as <-. cbn in H2, H3.
        specialize (A1 _ _ E1 H2 H3). subst s. cbn. now rewrite Nat.eqb_refl.
      * rewrite set_ne in H1 by auto. destruct (Nat.eq_dec k src) as [->|].
        { rewrite set_eq in H1. injection H1 as <-. discriminate. }
        rewrite set_ne in H1 by auto. specialize (A1 _ _ H1 H2 H3). subst s. cbn.
        destruct (Nat.eqb_spec src k); congruence.
    + intros k K. destruct s as [|g| |]; cbn in K; try discriminate.
      destruct (A2 g eq_refl) as (p & P1 & P2 & P3).
      destruct (Nat.eqb_spec src g) as [->|].
      * injection K as <-. rewrite E1 in P1. injection P1 as ->.
        exists (Guard (g_function p) (g_active p)). rewrite set_eq. auto.
      * injection K as <-. exists p. rewrite !set_ne by congruence. auto.
    + intros K. apply A3. intros ->. now cbn in K.
  - (* Dismiss *)
    destruct (objects w g) as [o|] eqn:E1; [|discriminate]. injection H as <-. cbn [functions flat_map app] in *.
    split; [|split; [|split]]; cbn [objects calls].
    + destruct s; cbn; auto. destruct (g =? g0); auto.
    + intros k p H1 H2 H3. destruct (Nat.eq_dec k g) as [->|].
      * rewrite set_eq in H1. injection H1 as <-. discriminate.
      * rewrite set_ne in H1 by auto. specialize (A1 _ _ H1 H2 H3). subst s. cbn.
        destruct (Nat.eqb_spec g k); congruence.
    + intros k K. destruct s as [|g'| |]; cbn in K; try discriminate.
      destruct (Nat.eqb_spec g g') as [->|]; [discriminate|]. injection K as <-.
      destruct (A2 g' eq_refl) as (p & P). exists p. rewrite set_ne by auto. auto.
    + intros K. apply A3. intros ->. now cbn in K.
  - (* Destroy *)
    destruct (objects w g) as [o|] eqn:E1; [|discriminate]. injection H as <-. cbn [functions flat_map app] in *.
    split; [|split; [|split]]; cbn [objects calls].
    + rewrite count_app. unfold guard_destroy. destruct (g_active o) eqn:Ac.
      * destruct (Nat.eq_dec (g_function o) f) as [Ef|Nf].
        -- pose proof (A1 _ _ E1 Ac Ef) as ->. cbn [follow]. rewrite Nat.eqb_refl.
           rewrite C, Ef. unfold count. cbn. destruct (Nat.eq_dec f f); congruence.
        -- unfold count at 2. cbn. destruct (Nat.eq_dec (g_function o) f); [congruence|].
           rewrite C, Nat.add_0_r. destruct s as [|g'| |]; auto. cbn.
           destruct (Nat.eqb_spec g g') as [->|]; [|auto].
           destruct (A2 _ eq_refl) as (p & P1 & P2 & P3). congruence.
      * unfold count at 2. cbn. rewrite C, Nat.add_0_r. destruct s as [|g'| |]; auto. cbn.
        destruct (Nat.eqb_spec g g') as [->|]; [|auto].
        destruct (A2 _ eq_refl) as (p & P1 & P2 & P3). congruence.
    + intros k p H1 H2 H3. destruct (Nat.eq_dec k g) as [->|].
      * rewrite set_eq in H1. discriminate.
      * rewrite set_ne in H1 by auto. specialize (A1 _ _ H1 H2 H3). subst s. cbn.
        destruct (Nat.eqb_spec g k); congruence.
    + intros k K. destruct s as [|g'| |]; cbn in K; try discriminate.
      destruct (Nat.eqb_spec g g') as [->|]; [discriminate|]. injection K as <-.
      destruct (A2 g' eq_refl) as (p & P). exists p. rewrite set_ne by auto. auto.
    + intros K. apply A3. intros ->. now cbn in K.
Qed.

Lemma NoDup_tail {A} (a b : list A) : NoDup (a ++ b) -> NoDup b.
Proof. induction a; auto. intros H. inversion H; auto. Qed.

Lemma run_agrees f es : forall w s w',
  agrees f w s es -> NoDup (functions es) -> guard_run w es = Some w' ->
  agrees f w' (fold_left (follow f) es s) [].
Proof.
  induction es as [|e es IH]; intros w s w' A N H; cbn [guard_run fold_left] in *.
  - injection H as <-. exact A.
  - destruct (guard_step w e) as [w1|] eqn:E; [|discriminate].
    apply (IH w1 (follow f s e) w'); auto.
    + eapply step_agrees; eauto.
    + unfold functions in N. cbn [flat_map] in N. now apply NoDup_tail in N.
Qed.

Lemma history_exact es w f : NoDup (functions es) -> guard_run empty_world es = Some w ->
  count_occ Nat.eq_dec (calls w) f = (match fate_of f es with Ended => 1 | _ => 0 end) /\
  (forall g, fate_of f es = Guarded g -> exists o, objects w g = Some o).
Proof.
  intros N H. destruct (run_agrees f es empty_world Unborn w) as (C & A1 & A2 & A3); auto.
  - split; [reflexivity|]. split; [discriminate|]. split; [discriminate|]. congruence.
  - split; [exact C|]. intros g K. destruct (A2 g K) as (o & O & _). eauto.
Qed.

Lemma unborn_spec f es : forall s, In f (functions es) -> fold_left (follow f) es s <> Unborn.
Proof.
  assert (forall l s, s <> Unborn -> fold_left (follow f) l s <> Unborn) as K.
  { induction l as [|e l IH]; intros s H; cbn [fold_left]; [auto|]. apply IH.
    destruct s; cbn; try congruence. destruct e; cbn; try congruence; destruct (_ =? _); congruence. }
  induction es as [|e es IH]; intros s H; cbn [fold_left]; [destruct H|].
  unfold functions in H. cbn [flat_map] in H. apply in_app_or in H. destruct H as [H|H]; [|now apply IH].
  destruct e; cbn in H; try tauto. destruct H as [->|[]].
  apply K. destruct s; cbn; try congruence. rewrite Nat.eqb_refl. congruence.
Qed.

Lemma history_complete es w f : NoDup (functions es) -> guard_run empty_world es = Some w ->
  (forall g, objects w g = None) -> In f (functions es) ->
  (count_occ Nat.eq_dec (calls w) f = 1 /\ fate_of f es = Ended) \/
  (count_occ Nat.eq_dec (calls w) f = 0 /\ fate_of f es = Released).
Proof.
  intros N H D I. destruct (history_exact es w f N H) as [C G].
  pose proof (unborn_spec f es Unborn I) as U. fold (fate_of f es) in U.
  destruct (fate_of f es) as [|g| |]; [congruence| | |]; auto.
  destruct (G g eq_refl) as [o O]. rewrite D in O. discriminate.
Qed.

Lemma history_calls es w f : NoDup (functions es) -> guard_run empty_world es = Some w ->
  count_occ Nat.eq_dec (calls w) f = (match fate_of f es with Ended => 1 | _ => 0 end).
Proof. intros N H. now apply history_exact. Qed.
