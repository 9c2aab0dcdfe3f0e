(** * tv::optional: the properties, for each storage *)

From Coq Require Import List Arith ZArith Bool Lia.
From Verif Require Import Mem MemLemmas SpecVec Variant SpecVariant VariantLemmas VariantProofs Optional SpecOptional OptionalLemmas.
Import ListNotations.

(** ** In place *)
Section InPlace.
Context {B : Type} (moved : B -> B) (eqb : B -> B -> bool).
Context (nc nm nca nma : bool).
Local Notation V := (rep B).
Local Notation world := (world V).
Local Notation memory := (@memory V).
Local Notation st := (in_place moved nc nm nca nma).

Lemma none_ends_p (w : world) :
  unused_names w -> ends (opt_none st tt w) (fun _ p w' => is_optional_p p None (heap w) w') (fun _ _ => False).
Proof.
  intros Hu. pose proof (memory_at (~ someone_throws w) w Hu (fun q => q)) as H.
  change (wp (opt_none st) tt w (fun _ p w' => is_optional_p p None (heap w) w') (fun _ _ => False)).
  unfold opt_none, in_place, s_default. apply wp_bind. eapply wp_new_block; eauto. cbn [repeat].
  intros w1 p Hp H1. apply wp_bind. eapply wp_uninit; eauto. { apply upd_same. } { discriminate. }
  intros w2 H2. apply wp_ret. eapply at_optional; [|exact Hp]. eapply at_ext; [exact H2|]. apply upd_upd.
Qed.
Lemma some_ends_p c b (w : world) :
  unused_names w -> makes_value (heap w) c b ->
  ends (opt_some st c tt w) (fun _ p w' => is_optional_p p (Some b) (heap w) w')
    (fun _ w' => same (heap w') (heap w) /\ unused_names w' /\ someone_throws w).
Proof.
  intros Hu Hm. pose proof (memory_at (~ someone_throws w) w Hu (fun q => q)) as H.
  change (wp (opt_some st c) tt w (fun _ p w' => is_optional_p p (Some b) (heap w) w')
    (fun _ w' => same (heap w') (heap w) /\ unused_names w' /\ someone_throws w)).
  unfold opt_some, in_place, s_lazy. apply wp_bind. eapply wp_new_block; eauto. cbn [repeat].
  intros w1 p Hp H1. apply wp_bind, wp_rethrow. eapply wp_construct_over; eauto. { apply upd_same. } { discriminate. }
  { apply makes_upd; eauto. }
  - intros w2 H2. apply wp_ret. eapply at_optional; [|exact Hp]. eapply at_ext; [exact H2|]. apply upd_upd.
  - intros w2 Hq _ H2. eapply wp_release; eauto. { apply upd_same. } { discriminate. }
    intros w3 H3. eapply at_ext in H3; [|eapply eqh_trans; [apply upd_upd|now apply upd_id]].
    destruct (at_same _ _ _ _ H H3). split; [|split]; auto. now apply throws_dec.
  - intros w2 Hq _ H2. eapply wp_release; eauto. { apply upd_same. } { discriminate. }
    intros w3 H3. eapply at_ext in H3; [|eapply eqh_trans; [apply upd_upd|eapply eqh_trans; [apply upd_upd|now apply upd_id]]].
    destruct (at_same _ _ _ _ H H3). split; [|split]; auto. now apply throws_dec.
Qed.
Lemma bool_ends_p p x (others : memory) (w : world) :
  is_optional_p p x others w -> opt_bool st p w = Ret p (match x with None => false | Some _ => true end) w.
Proof.
  intros ((H1 & H2 & H3) & Hu). unfold opt_bool, in_place, s_initialized, bind, get, initialized_at, bind, load, find_cell.
  rewrite H2. destruct x; reflexivity.
Qed.
Lemma deref_ends_p p x (others : memory) (w : world) :
  is_optional_p p x others w ->
  opt_deref st p w = match x with None => Bad Broken | Some b => Ret p b w end.
Proof.
  intros H. unfold opt_deref. unfold bind at 1. rewrite (bool_ends_p _ _ _ _ H). destruct x as [b|]; [|reflexivity].
  destruct H as ((H1 & H2 & H3) & Hu). unfold bind, require, ret. unfold in_place, s_get, bind, get, the_value, bind, load, find_cell.
  rewrite H2. reflexivity.
Qed.
Lemma assign_none_ends_p p x (others : memory) (w : world) :
  is_optional_p p x others w ->
  ends (opt_assign_none st p w) (fun p' _ w' => p' = p /\ is_optional_p p None others w') (fun _ _ => False).
Proof.
  intros Ho. pose proof (optional_at (~ someone_throws w) _ _ _ _ Ho (fun q => q)) as H.
  change (wp (opt_assign_none st) p w (fun p' _ w' => p' = p /\ is_optional_p p None others w') (fun _ _ => False)).
  unfold opt_assign_none, in_place, s_uninitialize. eapply wp_uninitialize; eauto. { apply upd_same. }
  intros w1 H1. split; [reflexivity|]. eapply at_optional; [|apply Ho]. eapply at_ext; [exact H1|]. apply upd_upd.
Qed.
(** The value emplaced must not come from the optional itself: it is gone by then. *)
Lemma emplace_ends_p p x c b (others : memory) (w : world) :
  is_optional_p p x others w -> makes_value others c b ->
  ends (opt_emplace st c p w)
    (fun p' _ w' => p' = p /\ is_optional_p p (Some b) others w')
    (fun p' w' => p' = p /\ someone_throws w /\ ~ cannot_throw_at_all c /\
       (is_optional_p p None others w' \/ (wrecked p others w' /\ ~ cannot_throw_during c))).
Proof.
  intros Ho Hm. pose proof (optional_at (~ someone_throws w) _ _ _ _ Ho (fun q => q)) as H.
  change (wp (opt_emplace st c) p w
    (fun p' _ w' => p' = p /\ is_optional_p p (Some b) others w')
    (fun p' w' => p' = p /\ someone_throws w /\ ~ cannot_throw_at_all c /\
       (is_optional_p p None others w' \/ (wrecked p others w' /\ ~ cannot_throw_during c)))).
  unfold opt_emplace, in_place, s_initialize, initialize. apply wp_bind. eapply wp_uninitialize; eauto. { apply upd_same. }
  intros w1 H1. eapply at_ext in H1; [|apply upd_upd]. apply wp_bind, wp_get.
  eapply wp_construct_over; eauto. { apply upd_same. } { discriminate. } { apply makes_upd; eauto. apply Ho. }
  - intros w2 H2. split; [reflexivity|]. eapply at_optional; [|apply Ho]. eapply at_ext; [exact H2|]. apply upd_upd.
  - intros w2 Hq Hc H2. split; [reflexivity|]. split; [now apply throws_dec|]. split.
    { unfold cannot_throw_at_all. destruct c; try contradiction. intuition congruence. }
    left. eapply at_optional; [exact H2|apply Ho].
  - intros w2 Hq Hc H2. split; [reflexivity|]. split; [now apply throws_dec|]. split. { unfold cannot_throw_at_all. tauto. }
    right. split; [|exact Hc]. eapply at_wrecked; [|apply Ho]. eapply at_ext; [exact H2|]. apply upd_upd.
Qed.
Lemma assign_ends_p p x c b (others : memory) (w : world) :
  is_optional_p p x others w -> makes_value others c b ->
  ends (opt_assign st c p w)
    (fun p' _ w' => p' = p /\ is_optional_p p (Some b) others w')
    (fun p' w' => p' = p /\ someone_throws w /\
       (is_optional_p p x others w' \/ (x = None /\ wrecked p others w' /\ ~ cannot_throw_during c))).
Proof.
  intros Ho Hm. unfold opt_assign. unfold bind at 1. rewrite (bool_ends_p _ _ _ _ Ho). destruct x as [b0|].
  - pose proof (optional_at (~ someone_throws w) _ _ _ _ Ho (fun q => q)) as H.
    change (wp (s_set st c) p w
      (fun p' _ w' => p' = p /\ is_optional_p p (Some b) others w')
      (fun p' w' => p' = p /\ someone_throws w /\
        (is_optional_p p (Some b0) others w' \/ (Some b0 = None /\ wrecked p others w' /\ ~ cannot_throw_during c)))).
    unfold in_place, s_set. eapply wp_set_value; eauto. { apply upd_same. } { apply makes_upd; eauto. apply Ho. }
    + intros w2 H2. split; [reflexivity|]. eapply at_optional; [|apply Ho]. eapply at_ext; [exact H2|]. apply upd_upd.
    + intros w2 Hq Hc H2. split; [reflexivity|]. split; [now apply throws_dec|].
      left. eapply at_optional; [exact H2|apply Ho].
  - pose proof (emplace_ends_p p None c b others w Ho Hm) as H. unfold ends in *. destruct (opt_emplace st c p w); auto.
    intuition.
Qed.
Lemma destruct_ends_p p x (others : memory) (w : world) :
  is_optional_p p x others w ->
  ends (opt_destruct st p w) (fun _ _ w' => same (heap w') others /\ unused_names w') (fun _ _ => False).
Proof.
  intros Ho. pose proof (optional_at (~ someone_throws w) _ _ _ _ Ho (fun q => q)) as H.
  assert (Hn : others p = None) by apply Ho.
  change (wp (opt_destruct st) p w (fun _ _ w' => same (heap w') others /\ unused_names w') (fun _ _ => False)).
  unfold opt_destruct, in_place, s_destruct. apply wp_bind, wp_get. apply wp_bind. eapply wp_initialized; eauto. { apply upd_same. }
  apply wp_bind. destruct x as [b|].
  - eapply wp_destroy_value; eauto. { apply upd_same. } intros w1 H1. eapply wp_release; eauto. { apply upd_same. } { discriminate. }
    intros w2 H2. eapply at_memory. eapply at_ext; [exact H2|]. eapply eqh_trans; [apply upd_upd|].
    eapply eqh_trans; [apply upd_upd|]. now apply upd_id.
  - apply wp_ret. eapply wp_release; eauto. { apply upd_same. } { discriminate. }
    intros w2 H2. eapply at_memory. eapply at_ext; [exact H2|]. eapply eqh_trans; [apply upd_upd|]. now apply upd_id.
Qed.
(** The destructor of a wrecked optional reads a representation that is not there. *)
Lemma destruct_wrecked p (others : memory) (w : world) : wrecked p others w -> opt_destruct st p w = Bad Dead.
Proof.
  intros (H1 & H2 & H3). unfold opt_destruct, in_place, s_destruct, bind, get, initialized_at, bind, load, find_cell.
  rewrite H2. reflexivity.
Qed.

(** Two optionals in memory. *)
Lemma two_intro p x q y (others : memory) (w : world) quiet :
  at_ quiet w (upd (upd others p (Some [Some (representation x)])) q (Some [Some (representation y)])) ->
  p <> q -> others p = None -> others q = None -> two_optionals_p p x q y others w.
Proof.
  intros (H1 & H2 & _) Hne Hp Hq. exists (upd others p (Some [Some (representation x)])). split; [|split].
  - split; [exact Hp|]. split; [apply upd_same|]. intros z Hz. now apply upd_other.
  - split; [now rewrite upd_other by congruence|]. rewrite H1. split; [apply upd_same|].
    intros z Hz. rewrite H1. now apply upd_other.
  - intros z Hz. rewrite H1. auto.
Qed.
Lemma copy_ends_p q y (others : memory) (w : world) :
  is_optional_p q y others w ->
  ends (opt_copy st q tt w)
    (fun _ p w' => two_optionals_p q y p y others w')
    (fun _ w' => same (heap w') (heap w) /\ unused_names w' /\ someone_throws w /\ nc = false /\ y <> None).
Proof.
  intros Ho. pose proof (optional_at (~ someone_throws w) _ _ _ _ Ho (fun q => q)) as H.
  assert (Hn : others q = None) by apply Ho.
  change (wp (opt_copy st q) tt w
    (fun _ p w' => two_optionals_p q y p y others w')
    (fun _ w' => same (heap w') (heap w) /\ unused_names w' /\ someone_throws w /\ nc = false /\ y <> None)).
  unfold opt_copy, in_place, s_copy_construct. apply wp_noexcept_if. unfold construct_from. apply wp_bind.
  eapply wp_new_block; eauto. cbn [repeat]. intros w1 p Hp H1.
  assert (Hpq : p <> q). { intros ->. now rewrite upd_same in Hp. }
  assert (Hop : others p = None). { now rewrite upd_other in Hp. }
  apply wp_bind, wp_rethrow. apply wp_bind. eapply wp_initialized; eauto. { rewrite upd_other by congruence. apply upd_same. }
  destruct y as [b|].
  - eapply (wp_construct_over _ _ _ (CopyAt nc q) b); eauto. { apply upd_same. } { discriminate. }
    { cbn. rewrite upd_other by congruence. apply upd_same. }
    + intros w2 H2. apply wp_ret. eapply two_intro; eauto. eapply at_ext; [exact H2|]. apply upd_upd.
    + contradiction.
    + intros w2 Hq Hc H2. eapply wp_release; eauto. { apply upd_same. } { discriminate. }
      intros w3 H3. eapply at_ext in H3; [|eapply eqh_trans; [apply upd_upd|eapply eqh_trans; [apply upd_upd|now apply upd_id]]].
      destruct (at_same _ _ _ _ H H3). cbn in Hc. assert (nc = false) by (destruct nc; congruence).
      split; auto. split; auto. split; auto. split; [now apply throws_dec|]. split; auto. discriminate.
  - eapply wp_uninit; eauto. { apply upd_same. } { discriminate. }
    intros w2 H2. apply wp_ret. eapply two_intro; eauto. eapply at_ext; [exact H2|]. apply upd_upd.
Qed.
Lemma move_ends_p q y (others : memory) (w : world) :
  is_optional_p q y others w ->
  ends (opt_move st q tt w)
    (fun _ p w' => two_optionals_p q (option_map moved y) p y others w')
    (fun _ w' => same (heap w') (heap w) /\ unused_names w' /\ someone_throws w /\ nm = false /\ y <> None).
Proof.
  intros Ho. pose proof (optional_at (~ someone_throws w) _ _ _ _ Ho (fun q => q)) as H.
  assert (Hn : others q = None) by apply Ho.
  change (wp (opt_move st q) tt w
    (fun _ p w' => two_optionals_p q (option_map moved y) p y others w')
    (fun _ w' => same (heap w') (heap w) /\ unused_names w' /\ someone_throws w /\ nm = false /\ y <> None)).
  unfold opt_move, in_place, s_move_construct. apply wp_noexcept_if. unfold construct_from. apply wp_bind.
  eapply wp_new_block; eauto. cbn [repeat]. intros w1 p Hp H1.
  assert (Hpq : p <> q). { intros ->. now rewrite upd_same in Hp. }
  assert (Hop : others p = None). { now rewrite upd_other in Hp. }
  apply wp_bind, wp_rethrow. apply wp_bind. eapply wp_initialized; eauto. { rewrite upd_other by congruence. apply upd_same. }
  destruct y as [b|].
  - eapply (wp_move_over _ _ p nm q b); eauto. { apply upd_same. } { discriminate. }
    { rewrite upd_other by congruence. apply upd_same. }
    + intros w2 H2. apply wp_ret. eapply two_intro; eauto. eapply at_ext; [exact H2|].
      intros z. unfold upd. destruct (z =? p); auto. destruct (z =? q); auto.
    + intros w2 Hq Hc H2. eapply wp_release; eauto. { apply upd_same. } { discriminate. }
      intros w3 H3. eapply at_ext in H3; [|eapply eqh_trans; [apply upd_upd|eapply eqh_trans; [apply upd_upd|now apply upd_id]]].
      destruct (at_same _ _ _ _ H H3).
      split; auto. split; auto. split; auto. split; [now apply throws_dec|]. split; auto. discriminate.
  - eapply wp_uninit; eauto. { apply upd_same. } { discriminate. }
    intros w2 H2. apply wp_ret. eapply two_intro; eauto. eapply at_ext; [exact H2|]. apply upd_upd.
Qed.

(** Assignment from another optional, which is in the rest of the memory. *)
Lemma copy_assign_ends_p p x q y (others : memory) (w : world) :
  is_optional_p p x others w -> others q = Some [Some (representation y)] ->
  ends (opt_copy_assign st q p w)
    (fun p' _ w' => p' = p /\ is_optional_p p y others w')
    (fun p' w' => p' = p /\ someone_throws w /\
       ((is_optional_p p x others w' /\ nca = false) \/ (x = None /\ wrecked p others w' /\ nc = false))).
Proof.
  intros Ho Hq. pose proof (optional_at (~ someone_throws w) _ _ _ _ Ho (fun q => q)) as H.
  assert (Hn : others p = None) by apply Ho. assert (Hne : q <> p) by congruence.
  change (wp (opt_copy_assign st q) p w
    (fun p' _ w' => p' = p /\ is_optional_p p y others w')
    (fun p' w' => p' = p /\ someone_throws w /\
       ((is_optional_p p x others w' /\ nca = false) \/ (x = None /\ wrecked p others w' /\ nc = false)))).
  unfold opt_copy_assign, in_place, s_copy_assign. apply wp_noexcept_if. unfold assign_from.
  apply wp_bind, wp_get. apply wp_bind. eapply wp_initialized; eauto. { rewrite upd_other by congruence. exact Hq. }
  destruct y as [b|]; cbn [negb].
  - apply wp_bind. eapply wp_initialized; eauto. { apply upd_same. } destruct x as [b0|]; cbn [negb].
    + eapply (wp_set_value _ _ _ _ _ _ (CopyAt nc q) b); eauto. { apply upd_same. } { cbn. rewrite upd_other by congruence. exact Hq. }
      * intros w2 H2. split; [reflexivity|]. eapply at_optional; [|exact Hn]. eapply at_ext; [exact H2|]. apply upd_upd.
      * intros w2 Hqq Hc H2. split. { rewrite Hc. apply andb_false_r. } split; [reflexivity|]. split; [now apply throws_dec|].
        left. split; [|exact Hc]. eapply at_optional; [exact H2|exact Hn].
    + eapply (wp_construct_over _ _ _ (CopyAt nc q) b); eauto. { apply upd_same. } { discriminate. }
      { cbn. rewrite upd_other by congruence. exact Hq. }
      * intros w2 H2. split; [reflexivity|]. eapply at_optional; [|exact Hn]. eapply at_ext; [exact H2|]. apply upd_upd.
      * contradiction.
      * intros w2 Hqq Hc H2. cbn in Hc. assert (nc = false) by (destruct nc; congruence).
        split. { subst nc. reflexivity. } split; [reflexivity|]. split; [now apply throws_dec|].
        right. split; [reflexivity|]. split; [|assumption]. eapply at_wrecked; [|exact Hn]. eapply at_ext; [exact H2|]. apply upd_upd.
  - eapply wp_uninitialize; eauto. { apply upd_same. } intros w2 H2. split; [reflexivity|]. eapply at_optional; [|exact Hn].
    eapply at_ext; [exact H2|]. apply upd_upd.
Qed.
Lemma move_assign_ends_p p x q y (others : memory) (w : world) :
  is_optional_p p x others w -> others q = Some [Some (representation y)] ->
  ends (opt_move_assign st q p w)
    (fun p' _ w' => p' = p /\ is_optional_p p y (upd others q (Some [Some (representation (option_map moved y))])) w')
    (fun p' w' => p' = p /\ someone_throws w /\
       ((is_optional_p p x others w' /\ nma = false) \/ (x = None /\ wrecked p others w' /\ nm = false))).
Proof.
  intros Ho Hq. pose proof (optional_at (~ someone_throws w) _ _ _ _ Ho (fun q => q)) as H.
  assert (Hn : others p = None) by apply Ho. assert (Hne : q <> p) by congruence.
  assert (Hn' : forall z, upd others q z p = None). { intros z. now rewrite upd_other by congruence. }
  change (wp (opt_move_assign st q) p w
    (fun p' _ w' => p' = p /\ is_optional_p p y (upd others q (Some [Some (representation (option_map moved y))])) w')
    (fun p' w' => p' = p /\ someone_throws w /\
       ((is_optional_p p x others w' /\ nma = false) \/ (x = None /\ wrecked p others w' /\ nm = false)))).
  unfold opt_move_assign, in_place, s_move_assign. apply wp_noexcept_if. unfold assign_from.
  apply wp_bind, wp_get. apply wp_bind. eapply wp_initialized; eauto. { rewrite upd_other by congruence. exact Hq. }
  destruct y as [b|]; cbn [negb].
  - apply wp_bind. eapply wp_initialized; eauto. { apply upd_same. } destruct x as [b0|]; cbn [negb].
    + eapply (wp_move_value _ _ _ _ p b0 nm q b); eauto. { apply upd_same. } { rewrite upd_other by congruence. exact Hq. }
      * intros w2 H2. split; [reflexivity|]. eapply at_optional; [|apply Hn']. eapply at_ext; [exact H2|].
        intros z. unfold upd. destruct (z =? p); auto.
      * intros w2 Hqq Hc H2. split. { rewrite Hc. apply andb_false_r. } split; [reflexivity|]. split; [now apply throws_dec|].
        left. split; [|exact Hc]. eapply at_optional; [exact H2|exact Hn].
    + eapply (wp_move_over _ _ p nm q b); eauto. { apply upd_same. } { discriminate. }
      { rewrite upd_other by congruence. exact Hq. }
      * intros w2 H2. split; [reflexivity|]. eapply at_optional; [|apply Hn']. eapply at_ext; [exact H2|].
        intros z. unfold upd. destruct (z =? p); auto.
      * intros w2 Hqq Hc H2.
        split. { rewrite Hc. reflexivity. } split; [reflexivity|]. split; [now apply throws_dec|].
        right. split; [reflexivity|]. split; [|assumption]. eapply at_wrecked; [|exact Hn]. eapply at_ext; [exact H2|]. apply upd_upd.
  - eapply wp_uninitialize; eauto. { apply upd_same. } intros w2 H2. split; [reflexivity|]. eapply at_optional; [|apply Hn'].
    eapply at_ext; [exact H2|]. intros z. unfold upd. destruct (z =? p); auto. destruct (z =? q) eqn:E; auto.
    apply Nat.eqb_eq in E. now subst.
Qed.
Lemma equal_ends_p p x q y (others : memory) (w : world) :
  two_optionals_p p x q y others w ->
  opt_equal st eqb p q tt w = Ret tt (match x, y with Some a, Some b => eqb a b | None, None => true | _, _ => false end) w.
Proof.
  intros (mid & (H1 & H2 & H3) & (G1 & G2 & G3) & Hu).
  assert (Hp : is_optional_p q y mid w) by (split; [split; [exact G1|split; [exact G2|exact G3]]|exact Hu]).
  assert (Hne : p <> q) by congruence.
  assert (Ho : is_optional_p p x (fun b => if b =? p then None else heap w b) w).
  { split; [split; [|split]|exact Hu]. - now rewrite Nat.eqb_refl. - now rewrite (G3 p).
    - intros z Hz. apply Nat.eqb_neq in Hz. now rewrite Hz. }
  pose proof (bool_ends_p _ _ _ _ Hp) as B1. pose proof (bool_ends_p _ _ _ _ Ho) as B2.
  pose proof (deref_ends_p _ _ _ _ Hp) as D1. pose proof (deref_ends_p _ _ _ _ Ho) as D2.
  unfold opt_equal. destruct x as [a|]; destruct y as [b|]; unfold bind, ret;
    repeat (rewrite ?B1, ?B2, ?D1, ?D2; cbn [andb Bool.eqb]); reflexivity.
Qed.
End InPlace.

(** ** In a variant *)
Section InVariant.
Context {B : Type} (moved : B -> B) (eqb : B -> B -> bool).
Context (nc nm nca nma : bool).
Local Notation A := (option B).
Local Notation V := (nat * A)%type.
Local Notation world := (world V).
Local Notation memory := (@memory V).
Local Notation st := (in_variant moved nc nm nca nma eqb).
Local Notation T := (none_or_value nc nm nca nma eqb).
Definition number (x : option B) : nat := match x with None => 0 | Some _ => 1 end.

Lemma optional_v_iff o x (others : memory) (w : world) : is_optional_v o x others w <-> holds 2 o (number x) x others w.
Proof. destruct x; reflexivity. Qed.

Lemma none_ends_v (w : world) :
  unused_names w -> ends (opt_none st tt w) (fun _ o w' => is_optional_v o None (heap w) w') (fun _ _ => False).
Proof.
  intros Hu. pose proof (construct_ends (moved_alternative moved) T 0 (Make true None) None w Hu eq_refl ltac:(cbn; lia)) as H.
  unfold ends in *. unfold opt_none, in_variant, s_default. destruct (construct _ _ _ _ _); auto.
  destruct H as (_ & _ & _ & H). now apply H.
Qed.
Lemma some_ends_v c b (w : world) :
  unused_names w -> gives (heap w) c (Some b) ->
  ends (opt_some st c tt w) (fun _ o w' => is_optional_v o (Some b) (heap w) w')
    (fun _ w' => same (heap w') (heap w) /\ unused_names w' /\ someone_throws w /\ ~ cannot_throw c).
Proof. intros Hu Hg. exact (construct_ends (moved_alternative moved) T 1 c (Some b) w Hu Hg ltac:(cbn; lia)). Qed.
Lemma bool_ends_v o x (others : memory) (w : world) :
  is_optional_v o x others w -> opt_bool st o w = Ret o (match x with None => false | Some _ => true end) w.
Proof.
  intros H. apply optional_v_iff in H. destruct H as ((H & _) & _).
  unfold opt_bool, in_variant, s_initialized, bind, index, bind, get, ret. rewrite H. destruct x; reflexivity.
Qed.
Lemma deref_ends_v o x (others : memory) (w : world) :
  is_optional_v o x others w ->
  opt_deref st o w = match x with None => Bad Broken | Some b => Ret o b w end.
Proof.
  intros H. unfold opt_deref. unfold bind at 1. rewrite (bool_ends_v _ _ _ _ H). destruct x as [b|]; [|reflexivity].
  unfold bind, require, ret. unfold in_variant, s_get, value_of, bind.
  apply optional_v_iff in H. rewrite (subscript_ends T _ _ _ _ 1 _ H). reflexivity.
Qed.
Lemma assign_none_ends_v o x (others : memory) (w : world) :
  is_optional_v o x others w ->
  ends (opt_assign_none st o w) (fun o' _ w' => v_at o' = v_at o /\ is_optional_v o' None others w') (fun _ _ => False).
Proof.
  intros H. apply optional_v_iff in H.
  pose proof (emplace_ends (moved_alternative moved) T o _ _ others 0 (Make true None) None w H ltac:(cbn; lia) (or_introl eq_refl)) as He.
  unfold opt_assign_none, in_variant, s_uninitialize, bind. unfold ends in *. destruct (emplace _ _ _ _ _ _); auto.
  - destruct He as (_ & He). exact He.
  - destruct He as (_ & _ & He). now apply He.
Qed.
Lemma emplace_ends_v o x c b (others : memory) (w : world) :
  is_optional_v o x others w -> gives others c (Some b) \/ (~ cannot_throw c /\ gives (heap w) c (Some b)) ->
  ends (opt_emplace st c o w)
    (fun o' _ w' => v_at o' = v_at o /\ is_optional_v o' (Some b) others w')
    (fun o' w' => untouched o o' w w' /\ someone_throws w /\ ~ cannot_throw c).
Proof.
  intros H Hg. apply optional_v_iff in H.
  pose proof (emplace_ends (moved_alternative moved) T o _ _ others 1 c (Some b) w H ltac:(cbn; lia) Hg) as He.
  unfold opt_emplace, in_variant, s_initialize, bind. unfold ends in *. destruct (emplace _ _ _ _ _ _); auto.
  destruct He as (_ & He). exact He.
Qed.
Lemma assign_ends_v o x c b (others : memory) (w : world) :
  is_optional_v o x others w -> gives others c (Some b) ->
  ends (opt_assign st c o w)
    (fun o' _ w' => v_at o' = v_at o /\ is_optional_v o' (Some b) others w')
    (fun o' w' => untouched o o' w w' /\ someone_throws w).
Proof.
  intros Ho Hg. unfold opt_assign. unfold bind at 1. rewrite (bool_ends_v _ _ _ _ Ho). destruct x as [b0|].
  - pose proof Ho as Hh. apply optional_v_iff in Hh. cbn [number] in Hh.
    pose proof (holds_at T (~ someone_throws w) _ _ _ _ _ Hh (fun q => q)) as H.
    destruct Hh as ((H1 & H2 & H3 & H4 & H5) & Hu).
    change (wp (s_set st c) o w
      (fun o' _ w' => v_at o' = v_at o /\ is_optional_v o' (Some b) others w')
      (fun o' w' => untouched o o' w w' /\ someone_throws w)).
    unfold in_variant, s_set. apply wp_bind, wp_get. apply wp_bind. unfold value_of. apply wp_bind. unfold subscript.
    apply wp_bind, wp_get. eapply wp_member; eauto. { apply upd_same. } apply wp_ret.
    apply wp_bind. eapply (wp_create _ _ _ (Some b)); eauto.
    + destruct c as [nt' a'|nt' p i|nt' p i]; cbn [gives] in *; auto. rewrite upd_other; auto. congruence.
    + intros w1 Hw1. eapply wp_set_member; eauto. { apply upd_same. } intros w2 Hw2. split; [reflexivity|].
      eapply (at_holds T); eauto. eapply at_ext; [exact Hw2|]. apply upd_upd.
    + intros w1 Hc Hq Hw1. pose proof (at_same _ _ _ _ H Hw1) as (S1 & S2).
      split; [split; [reflexivity|split; auto]|]. now apply throws_dec.
  - pose proof (emplace_ends_v o None c b others w Ho (or_introl Hg)) as H.
    unfold ends in *. destruct (opt_emplace st c o w); auto. tauto.
Qed.
Lemma destruct_ends_v o x (others : memory) (w : world) :
  is_optional_v o x others w ->
  ends (opt_destruct st o w) (fun _ _ w' => same (heap w') others /\ unused_names w') (fun _ _ => False).
Proof. intros H. apply optional_v_iff in H. exact (destruct_ends (moved_alternative moved) T _ _ _ _ _ H). Qed.
Lemma copy_ends_v t y (others : memory) (w : world) :
  is_optional_v t y others w ->
  ends (opt_copy st t tt w)
    (fun _ o w' => two_optionals_v t y o y others w')
    (fun _ w' => same (heap w') (heap w) /\ unused_names w' /\ someone_throws w /\ nc = false /\ y <> None).
Proof.
  intros H. apply optional_v_iff in H. pose proof (copy_construct_ends (moved_alternative moved) T _ _ _ _ _ H) as He.
  unfold opt_copy, in_variant, s_copy_construct. unfold ends in *. destruct (copy_construct _ _ _ _ _); auto.
  destruct He as (H1 & H2 & H3 & H4). split; [|split; [|split]]; auto. destruct y; cbn in H4; [|discriminate]. split; auto. discriminate.
Qed.
Lemma move_ends_v t y (others : memory) (w : world) :
  is_optional_v t y others w ->
  ends (opt_move st t tt w)
    (fun _ o w' => two_optionals_v t (option_map moved y) o y others w')
    (fun _ w' => same (heap w') (heap w) /\ unused_names w' /\ someone_throws w /\ nm = false /\ y <> None).
Proof.
  intros H. apply optional_v_iff in H. pose proof (move_construct_ends (moved_alternative moved) T _ _ _ _ _ H) as He.
  unfold opt_move, in_variant, s_move_construct. unfold ends in *. destruct (move_construct _ _ _ _ _); auto.
  - unfold two_optionals_v. destruct y; exact He.
  - destruct He as (H1 & H2 & H3 & H4). split; [|split; [|split]]; auto. destruct y; cbn in H4; [|discriminate]. split; auto. discriminate.
Qed.
Lemma copy_assign_ends_v o x t y (others : memory) (w : world) :
  is_optional_v o x others w -> v_index t = number y -> others (v_at t) = Some [Some (number y, y)] ->
  ends (opt_copy_assign st t o w)
    (fun o' _ w' => v_at o' = v_at o /\ is_optional_v o' y others w')
    (fun o' w' => untouched o o' w w' /\ someone_throws w).
Proof.
  intros H Hi Ht. apply optional_v_iff in H.
  pose proof (copy_assign_ends (moved_alternative moved) T o _ _ others t (number y) y w H Hi ltac:(destruct y; cbn; lia) Ht) as He.
  unfold opt_copy_assign, in_variant, s_copy_assign. unfold ends in *. destruct (copy_assign _ _ _ _ _); auto.
  - destruct He as [He1 He2]. split; auto. now apply optional_v_iff.
  - tauto.
Qed.
Lemma move_assign_ends_v o x t y (others : memory) (w : world) :
  is_optional_v o x others w -> v_index t = number y -> others (v_at t) = Some [Some (number y, y)] ->
  (nm && nma = true -> nc && nca = true) ->
  ends (opt_move_assign st t o w)
    (fun o' _ w' => v_at o' = v_at o /\ is_optional_v o' y others w')
    (fun o' w' => untouched o o' w w' /\ someone_throws w).
Proof.
  intros H Hi Ht Hc. apply optional_v_iff in H.
  pose proof (move_assign_ends (moved_alternative moved) T o _ _ others t (number y) y w H Hi ltac:(destruct y; cbn; lia) Ht) as He.
  unfold opt_move_assign, in_variant, s_move_assign. unfold ends in *. destruct (move_assign _ _ _ _ _).
  - destruct He as [He1 He2]. 2:{ split; auto. now apply optional_v_iff. }
    intros Hall. destruct (Hall 1 ltac:(cbn; lia)) as [Ha Hb]. cbn in Ha, Hb. rewrite Ha, Hb in Hc.
    specialize (Hc eq_refl). apply andb_true_iff in Hc as [-> ->]. cbn. destruct (number x =? number y); destruct (number y =? 0); reflexivity.
  - destruct He as (? & ? & _); auto.
    intros Hall. destruct (Hall 1 ltac:(cbn; lia)) as [Ha Hb]. cbn in Ha, Hb. rewrite Ha, Hb in Hc.
    specialize (Hc eq_refl). apply andb_true_iff in Hc as [-> ->]. cbn. destruct (number x =? number y); destruct (number y =? 0); reflexivity.
  - apply He.
    intros Hall. destruct (Hall 1 ltac:(cbn; lia)) as [Ha Hb]. cbn in Ha, Hb. rewrite Ha, Hb in Hc.
    specialize (Hc eq_refl). apply andb_true_iff in Hc as [-> ->]. cbn. destruct (number x =? number y); destruct (number y =? 0); reflexivity.
Qed.
Lemma two_split_v o x t y (others : memory) (w : world) :
  two_optionals_v o x t y others w ->
  is_optional_v o x (upd others (v_at t) (Some [Some (number y, y)])) w /\ v_index t = number y /\ v_at o <> v_at t /\
  others (v_at t) = None /\ others (v_at o) = None.
Proof.
  intros (mid & (H1 & H2 & H3 & H4 & H5) & (G1 & G2 & G3 & G4 & G5) & Hu).
  assert (Hne : v_at o <> v_at t). { intros E. rewrite E in H4. rewrite H4 in G3. discriminate. }
  assert (Ht : others (v_at t) = None). { rewrite <- H5; auto. }
  split; [|auto]. apply optional_v_iff. split; auto. split; auto. split; auto. split. { now rewrite upd_other. }
  split. { rewrite G5; auto. }
  intros b Hb. unfold upd. destruct (b =? v_at t) eqn:E. { apply Nat.eqb_eq in E. subst. exact G4. }
  apply Nat.eqb_neq in E. rewrite G5, H5; auto.
Qed.
Lemma two_join_v o x t y (others : memory) (w : world) :
  is_optional_v o x (upd others (v_at t) (Some [Some (number y, y)])) w -> v_index t = number y -> v_at o <> v_at t ->
  others (v_at t) = None -> others (v_at o) = None -> two_optionals_v o x t y others w.
Proof.
  intros H Hi Hne Ht Ho. apply optional_v_iff in H as ((H1 & H2 & H3 & H4 & H5) & Hu).
  exists (upd others (v_at o) (Some [Some (number x, x)])). split; [|split; auto].
  - repeat split; auto. { now rewrite upd_same. } intros b Hb. now rewrite upd_other.
  - repeat split; auto. { destruct y; cbn; lia. } { rewrite upd_other; auto. }
    { rewrite H5 by auto. now rewrite upd_same. }
    intros b Hb. destruct (Nat.eq_dec b (v_at o)) as [->|E]. { now rewrite upd_same. }
    rewrite H5 by auto. rewrite !upd_other; auto.
Qed.
Lemma two_copy_assign_ends_v o x t y (others : memory) (w : world) :
  two_optionals_v o x t y others w ->
  ends (opt_copy_assign st t o w)
    (fun o' _ w' => v_at o' = v_at o /\ two_optionals_v o' y t y others w')
    (fun o' w' => untouched o o' w w' /\ someone_throws w).
Proof.
  intros H. apply two_split_v in H as (H & Hi & Hne & Ht & Ho).
  pose proof (copy_assign_ends_v o x t y _ w H Hi (upd_same _ _ _)) as He.
  unfold ends in *. destruct (opt_copy_assign st t o w); auto. destruct He as [E He]. split; auto.
  apply two_join_v; auto; now rewrite E.
Qed.
Lemma two_move_assign_ends_v o x t y (others : memory) (w : world) :
  two_optionals_v o x t y others w -> (nm && nma = true -> nc && nca = true) ->
  ends (opt_move_assign st t o w)
    (fun o' _ w' => v_at o' = v_at o /\ two_optionals_v o' y t y others w')
    (fun o' w' => untouched o o' w w' /\ someone_throws w).
Proof.
  intros H Hc. apply two_split_v in H as (H & Hi & Hne & Ht & Ho).
  pose proof (move_assign_ends_v o x t y _ w H Hi (upd_same _ _ _) Hc) as He.
  unfold ends in *. destruct (opt_move_assign st t o w); auto. destruct He as [E He]. split; auto.
  apply two_join_v; auto; now rewrite E.
Qed.
Lemma equal_ends_v o x t y (others : memory) (w : world) :
  two_optionals_v o x t y others w ->
  opt_equal st eqb o t tt w = Ret tt (match x, y with Some a, Some b => eqb a b | None, None => true | _, _ => false end) w.
Proof.
  intros (mid & (H1 & H2 & H3 & H4 & H5) & (G1 & G2 & G3 & G4 & G5) & Hu).
  assert (Hp : is_optional_v t y mid w). { apply optional_v_iff. repeat split; auto. }
  assert (Hne : v_at o <> v_at t) by congruence.
  assert (Ho : is_optional_v o x (fun b => if b =? v_at o then None else heap w b) w).
  { apply optional_v_iff. repeat split; auto. - now rewrite Nat.eqb_refl. - now rewrite (G5 _ Hne).
    - intros z Hz. apply Nat.eqb_neq in Hz. now rewrite Hz. }
  pose proof (bool_ends_v _ _ _ _ Hp) as B1. pose proof (bool_ends_v _ _ _ _ Ho) as B2.
  pose proof (deref_ends_v _ _ _ _ Hp) as D1. pose proof (deref_ends_v _ _ _ _ Ho) as D2.
  unfold opt_equal. destruct x as [a|]; destruct y as [b|]; unfold bind, ret;
    repeat (rewrite ?B1, ?B2, ?D1, ?D2; cbn [andb Bool.eqb]); reflexivity.
Qed.
End InVariant.
