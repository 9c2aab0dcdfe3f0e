(** * tv::optional: proofs *)

From Coq Require Import List Arith ZArith Bool Lia.
From Verif Require Import Mem MemLemmas SpecVec Variant SpecVariant VariantLemmas VariantProofs Optional SpecOptional.
Import ListNotations.

(** ** In place *)
Section InPlace.
Context {B : Type} (moved : B -> B) (quiet : Prop).
Context (nothrow_copy nothrow_move nothrow_copy_assign nothrow_move_assign : bool).
Local Notation V := (rep B).
Local Notation M := (M V).
Local Notation world := (world V).
Local Notation contents := (@contents V).
Local Notation at_ := (at_ quiet).
Local Notation construct_over := (construct_over moved).
Local Notation is_value h p b := (h p = Some [Some (Living b)]).

Lemma wp_the_value {X} p b (h : contents) (x : X) (w : world) (Q : X -> B -> world -> Prop) (E : X -> world -> Prop) :
  at_ w h -> h p = Some [Some (Living b)] -> Q x b w -> wp (the_value p) x w Q E.
Proof.
  intros H Hp HQ. unfold the_value. apply wp_bind. eapply wp_load; eauto; [reflexivity|]. cbn. now apply wp_ret.
Qed.
Lemma wp_initialized p x (h : contents) {X} (s : X) (w : world) (Q : X -> bool -> world -> Prop) (E : X -> world -> Prop) :
  at_ w h -> h p = Some [Some (representation x)] -> Q s (match x with None => false | Some _ => true end) w ->
  wp (initialized_at p) s w Q E.
Proof.
  intros H Hp HQ. unfold initialized_at. apply wp_bind. eapply wp_load; eauto; [reflexivity|]. apply wp_ret.
  destruct x; exact HQ.
Qed.
Lemma wp_reuse p c (h : contents) {X} (s : X) (w : world) (Q : X -> unit -> world -> Prop) (E : X -> world -> Prop) :
  at_ w h -> h p = Some [c] -> (forall b, c <> Some (Living b)) ->
  (forall w', at_ w' (upd h p (Some [None])) -> Q s tt w') -> wp (reuse p) s w Q E.
Proof.
  intros H Hp Hc HQ. unfold wp, reuse. erewrite find_at; [|exact H|exact Hp|reflexivity].
  destruct c as [[b|i]|].
  - elim (Hc b). reflexivity.
  - apply HQ. cbn [set_nth]. eapply at_set; eauto.
  - apply HQ. eapply at_ext; [exact H|]. apply eqh_sym. now apply upd_id.
Qed.
Lemma wp_release p c (h : contents) {X} (s : X) (w : world) (Q : X -> unit -> world -> Prop) (E : X -> world -> Prop) :
  at_ w h -> h p = Some [c] -> (forall b, c <> Some (Living b)) ->
  (forall w', at_ w' (upd h p None) -> Q s tt w') -> wp (release p) s w Q E.
Proof.
  intros H Hp Hc HQ. unfold release. apply wp_bind. eapply wp_reuse; eauto. intros w1 H1.
  eapply (wp_deallocate _ p 1); eauto. { apply upd_same. } intros w2 H2. apply HQ. eapply at_ext; [exact H2|]. apply upd_upd.
Qed.
Lemma wp_uninit p c (h : contents) {X} (s : X) (w : world) (Q : X -> unit -> world -> Prop) (E : X -> world -> Prop) :
  at_ w h -> h p = Some [c] -> (forall b, c <> Some (Living b)) ->
  (forall w', at_ w' (upd h p (Some [Some (Spare 0)])) -> Q s tt w') -> wp (construct_uninitialized p) s w Q E.
Proof.
  intros H Hp Hc HQ. unfold construct_uninitialized. apply wp_bind. eapply wp_reuse; eauto. intros w1 H1.
  eapply (wp_begin_life _ p 0 [] []); eauto. { apply upd_same. } intros w2 H2. apply HQ. eapply at_ext; [exact H2|]. apply upd_upd.
Qed.
Lemma wp_destroy_value p b (h : contents) {X} (s : X) (w : world) (Q : X -> unit -> world -> Prop) (E : X -> world -> Prop) :
  at_ w h -> h p = Some [Some (Living b)] -> (forall w', at_ w' (upd h p (Some [None])) -> Q s tt w') ->
  wp (destroy_value p) s w Q E.
Proof.
  intros H Hp HQ. unfold destroy_value. apply wp_bind. eapply wp_the_value; eauto.
  eapply (wp_destroy _ p 0 [] []); eauto.
Qed.
Lemma wp_throws_unless' b (h : contents) {X} (s : X) (w : world) (Q : X -> unit -> world -> Prop) (E : X -> world -> Prop) :
  at_ w h -> (forall w', at_ w' h -> Q s tt w') -> (forall w', b = false -> ~ quiet -> at_ w' h -> E s w') ->
  wp (throws_unless b) s w Q E.
Proof. intros H HQ HE. unfold throws_unless. destruct b; [apply wp_ret; auto|]. eapply wp_may_throw; eauto. Qed.

(** Construction in a place where there is no value: it may fail before it begins or half way. *)
Lemma wp_construct_over p c b cell (h : contents) {X} (s : X) (w : world) (Q : X -> unit -> world -> Prop) (E : X -> world -> Prop) :
  at_ w h -> h p = Some [cell] -> (forall b', cell <> Some (Living b')) -> makes_value h c b ->
  (forall w', at_ w' (upd h p (Some [Some (Living b)])) -> Q s tt w') ->
  (forall w', ~ quiet -> (match c with New calm _ _ => calm = false | _ => False end) -> at_ w' h -> E s w') ->
  (forall w', ~ quiet -> ~ cannot_throw_during c -> at_ w' (upd h p (Some [None])) -> E s w') ->
  wp (construct_over p c) s w Q E.
Proof.
  intros H Hp Hc Hm HQ HE1 HE2. destruct c as [cb cd b'|calm q|calm q]; cbn [makes_value] in Hm; [| |contradiction].
  - subst b'. cbn [Optional.construct_over]. apply wp_bind. eapply wp_throws_unless'; eauto.
    intros w1 H1. apply wp_bind. eapply wp_reuse; eauto. intros w2 H2. apply wp_bind. eapply wp_throws_unless'; eauto.
    + intros w3 H3. eapply (wp_begin_life _ p 0 [] []); eauto. { apply upd_same. }
      intros w4 H4. apply HQ. eapply at_ext; [exact H4|]. apply upd_upd.
    + intros w3 Hf Hq H3. apply HE2; auto. cbn. congruence.
  - cbn [Optional.construct_over]. apply wp_bind. eapply wp_the_value; eauto.
    apply wp_bind. eapply wp_reuse; eauto. intros w2 H2. apply wp_bind. eapply wp_throws_unless'; eauto.
    + intros w3 H3. eapply (wp_begin_life _ p 0 [] []); eauto. { apply upd_same. }
      intros w4 H4. apply HQ. eapply at_ext; [exact H4|]. apply upd_upd.
    + intros w3 Hf Hq H3. apply HE2; auto. cbn. congruence.
Qed.
Lemma wp_move_over p calm q b cell (h : contents) {X} (s : X) (w : world) (Q : X -> unit -> world -> Prop) (E : X -> world -> Prop) :
  at_ w h -> h p = Some [cell] -> (forall b', cell <> Some (Living b')) -> h q = Some [Some (Living b)] ->
  (forall w', at_ w' (upd (upd h q (Some [Some (Living (moved b))])) p (Some [Some (Living b)])) -> Q s tt w') ->
  (forall w', ~ quiet -> calm = false -> at_ w' (upd h p (Some [None])) -> E s w') ->
  wp (construct_over p (MoveAt calm q)) s w Q E.
Proof.
  intros H Hp Hc Hm HQ HE2. cbn [Optional.construct_over].
  assert (Hne : q <> p). { intros ->. rewrite Hp in Hm. injection Hm as ->. now apply (Hc b). }
  apply wp_bind. eapply wp_the_value; eauto. apply wp_bind. eapply wp_reuse; eauto. intros w2 H2.
  apply wp_bind. eapply wp_throws_unless'; eauto. intros w3 H3.
  apply wp_bind. eapply (wp_store _ q 0 [] []); eauto. { rewrite upd_other by assumption. exact Hm. }
  intros w4 H4. eapply (wp_begin_life _ p 0 [] []); eauto. { rewrite upd_other by congruence. apply upd_same. }
  intros w5 H5. apply HQ. eapply at_ext; [exact H5|]. cbn [app].
  intros z. unfold upd. destruct (z =? p); auto.
Qed.
Lemma wp_uninitialize p x (h : contents) (w : world) (Q : nat -> unit -> world -> Prop) (E : nat -> world -> Prop) :
  at_ w h -> h p = Some [Some (representation x)] ->
  (forall w', at_ w' (upd h p (Some [Some (Spare 0)])) -> Q p tt w') -> wp uninitialize p w Q E.
Proof.
  intros H Hp HQ. unfold uninitialize. apply wp_bind, wp_get. apply wp_bind. eapply wp_initialized; eauto.
  apply wp_bind. destruct x as [b|].
  - eapply wp_destroy_value; eauto. intros w1 H1. eapply wp_uninit; eauto. { apply upd_same. } { discriminate. }
    intros w2 H2. apply HQ. eapply at_ext; [exact H2|]. apply upd_upd.
  - apply wp_ret. eapply wp_uninit; eauto. discriminate.
Qed.
Lemma wp_set_value p b0 c b (h : contents) (w : world) (Q : nat -> unit -> world -> Prop) (E : nat -> world -> Prop) :
  at_ w h -> h p = Some [Some (Living b0)] -> makes_value h c b ->
  (forall w', at_ w' (upd h p (Some [Some (Living b)])) -> Q p tt w') ->
  (forall w', ~ quiet -> nothrow_copy_assign = false -> at_ w' h -> E p w') ->
  wp (set_value moved nothrow_copy_assign nothrow_move_assign c) p w Q E.
Proof.
  intros H Hp Hm HQ HE. unfold set_value. apply wp_bind, wp_get. apply wp_bind. eapply wp_the_value; eauto.
  destruct c as [cb cd b'|calm q|calm q]; cbn [makes_value] in Hm; [| |contradiction].
  - subst. apply wp_bind. eapply wp_throws_unless'; eauto. intros w1 H1. eapply (wp_store _ p 0 [] []); eauto.
  - apply wp_bind. eapply wp_the_value; eauto. apply wp_bind. eapply wp_throws_unless'; eauto.
    intros w1 H1. eapply (wp_store _ p 0 [] []); eauto.
Qed.
Lemma wp_move_value p b0 calm q b (h : contents) (w : world) (Q : nat -> unit -> world -> Prop) (E : nat -> world -> Prop) :
  at_ w h -> h p = Some [Some (Living b0)] -> h q = Some [Some (Living b)] ->
  (forall w', at_ w' (upd (upd h q (Some [Some (Living (moved b))])) p (Some [Some (Living b)])) -> Q p tt w') ->
  (forall w', ~ quiet -> nothrow_move_assign = false -> at_ w' h -> E p w') ->
  wp (set_value moved nothrow_copy_assign nothrow_move_assign (MoveAt calm q)) p w Q E.
Proof.
  intros H Hp Hm HQ HE. unfold set_value. apply wp_bind, wp_get. apply wp_bind. eapply wp_the_value; eauto.
  apply wp_bind. eapply wp_the_value; eauto. apply wp_bind. eapply wp_throws_unless'; eauto.
  intros w1 H1. apply wp_bind. eapply (wp_store _ q 0 [] []); eauto.
  intros w2 H2. destruct (Nat.eq_dec p q) as [->|Hne].
  - eapply (wp_store _ q 0 [] []); eauto. { apply upd_same. }
  - eapply (wp_store _ p 0 [] []); eauto. { rewrite upd_other by assumption. exact Hp. }
Qed.

(** Between the memory and the optional. *)
Lemma optional_at p x (others : contents) (w : world) :
  is_optional_p p x others w -> (quiet -> ~ someone_throws w) ->
  at_ w (upd others p (Some [Some (representation x)])).
Proof.
  intros ((H1 & H2 & H3) & Hu) Hq.
  assert (E : eqh (heap w) (upd others p (Some [Some (representation x)]))).
  { intros b. unfold upd. destruct (b =? p) eqn:E. - apply Nat.eqb_eq in E. now subst. - apply Nat.eqb_neq in E. auto. }
  split; [exact E|]. split; [|exact Hq]. intros b Hb. rewrite <- E. auto.
Qed.
Lemma at_optional p x (others : contents) (w : world) :
  at_ w (upd others p (Some [Some (representation x)])) -> others p = None -> is_optional_p p x others w.
Proof.
  intros (H1 & H2 & _) Ho. split; [split; [exact Ho|split]|].
  - rewrite H1. apply upd_same.
  - intros b Hb. rewrite H1. now apply upd_other.
  - intros b Hb. rewrite H1. auto.
Qed.
Lemma at_wrecked p (others : contents) (w : world) :
  at_ w (upd others p (Some [None])) -> others p = None -> wrecked p others w.
Proof.
  intros (H1 & H2 & _) Ho. split; [exact Ho|split; [|split]].
  - rewrite H1. apply upd_same.
  - intros b Hb. rewrite H1. now apply upd_other.
  - intros b Hb. rewrite H1. auto.
Qed.
Lemma makes_upd (h : contents) b cs c v : h b = None -> makes_value h c v -> makes_value (upd h b cs) c v.
Proof.
  intros Hb. destruct c as [? ? b'|? q|? q]; cbn [makes_value]; auto. intros Hg. rewrite upd_other; auto. congruence.
Qed.
End InPlace.
