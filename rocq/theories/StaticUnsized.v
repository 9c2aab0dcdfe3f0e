(** * static_vector: ranges whose size is not known beforehand *)

From Coq Require Import List Arith Bool Lia.
From Verif Require Import Mem MemLemmas Vec VecLemmas VecLemmas2 VecLemmas3 VecInst SpecVec VecProofs VecProofs2 VecProofs3.
Import ListNotations.

Section Proofs.
Context {V : Type} (moved : V -> V) (capacity : nat).
Local Notation C := (static_vector (V := V) capacity).

Lemma checked_short {X} p from : forall mks done count (x : X) w, length mks <= count ->
  checked_copy_loop moved p from done mks count x w = copy_loop moved p from done mks x w.
Proof.
  induction mks as [|mk mks IH]; intros done count x w H; [reflexivity|]. cbn [length] in H. destruct count as [|count]; [lia|].
  cbn [checked_copy_loop copy_loop]. unfold bind. destruct (rethrow_after _ _ x w); [apply IH; lia|reflexivity|reflexivity].
Qed.
Lemma checked_long {X} p from : forall mks done count (x : X) w, count < length mks ->
  checked_copy_loop moved p from done mks count x w =
  bind (copy_loop moved p from done (firstn count mks)) (fun _ => rethrow_after throw (destroy_range p from (done + count))) x w.
Proof.
  induction mks as [|mk mks IH]; intros done count x w H; cbn [length] in H; [lia|]. destruct count as [|count].
  - cbn [checked_copy_loop copy_loop firstn]. unfold bind, ret. now rewrite Nat.add_0_r.
  - cbn [checked_copy_loop copy_loop firstn]. unfold bind in *. destruct (rethrow_after _ _ x w); [|reflexivity|reflexivity].
    rewrite IH by lia. replace (S done + count) with (done + S count) by lia. reflexivity.
Qed.
Lemma Forall2_firstn {X Y} (P : X -> Y -> Prop) : forall l k n, Forall2 P l k -> Forall2 P (firstn n l) (firstn n k).
Proof. intros l k n H. revert n. induction H; intros [|n]; cbn; constructor; auto. Qed.

(** Into an empty object: too many elements are taken back. *)
Lemma wp_checked_long q {X} b mks us h (x : X) w (Q : X -> unit -> world V -> Prop) (E : X -> world V -> Prop) :
  at_ q w h -> h b = Some (repeat None capacity) -> Forall2 (yields h) mks us -> capacity < length mks ->
  (forall w', at_ q w' h -> E x w') -> wp (checked_copy_loop moved (Some b) 0 0 mks capacity) x w Q E.
Proof.
  intros H Hb Hm Hl HE. unfold wp. rewrite checked_long by exact Hl. fold (wp (bind (copy_loop moved (Some b) 0 0 (firstn capacity mks)) (fun _ => rethrow_after throw (destroy_range (Some b) 0 (0 + capacity)))) x w Q E).
  pose proof (Forall2_len _ _ _ Hm) as Hlen.
  assert (Hf : length (firstn capacity mks) = capacity) by (rewrite firstn_length; lia).
  assert (Hfu : length (firstn capacity us) = capacity) by (rewrite firstn_length; lia).
  apply wp_bind. eapply (wp_copy_loop moved q b 0 0 (firstn capacity us) [] (firstn capacity mks) [] [] h h); [exact H| | |reflexivity|reflexivity| | |].
  - cbn [map app]. rewrite Hf, app_nil_r. exact Hb.
  - cbn [length app]. cbn [Nat.add]. rewrite Hf, app_nil_r. apply upd_id. exact Hb.
  - apply Forall2_firstn. exact Hm.
  - intros w1 H1. apply wp_rethrow, wp_throw. eapply (wp_destroy_range q b 0 (firstn capacity us) [] []); [exact H1| |reflexivity|cbn; lia|].
    { rewrite upd_same. reflexivity. }
    intros w2 H2. apply HE. eapply at_ext; [exact H2|]. cbn [app Nat.add]. eapply eqh_trans; [apply upd_upd|]. rewrite app_nil_r. apply upd_id. exact Hb.
  - intros w1 _ H1. apply HE. exact H1.
Qed.

Lemma append_unsized_svec mks us o vs others w :
  is_static_vector capacity o vs others w -> Forall2 (makes (heap w)) mks us -> length vs + length us <= capacity \/ vs = [] ->
  ends (append moved C (Source mks false) o w)
    (fun o' _ w' => is_static_vector capacity o' (vs ++ us) others w')
    (fun o' w' => untouched o o' w w' /\ (someone_throws w \/ capacity < length us)).
Proof.
  intros Hv Hm Hl. assert (Hlen : length mks = length us) by (clear - Hm; induction Hm; cbn; auto).
  destruct (le_lt_dec (length vs + length us) capacity) as [Hfit|Hlong].
  - assert (E : append moved C (Source mks false) o w = append moved C (Source mks true) o w).
    { unfold append, checked_uninitialized_copy. cbn [static_vector c_reserve s_sized s_elements c_capacity]. unfold bind, get, ret.
      destruct (Nat.ltb_spec capacity (length mks)); [lia|]. rewrite checked_short by lia. reflexivity. }
    rewrite E. pose proof (append_svec moved capacity mks us o vs others w Hv Hm Hfit) as A. unfold ends in *.
    destruct (append moved C (Source mks true) o w); [exact A|tauto|exact A].
  - destruct Hl as [Hl| ->]; [lia|]. cbn [length Nat.add] in Hlong.
    pose proof Hv as [(Hs & Hg & (k & Hb & Hk) & _) Hu]. cbn [length Nat.add map app] in *. subst k.
    unfold append, checked_uninitialized_copy. cbn [static_vector c_reserve s_sized s_elements c_capacity c_size c_data].
    change (wp (bind get (fun o0 : svector => bind (ret capacity) (fun cap => bind (checked_copy_loop moved (sv_data o0) (v_size o0) 0 mks cap) (fun _ => sv_set_size capacity (v_size o0 + length mks))))) o w
      (fun o' _ w' => is_static_vector capacity o' us others w') (fun o' w' => untouched o o' w w' /\ (someone_throws w \/ capacity < length us))).
    apply wp_bind, wp_get, wp_bind, wp_ret, wp_bind. rewrite Hs. eapply (wp_checked_long (calm w)); [exact (at_start w Hu)|exact Hb|apply makes_all; exact Hm|lia|].
    intros w' H'. split; [eapply untouched_intro; eauto|right; exact Hlong].
Qed.
Lemma from_unsized_svec mks us w :
  unused_names w -> Forall2 (makes (heap w)) mks us ->
  ends (sv_from moved capacity false (Source mks false) tt w)
    (fun _ o w' => is_static_vector capacity o us (heap w) w')
    (fun _ w' => same (heap w') (heap w) /\ (someone_throws w \/ capacity < length us)).
Proof.
  intros Hu Hm. assert (Hlen : length mks = length us) by (clear - Hm; induction Hm; cbn; auto).
  destruct (le_lt_dec (length us) capacity) as [Hfit|Hlong].
  - assert (E : sv_from moved capacity false (Source mks false) tt w = sv_from moved capacity false (Source mks true) tt w).
    { unfold sv_from, sv_constructor. destruct (sv_default capacity tt w) as [x o w1|x w1|]; [|reflexivity|reflexivity].
      unfold assign_to_empty, checked_uninitialized_copy. cbn [static_vector c_reserve s_sized s_elements c_capacity]. unfold bind, get, ret.
      destruct (Nat.ltb_spec capacity (length mks)); [lia|]. destruct (require _ o w1); [|reflexivity|reflexivity].
      rewrite checked_short by lia. reflexivity. }
    rewrite E. apply from_svec; auto.
  - apply (wp_sv_constructor capacity). eapply wp_conseq. { apply (sv_default_ok (calm w) capacity). exact (at_start w Hu). } 2:{ contradiction. }
    cbv beta. intros x o w1 (h1 & H1 & [(Hg & Hh & Hl) Hs]). cbn [map app] in *. cbn [static_vector c_size length] in Hs.
    unfold assign_to_empty, checked_uninitialized_copy. cbn [static_vector c_reserve s_sized s_elements c_capacity c_size c_data].
    apply wp_bind, wp_get. apply wp_bind, wp_require. { rewrite Hs. reflexivity. } apply wp_bind, wp_ret, wp_bind.
    unfold sv_data. eapply (wp_checked_long (calm w)); [exact H1| | |lia|].
    { rewrite Hh, upd_same. reflexivity. }
    { apply makes_all in Hm. eapply (Forall2_yields_keep (static_vector capacity) (sv_own capacity) (sv_base capacity)); [split; [exact Hg|split; [exact Hh|exact Hl]]|exact Hm]. }
    intros w2 H2. eapply wp_release; [exact H2|exact Hh|exact Hg|reflexivity|]. intros w3 H3. split; [|right; exact Hlong].
    intros b. apply H3.
Qed.
End Proofs.
