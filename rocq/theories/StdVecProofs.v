(** * Proofs about the vectors with the interface of the standard library *)

From Coq Require Import List Arith Bool Lia.
From Verif Require Import Mem MemLemmas Vec SpecVec VecLemmas VecInst VecProofs VecProofs2 StdVec.
Import ListNotations.
Local Open Scope nat_scope.

Section Proofs.
Context {V : Type} (moved : V -> V).
Local Notation world := (world V).
Local Notation memory := (@memory V).

(** A scope with a copy of a value *)
Definition without_block (w : world) (t : nat) (w' : world) : Prop := (forall b, heap w' b = if b =? t then None else heap w b) /\ unused_names w'.

Lemma wp_copy_value {X} (x : X) (w : world) p i v (Q : X -> nat -> world -> Prop) (E : X -> world -> Prop) :
  unused_names w -> makes (heap w) (CopyOf p i) v ->
  (forall w1 t, heap w t = None -> (forall b, heap w1 b = if b =? t then Some [Some v] else heap w b) -> unused_names w1 ->
     (someone_throws w1 -> someone_throws w) -> Q x t w1) ->
  (forall w1, same (heap w1) (heap w) -> unused_names w1 -> someone_throws w -> E x w1) ->
  wp (copy_value moved p i) x w Q E.
Proof.
  intros Hu Hm HQ HE. destruct p as [b|]; [|contradiction]. destruct Hm as (cs & Hb & Hi).
  set (t := next w).
  assert (Ht : heap w t = None) by (apply Hu; unfold t; lia). assert (Hbt : b <> t) by congruence. apply Nat.eqb_neq in Hbt.
  unfold wp, copy_value, bind, new_block. fold t. set (w0 := World _ _ _).
  assert (H0 : forall b', heap w0 b' = if b' =? t then Some [None] else heap w b') by reflexivity.
  assert (Hfree : forall x0 s, deallocate (V := V) (X := X) (Some t) 1 x0 (World (heap w0) (next w0) s) = Ret x0 tt (set_block (World (heap w0) (next w0) s) t None)).
  { intros x0 s. unfold deallocate. cbn [heap]. rewrite H0, Nat.eqb_refl. reflexivity. }
  unfold rethrow_after, construct_at, bind, require_raw, find_cell. rewrite H0, Nat.eqb_refl. cbn [nth_error].
  unfold make, bind, load, find_cell. rewrite H0, Hbt, Hb. unfold cell in *. rewrite Hi. unfold may_throw.
  assert (Hlife : forall x0 s, begin_life (V := V) (X := X) (Some t) 0 v x0 (World (heap w0) (next w0) s) = Ret x0 tt (set_block (World (heap w0) (next w0) s) t (Some [Some v]))).
  { intros x0 s. unfold begin_life, find_cell. cbn [heap]. rewrite H0, Nat.eqb_refl. reflexivity. }
  assert (Hw0 : w0 = World (heap w0) (next w0) (script w)) by reflexivity.
  assert (Hgood : forall s, (exists l, script w = l ++ s) -> Q x t (set_block (World (heap w0) (next w0) s) t (Some [Some v]))).
  { intros s (l & Hl). apply HQ; auto.
    - intros b'. unfold set_block. cbn [heap]. rewrite H0. destruct (b' =? t); reflexivity.
    - intros b' Hb'. unfold set_block in *. cbn [heap next] in *. unfold w0 in *. cbn [heap next] in *. rewrite (proj2 (Nat.eqb_neq b' t)) by lia. apply Hu. unfold t in *. lia.
    - unfold someone_throws, set_block. cbn [script]. intros H. rewrite Hl. apply in_or_app. now right. }
  change (script w0) with (script w). destruct (script w) as [|[] s] eqn:Es; unfold ret.
  - rewrite Hw0, Hlife. apply Hgood. now exists [].
  - rewrite Hfree. apply HE.
    + intros b'. unfold set_block. cbn [heap]. destruct (Nat.eqb_spec b' t) as [->|D]; [now rewrite Ht|]. rewrite H0. now rewrite (proj2 (Nat.eqb_neq b' t)).
    + intros b' Hb'. unfold set_block in *. cbn [heap next] in *. unfold w0 in *. cbn [heap next] in *. rewrite (proj2 (Nat.eqb_neq b' t)) by lia. apply Hu. unfold t in *. lia.
    + unfold someone_throws. rewrite Es. now left.
  - rewrite Hlife. apply Hgood. now exists [false].
Qed.
Lemma wp_end_value (w : world) t v (Q : nat -> unit -> world -> Prop) (E : nat -> world -> Prop) :
  unused_names w -> heap w t = Some [Some v] -> (forall w', without_block w t w' -> Q t tt w') -> wp end_value t w Q E.
Proof.
  intros Hu Ht HQ. unfold end_value, wp, bind, get, destroy, find_cell. rewrite Ht. cbn [nth_error set_nth]. unfold deallocate, set_block. cbn [heap].
  rewrite Nat.eqb_refl. cbn. apply HQ. split.
  - intros b. cbn [heap]. destruct (b =? t); reflexivity.
  - intros b Hb. cbn [heap next] in *. destruct (b =? t); [reflexivity|]. now apply Hu.
Qed.
Lemma wp_with_copy {O A} (o : O) (w : world) p i v (body : nat -> M V O A) (Q : O -> A -> world -> Prop) (E : O -> world -> Prop) :
  unused_names w -> makes (heap w) (CopyOf p i) v ->
  (forall w1 t, heap w t = None -> (forall b, heap w1 b = if b =? t then Some [Some v] else heap w b) -> unused_names w1 ->
     (someone_throws w1 -> someone_throws w) ->
     ends (body t o w1)
       (fun o' a w' => heap w' t = Some [Some v] /\ unused_names w' /\ forall w'', without_block w' t w'' -> Q o' a w'')
       (fun o' w' => heap w' t = Some [Some v] /\ unused_names w' /\ forall w'', without_block w' t w'' -> E o' w'')) ->
  (forall w1, same (heap w1) (heap w) -> unused_names w1 -> someone_throws w -> E o w1) ->
  wp (with_local (copy_value moved p i) end_value (bind get (fun ot => on_fst (body (snd ot))))) o w Q E.
Proof.
  intros Hu Hm Hbody HE. apply wp_local. eapply wp_copy_value; eauto. intros w1 t Ht Hh Hu1 Hs. specialize (Hbody w1 t Ht Hh Hu1 Hs).
  unfold wp at 1, bind, get, on_fst. cbn [fst snd]. unfold ends in Hbody. destruct (body t o w1) as [o' a w'|o' w'|]; [| |contradiction]; destruct Hbody as (H1 & H2 & H3);
    cbn [fst snd]; eapply wp_end_value; eauto.
Qed.

(** ** vector *)
Section Vector.
Context (minc maxc : nat) (Hmm : minc <= maxc).
Local Notation C := (bounded_vector (V := V) moved minc maxc).
Local Notation is_vec := (is_vector (V := V) minc maxc).

Definition plus_block (m : memory) (t : nat) (cs : list (option V)) : memory := fun b => if b =? t then Some cs else m b.

Lemma vec_plus o vs others w w1 t cs : is_vec o vs others w -> heap w t = None -> (forall b, heap w1 b = if b =? t then Some cs else heap w b) ->
  unused_names w1 -> is_vec o vs (plus_block others t cs) w1.
Proof.
  intros [(H1 & H2) Hu] Ht Hh Hu1. split; [|exact Hu1]. split; [exact H1|]. destruct (u_pointer (b_storage o)) as [b|].
  - destruct H2 as (Ho & (spare & Hb & Hr) & Hother). assert (b <> t) by congruence. unfold plus_block. split; [now rewrite (proj2 (Nat.eqb_neq b t))|].
    split; [exists spare; rewrite Hh, (proj2 (Nat.eqb_neq b t)); auto|]. intros b' Hb'. rewrite Hh. destruct (b' =? t); auto.
  - destruct H2 as (Hv & H3 & H4 & H5). repeat split; auto. intros b. rewrite Hh. unfold plus_block. destruct (b =? t); auto.
Qed.
Lemma vec_minus o vs others w w1 t cs : is_vec o vs (plus_block others t cs) w -> others t = None -> without_block w t w1 -> is_vec o vs others w1.
Proof.
  intros [(H1 & H2) Hu] Ht (Hh & Hu1). split; [|exact Hu1]. split; [exact H1|]. destruct (u_pointer (b_storage o)) as [b|].
  - destruct H2 as (Ho & (spare & Hb & Hr) & Hother). unfold plus_block in *. destruct (Nat.eqb_spec b t) as [E|D]; [discriminate|].
    split; [exact Ho|]. split; [exists spare; rewrite Hh, (proj2 (Nat.eqb_neq b t)); auto|].
    intros b' Hb'. rewrite Hh. specialize (Hother b' Hb'). destruct (Nat.eqb_spec b' t) as [E|D2]; [rewrite E; auto|auto].
  - destruct H2 as (Hv & H3 & H4 & H5). repeat split; auto. intros b. rewrite Hh. specialize (H5 b). unfold plus_block in H5. destruct (Nat.eqb_spec b t) as [E|D]; [rewrite E; auto|auto].
Qed.
Lemma vec_temp o vs others w t cs : is_vec o vs (plus_block others t cs) w -> heap w t = Some cs.
Proof.
  intros [(H1 & H2) Hu]. assert (plus_block others t cs t = Some cs) as Hp by (unfold plus_block; now rewrite Nat.eqb_refl).
  destruct (u_pointer (b_storage o)) as [b|].
  - destruct H2 as (Ho & _ & Hother). rewrite Hother; [exact Hp|]. intros ->. congruence.
  - destruct H2 as (_ & _ & _ & H5). rewrite H5. exact Hp.
Qed.
Lemma vec_others_none o vs others w t : is_vec o vs others w -> heap w t = None -> others t = None.
Proof.
  intros [(H1 & H2) Hu] Ht. destruct (u_pointer (b_storage o)) as [b|].
  - destruct H2 as (_ & (spare & Hb & _) & Hother). rewrite <- Hother; [exact Ht|]. congruence.
  - destruct H2 as (_ & _ & _ & H5). now rewrite <- H5.
Qed.
Lemma not_stored o vs others w p i v : is_vec o vs others w -> makes (heap w) (CopyOf p i) v -> in_storage (c_data C o) (c_size C o) p i = false ->
  makes others (CopyOf p i) v.
Proof.
  intros [(H1 & H2) Hu] Hm Hn. destruct p as [b'|]; [|contradiction]. destruct Hm as (cs & Hb & Hi). cbn [bounded_vector c_data c_size] in Hn. unfold bv_data in Hn. exists cs. split; [|exact Hi].
  destruct (u_pointer (b_storage o)) as [b|].
  - destruct H2 as (_ & (spare & Hbs & _) & Hother). rewrite <- Hother; [exact Hb|]. intros ->. unfold in_storage in Hn. rewrite Nat.eqb_refl in Hn. cbn [andb] in Hn.
    apply Nat.ltb_ge in Hn. rewrite H1 in Hn. rewrite Hb in Hbs. injection Hbs as ->. rewrite nth_error_app2 in Hi by (rewrite map_length; lia).
    assert (In (Some v) (repeat (@None V) spare)) as Hin by (eapply nth_error_In; eauto). apply repeat_spec in Hin. discriminate.
  - destruct H2 as (_ & _ & _ & H5). now rewrite <- H5.
Qed.
Lemma ends_conseq {X A} (r : out V X A) Q E (Q' : X -> A -> world -> Prop) (E' : X -> world -> Prop) :
  ends r Q E -> (forall x a w, Q x a w -> Q' x a w) -> (forall x w, E x w -> E' x w) -> ends r Q' E'.
Proof. unfold ends. destruct r; auto. Qed.

Lemma std_insert_any mks_of (us : list V) p i v o l1 l2 others w : is_vec o (l1 ++ l2) others w -> makes (heap w) (CopyOf p i) v ->
  (forall (m : memory) q j, makes m (CopyOf q j) v -> Forall2 (makes m) (mks_of q j) us) -> (forall q j, mks_of q j <> []) \/ l2 = [] ->
  ends ((if in_storage (c_data C o) (c_size C o) p i
         then with_local (copy_value moved p i) end_value (bind get (fun ot => on_fst (insert moved C (length l1) (mks_of (Some (snd ot)) 0))))
         else insert moved C (length l1) (mks_of p i)) o w)
    (fun o' r w' => r = length l1 /\ is_vec o' (l1 ++ us ++ l2) others w' /\ capacity_of o' = grown o (length (l1 ++ us ++ l2)))
    (fun o' w' => untouched o o' w w' /\
       (someone_throws w \/ capacity_of o < length (l1 ++ us ++ l2) /\ maxc < grown o (length (l1 ++ us ++ l2)))).
Proof.
  intros Hv Hm Hall Hnil. pose proof Hv as [_ Hu]. destruct (in_storage _ _ p i) eqn:Es.
  - apply (wp_with_copy o w p i v (fun t => insert moved C (length l1) (mks_of (Some t) 0))); auto.
    + intros w1 t Ht Hh Hu1 Hs. pose proof (vec_plus _ _ _ _ _ _ _ Hv Ht Hh Hu1) as Hv1.
      assert (Hmk : makes (plus_block others t [Some v]) (CopyOf (Some t) 0) v). { exists [Some v]. unfold plus_block. rewrite Nat.eqb_refl. auto. }
      assert (Hnil' : mks_of (Some t) 0 <> [] \/ l2 = []) by (destruct Hnil; auto).
      eapply ends_conseq; [exact (insert_vec moved minc maxc Hmm (mks_of (Some t) 0) us o l1 l2 (plus_block others t [Some v]) w1 Hv1 (Hall _ _ _ Hmk) Hnil')| |].
      * intros o' r w' (-> & Hv' & Hc). split; [eapply vec_temp; eauto|]. split; [apply Hv'|]. intros w'' Hw. split; [reflexivity|]. split; [|exact Hc].
        eapply vec_minus; eauto. eapply vec_others_none; eauto.
      * intros o' w' ((-> & Hsame & Hu') & Hwhy). split; [rewrite Hsame, Hh, Nat.eqb_refl; reflexivity|]. split; [exact Hu'|].
        intros w'' (Hw & Hu''). split; [|destruct Hwhy; auto]. split; [reflexivity|]. split; [|exact Hu''].
        intros b. rewrite Hw. destruct (Nat.eqb_spec b t) as [->|D]; [now rewrite Ht|]. rewrite Hsame, Hh. now rewrite (proj2 (Nat.eqb_neq b t)).
    + intros w1 H1 H2 H3. split; [|now left]. split; [reflexivity|]. split; assumption.
  - apply (insert_vec moved minc maxc Hmm (mks_of p i) us o l1 l2 others w Hv); [|destruct Hnil; auto]. apply Hall. eapply not_stored; eauto.
Qed.
Lemma std_insert_vec p i v o l1 l2 others w : is_vec o (l1 ++ l2) others w -> makes (heap w) (CopyOf p i) v ->
  ends (std_insert moved C (length l1) p i o w)
    (fun o' r w' => r = length l1 /\ is_vec o' (l1 ++ [v] ++ l2) others w' /\ capacity_of o' = grown o (length (l1 ++ [v] ++ l2)))
    (fun o' w' => untouched o o' w w' /\
       (someone_throws w \/ capacity_of o < length (l1 ++ [v] ++ l2) /\ maxc < grown o (length (l1 ++ [v] ++ l2)))).
Proof.
  intros Hv Hm. apply (std_insert_any (fun q j => [CopyOf q j]) [v] p i v o l1 l2 others w Hv Hm); [|left; discriminate]. intros m q j H. repeat constructor. exact H.
Qed.
Lemma std_insert_n_vec count p i v o l1 l2 others w : is_vec o (l1 ++ l2) others w -> makes (heap w) (CopyOf p i) v -> 0 < count \/ l2 = [] ->
  ends (std_insert_n moved C (length l1) count p i o w)
    (fun o' r w' => r = length l1 /\ is_vec o' (l1 ++ repeat v count ++ l2) others w' /\ capacity_of o' = grown o (length (l1 ++ repeat v count ++ l2)))
    (fun o' w' => untouched o o' w w' /\
       (someone_throws w \/ capacity_of o < length (l1 ++ repeat v count ++ l2) /\ maxc < grown o (length (l1 ++ repeat v count ++ l2)))).
Proof.
  intros Hv Hm Hc. apply (std_insert_any (fun q j => repeat (CopyOf q j) count) (repeat v count) p i v o l1 l2 others w Hv Hm).
  - intros m q j H. clear Hc. induction count; constructor; auto.
  - destruct Hc as [Hc|]; [left|now right]. intros q j. destruct count; [lia|discriminate].
Qed.
Lemma std_resize_vec count p i v o vs others w : minc < maxc -> is_vec o vs others w -> makes (heap w) (CopyOf p i) v ->
  ends (std_resize moved C count p i o w)
    (fun o' _ w' => is_vec o' (firstn count vs ++ repeat v (count - length vs)) others w')
    (fun o' w' => untouched o o' w w' /\ (someone_throws w \/ capacity_of o < count /\ maxc < grown o count)).
Proof.
  intros Hlt Hv Hm. unfold std_resize, resize, bind, get. pose proof Hv as ((Hsize & _) & _). cbn [bounded_vector c_size]. rewrite Hsize.
  destruct (Nat.leb_spec count (length vs)) as [Hle|Hgt].
  - replace (count - length vs) with 0 by lia. cbn [repeat]. rewrite app_nil_r.
    assert (is_vec o (firstn count vs ++ skipn count vs) others w) as Hv' by now rewrite firstn_skipn.
    assert (length (firstn count vs) = count) as Hc by (rewrite firstn_length; lia).
    pose proof (erase_to_end_vec moved minc maxc Hmm o (firstn count vs) (skipn count vs) others w Hv') as H. rewrite Hc in H.
    eapply ends_conseq; [exact H| |].
    + intros o1 [] w1 H1. apply H1.
    + intros o' w' H'. elim H'.
  - assert (Forall2 (makes (heap w)) (repeat (CopyOf p i) (count - length vs)) (repeat v (count - length vs))) as HF.
    { clear -Hm. induction (count - length vs); constructor; auto. }
    eapply ends_conseq; [exact (append_vec moved minc maxc Hmm _ _ o vs others w Hlt Hv HF)| |].
    + intros o1 [] w1 (H1 & _). now rewrite firstn_all2 by lia.
    + intros o' w' H'. rewrite app_length, repeat_length in H'. now replace (length vs + (count - length vs)) with count in H' by lia.
Qed.

Lemma std_reserve_vec n o vs others w : is_vec o vs others w ->
  ends (std_reserve moved minc maxc n o w)
    (fun o' _ w' => n <= maxc /\ is_vec o' vs others w' /\ capacity_of o' = Nat.max n (capacity_of o))
    (fun o' w' => untouched o o' w w' /\ (someone_throws w \/ maxc < n)).
Proof.
  intros Hv. unfold std_reserve. destruct (Nat.leb_spec n maxc) as [Hn|Hn].
  - eapply ends_conseq; [exact (reserve_vec moved minc maxc Hmm n o vs others w Hv Hn)| |].
    + intros o1 [] w1 H1. auto.
    + intros o1 w1 (H1 & H2). auto.
  - cbn. split; [|auto]. split; [reflexivity|]. split; [intros b; reflexivity|]. apply Hv.
Qed.
End Vector.

(** ** inplace_vector *)
Section Inplace.
Context (capacity : nat).
Local Notation C := (static_vector (V := V) capacity).
Local Notation is_svec := (is_static_vector (V := V) capacity).

Lemma svec_plus o vs others w w1 t cs : is_svec o vs others w -> heap w t = None -> (forall b, heap w1 b = if b =? t then Some cs else heap w b) ->
  unused_names w1 -> is_svec o vs (plus_block others t cs) w1.
Proof.
  intros [(H1 & Ho & (spare & Hb & Hr) & Hother) Hu] Ht Hh Hu1. split; [|exact Hu1]. assert (v_place o <> t) by congruence. unfold plus_block.
  split; [exact H1|]. split; [now rewrite (proj2 (Nat.eqb_neq (v_place o) t))|].
  split; [exists spare; rewrite Hh, (proj2 (Nat.eqb_neq (v_place o) t)); auto|]. intros b' Hb'. rewrite Hh. destruct (b' =? t); auto.
Qed.
Lemma svec_minus o vs others w w1 t cs : is_svec o vs (plus_block others t cs) w -> others t = None -> without_block w t w1 -> is_svec o vs others w1.
Proof.
  intros [(H1 & Ho & (spare & Hb & Hr) & Hother) Hu] Ht (Hh & Hu1). split; [|exact Hu1]. unfold plus_block in *.
  destruct (Nat.eqb_spec (v_place o) t) as [E|D]; [discriminate|].
  split; [exact H1|]. split; [exact Ho|]. split; [exists spare; rewrite Hh, (proj2 (Nat.eqb_neq (v_place o) t)); auto|].
  intros b' Hb'. rewrite Hh. specialize (Hother b' Hb'). destruct (Nat.eqb_spec b' t) as [E|D2]; [rewrite E; auto|auto].
Qed.
Lemma svec_temp o vs others w t cs : is_svec o vs (plus_block others t cs) w -> heap w t = Some cs.
Proof.
  intros [(H1 & Ho & _ & Hother) Hu]. assert (plus_block others t cs t = Some cs) as Hp by (unfold plus_block; now rewrite Nat.eqb_refl).
  rewrite Hother; [exact Hp|]. intros E. rewrite <- E in Ho. congruence.
Qed.
Lemma svec_others_none o vs others w t : is_svec o vs others w -> heap w t = None -> others t = None.
Proof. intros [(H1 & _ & (spare & Hb & _) & Hother) Hu] Ht. rewrite <- Hother; [exact Ht|]. congruence. Qed.
Lemma not_stored_s o vs others w p i v : is_svec o vs others w -> makes (heap w) (CopyOf p i) v -> in_storage (c_data C o) (c_size C o) p i = false ->
  makes others (CopyOf p i) v.
Proof.
  intros [(H1 & _ & (spare & Hbs & _) & Hother) Hu] Hm Hn. destruct p as [b'|]; [|contradiction]. destruct Hm as (cs & Hb & Hi). exists cs. split; [|exact Hi].
  rewrite <- Hother; [exact Hb|]. intros ->. cbn [static_vector c_data c_size] in Hn. unfold sv_data, in_storage in Hn. rewrite Nat.eqb_refl in Hn. cbn [andb] in Hn.
  apply Nat.ltb_ge in Hn. rewrite H1 in Hn. rewrite Hb in Hbs. injection Hbs as ->. rewrite nth_error_app2 in Hi by (rewrite map_length; lia).
  assert (In (Some v) (repeat (@None V) spare)) as Hin by (eapply nth_error_In; eauto). apply repeat_spec in Hin. discriminate.
Qed.
Lemma std_insert_any_s mks_of (us : list V) p i v o l1 l2 others w : is_svec o (l1 ++ l2) others w -> makes (heap w) (CopyOf p i) v ->
  (forall (m : memory) q j, makes m (CopyOf q j) v -> Forall2 (makes m) (mks_of q j) us) -> (forall q j, mks_of q j <> []) \/ l2 = [] ->
  ends ((if in_storage (c_data C o) (c_size C o) p i
         then with_local (copy_value moved p i) end_value (bind get (fun ot => on_fst (insert moved C (length l1) (mks_of (Some (snd ot)) 0))))
         else insert moved C (length l1) (mks_of p i)) o w)
    (fun o' r w' => r = length l1 /\ is_svec o' (l1 ++ us ++ l2) others w')
    (fun o' w' => untouched o o' w w' /\ (someone_throws w \/ capacity < length (l1 ++ us ++ l2))).
Proof.
  intros Hv Hm Hall Hnil. pose proof Hv as [_ Hu]. destruct (in_storage _ _ p i) eqn:Es.
  - apply (wp_with_copy o w p i v (fun t => insert moved C (length l1) (mks_of (Some t) 0))); auto.
    + intros w1 t Ht Hh Hu1 Hs. pose proof (svec_plus _ _ _ _ _ _ _ Hv Ht Hh Hu1) as Hv1.
      assert (Hmk : makes (plus_block others t [Some v]) (CopyOf (Some t) 0) v). { exists [Some v]. unfold plus_block. rewrite Nat.eqb_refl. auto. }
      assert (Hnil' : mks_of (Some t) 0 <> [] \/ l2 = []) by (destruct Hnil; auto).
      eapply ends_conseq; [exact (insert_svec moved capacity (mks_of (Some t) 0) us o l1 l2 (plus_block others t [Some v]) w1 Hv1 (Hall _ _ _ Hmk) Hnil')| |].
      * intros o' r w' (-> & Hv'). split; [eapply svec_temp; eauto|]. split; [apply Hv'|]. intros w'' Hw. split; [reflexivity|].
        eapply svec_minus; eauto. eapply svec_others_none; eauto.
      * intros o' w' ((-> & Hsame & Hu') & Hwhy). split; [rewrite Hsame, Hh, Nat.eqb_refl; reflexivity|]. split; [exact Hu'|].
        intros w'' (Hw & Hu''). split; [|destruct Hwhy; auto]. split; [reflexivity|]. split; [|exact Hu''].
        intros b. rewrite Hw. destruct (Nat.eqb_spec b t) as [->|D]; [now rewrite Ht|]. rewrite Hsame, Hh. now rewrite (proj2 (Nat.eqb_neq b t)).
    + intros w1 H1 H2 H3. split; [|now left]. split; [reflexivity|]. split; assumption.
  - apply (insert_svec moved capacity (mks_of p i) us o l1 l2 others w Hv); [|destruct Hnil; auto]. apply Hall. eapply not_stored_s; eauto.
Qed.
Lemma std_insert_svec p i v o l1 l2 others w : is_svec o (l1 ++ l2) others w -> makes (heap w) (CopyOf p i) v ->
  ends (std_insert moved C (length l1) p i o w)
    (fun o' r w' => r = length l1 /\ is_svec o' (l1 ++ [v] ++ l2) others w')
    (fun o' w' => untouched o o' w w' /\ (someone_throws w \/ capacity < length (l1 ++ [v] ++ l2))).
Proof.
  intros Hv Hm. apply (std_insert_any_s (fun q j => [CopyOf q j]) [v] p i v o l1 l2 others w Hv Hm); [|left; discriminate]. intros m q j H. repeat constructor. exact H.
Qed.
Lemma std_insert_n_svec count p i v o l1 l2 others w : is_svec o (l1 ++ l2) others w -> makes (heap w) (CopyOf p i) v -> 0 < count \/ l2 = [] ->
  ends (std_insert_n moved C (length l1) count p i o w)
    (fun o' r w' => r = length l1 /\ is_svec o' (l1 ++ repeat v count ++ l2) others w')
    (fun o' w' => untouched o o' w w' /\ (someone_throws w \/ capacity < length (l1 ++ repeat v count ++ l2))).
Proof.
  intros Hv Hm Hc. apply (std_insert_any_s (fun q j => repeat (CopyOf q j) count) (repeat v count) p i v o l1 l2 others w Hv Hm).
  - intros m q j H. clear Hc. induction count; constructor; auto.
  - destruct Hc as [Hc|]; [left|now right]. intros q j. destruct count; [lia|discriminate].
Qed.
Lemma erase_to_end_svec o l1 l2 others w : is_svec o (l1 ++ l2) others w ->
  ends (erase_to_end C (length l1) o w) (fun o' _ w' => is_svec o' l1 others w') (fun _ _ => False).
Proof.
  intros Hv. pose proof Hv as [_ Hu]. destruct (svec_cells _ _ _ _ _ Hv) as (k & Hc & Hk). pose proof (at_start w Hu) as Hat.
  apply (wp_conseq (erase_to_end C (length l1)) o w _ _ _ _ (erase_to_end_ok (calm w) C (sv_own capacity) (sv_base capacity) _ _ _ _ _ _ _ _ Hat Hc eq_refl)); [|auto].
  cbv beta. intros o' [] w' (h' & H' & Hc'). eapply cells_svec; eauto.
Qed.
Lemma std_resize_svec count p i v o vs others w : is_svec o vs others w -> makes (heap w) (CopyOf p i) v -> count <= capacity ->
  ends (std_resize moved C count p i o w)
    (fun o' _ w' => is_svec o' (firstn count vs ++ repeat v (count - length vs)) others w')
    (fun o' w' => untouched o o' w w' /\ someone_throws w).
Proof.
  intros Hv Hm Hcap. unfold std_resize, resize, bind, get. pose proof Hv as ((Hsize & _) & _). cbn [static_vector c_size]. rewrite Hsize.
  destruct (Nat.leb_spec count (length vs)) as [Hle|Hgt].
  - replace (count - length vs) with 0 by lia. cbn [repeat]. rewrite app_nil_r.
    assert (is_svec o (firstn count vs ++ skipn count vs) others w) as Hv' by now rewrite firstn_skipn.
    assert (length (firstn count vs) = count) as Hc by (rewrite firstn_length; lia).
    pose proof (erase_to_end_svec o (firstn count vs) (skipn count vs) others w Hv') as H. rewrite Hc in H.
    eapply ends_conseq; [exact H| |].
    + intros o1 [] w1 H1. apply H1.
    + intros o1 w1 H1. elim H1.
  - assert (Forall2 (makes (heap w)) (repeat (CopyOf p i) (count - length vs)) (repeat v (count - length vs))) as HF.
    { clear -Hm. induction (count - length vs); constructor; auto. }
    eapply ends_conseq; [refine (append_svec moved capacity _ _ o vs others w Hv HF _)| |].
    + rewrite repeat_length. lia.
    + intros o1 [] w1 H1. now rewrite firstn_all2 by lia.
    + auto.
Qed.
Lemma try_push_back_svec mk v o vs others w : is_svec o vs others w -> makes (heap w) mk v ->
  ends (try_push_back moved capacity mk o w)
    (fun o' r w' => (length vs < capacity /\ r = Some (length vs) /\ is_svec o' (vs ++ [v]) others w') \/
       (length vs = capacity /\ r = None /\ o' = o /\ w' = w))
    (fun o' w' => untouched o o' w w' /\ someone_throws w).
Proof.
  intros Hv Hm. unfold try_push_back, bind at 1, get. pose proof Hv as ((Hsize & _ & (spare & _ & Hcap) & _) & _). cbn [static_vector c_size]. rewrite Hsize.
  destruct (Nat.ltb_spec (length vs) capacity) as [Hl|Hl].
  - pose proof (push_back_svec moved capacity mk v o vs others w Hv Hm) as H. unfold bind. destruct (push_back _ _ _ _ _) as [o' [] w'|o' w'|]; cbn in *; [| |contradiction].
    + left. split; [exact Hl|]. split; [reflexivity|]. apply H.
    + destruct H as (H1 & [H2|H2]); [auto|lia].
  - cbn. right. repeat split; auto. lia.
Qed.
Lemma unchecked_push_back_svec mk v o vs others w : is_svec o vs others w -> makes (heap w) mk v -> length vs < capacity ->
  ends (unchecked_push_back moved capacity mk o w)
    (fun o' _ w' => is_svec o' (vs ++ [v]) others w')
    (fun o' w' => untouched o o' w w' /\ someone_throws w).
Proof.
  intros Hv Hm Hl. pose proof (push_back_svec moved capacity mk v o vs others w Hv Hm) as H.
  assert (push_back moved C mk o w = unchecked_push_back moved capacity mk o w) as E.
  { unfold push_back, lazy_push_back, unchecked_push_back. pose proof Hv as ((Hsize & _) & _).
    cbn [static_vector c_max]. rewrite (proj2 (Nat.eqb_neq capacity 0)) by lia. 
    cbv beta iota delta [bind get]. cbn [static_vector c_capacity c_size]. unfold ret. rewrite (proj2 (Nat.ltb_lt (v_size o) capacity)) by lia. reflexivity. }
  rewrite E in H. eapply ends_conseq; [exact H| |].
  - intros o1 [] w1 H1. apply H1.
  - intros o1 w1 (H1 & [H2|H2]); [auto|lia].
Qed.
End Inplace.

(** ** Reading in reverse *)
Lemma reverse_bad {O} (C : @container V O) (o : O) (w : world) : 0 < c_size C o -> read_in_reverse C o w = Bad Outside.
Proof.
  intros H. unfold read_in_reverse, bind, get. cbn [reverse_loop]. rewrite (proj2 (Nat.eqb_neq (rbegin o) (rend C o))) by (unfold rbegin, rend; lia). reflexivity.
Qed.
Lemma firstn_next (vs : list V) n v : nth_error vs n = Some v -> firstn (S n) vs = firstn n vs ++ [v].
Proof. revert vs. induction n; intros [|u vs] H; try discriminate; cbn in *; [now injection H as ->|]. f_equal. now apply IHn. Qed.
Lemma reverse_good {O} (C : @container V O) (o : O) (w : world) vs : (forall i v, nth_error vs i = Some v -> load (X := O) (c_data C o) i o w = Ret o v w) ->
  forall n seen, n <= length vs -> reverse_loop C (S n) n 0 seen o w = Ret o (seen ++ rev (firstn n vs)) w.
Proof.
  intros Hl. induction n; intros seen Hn.
  - cbn. now rewrite app_nil_r.
  - assert (n < length vs) as Hn' by lia. apply nth_error_Some in Hn'. destruct (nth_error vs n) as [v|] eqn:E; [|contradiction].
    change (reverse_loop C (S (S n)) (S n) 0 seen o w)
      with (bind (load (c_data C o) n) (fun v => reverse_loop C (S n) n 0 (seen ++ [v])) o w).
    unfold bind. rewrite (Hl n v E), IHn by lia. f_equal. rewrite <- app_assoc. f_equal.
    now rewrite (firstn_next _ _ _ E), rev_app_distr.
Qed.
End Proofs.
