(** * Proofs: programs with any number of static maps *)

From Coq Require Import List Arith Bool Lia.
From Verif Require Import Mem MemLemmas Vec SpecVec SpecSeveral Several SpecMap Keyed SpecDict SpecSort SpecUnique FlatMap
  KeyedProofs SpecFlatMemory FlatMemory VecCost FlatMemoryProofs2 LinearMemory LinearMemoryProofs SboCalm SpecMapPrograms MapPrograms SpecStaticMapPrograms.
From Verif Require SpecStaticPrograms StaticPrograms.
From Verif Require LinearPrograms.
Import ListNotations.
Local Open Scope nat_scope.

Lemma swap_by_moves2 {A} i j (d d1 d2 d3 : A) l : i < length l -> j < length l -> i <> j ->
  let n := length l in
  let l1 := replace_at i d1 l ++ [nth i l d] in
  let l2 := replace_at j d2 (replace_at i (nth j l1 d) l1) in
  remove_at n (replace_at n d3 (replace_at j (nth n l2 d) l2)) = replace_at j (nth i l d) (replace_at i (nth j l d) l).
Proof.
  intros Hi Hj Hij n l1 l2. set (x := nth i l d) in *. set (y := nth j (replace_at i d1 l) d).
  assert (Hr : forall k (z : A), k < length l -> forall a : list A, length a = length l -> length (replace_at k z a) = length l) by (intros k z Hk a Ha; rewrite length_replace; lia).
  assert (E1 : nth j l1 d = y) by (unfold l1; rewrite app_nth1; [reflexivity|]; rewrite length_replace; lia).
  assert (E2 : l2 = replace_at j d2 (replace_at i y l) ++ [x]).
  { unfold l2. rewrite E1. unfold l1. rewrite replace_app_l by (rewrite length_replace; lia). rewrite replace_twice by lia. rewrite replace_app_l by (rewrite length_replace; lia). reflexivity. }
  assert (Hl : length (replace_at j d2 (replace_at i y l)) = n) by (unfold n; auto).
  assert (E3 : nth n l2 d = x). { rewrite E2. rewrite app_nth2 by lia. rewrite Hl, Nat.sub_diag. reflexivity. }
  rewrite E3, E2. rewrite replace_app_l by (rewrite Hl; exact Hj). rewrite replace_twice by (rewrite length_replace; lia).
  replace n with (length (replace_at j x (replace_at i y l))) by auto. rewrite remove_last.
  unfold y. rewrite nth_replace_other_d by lia. reflexivity.
Qed.

Section Proofs.
Context {K T : Type} (moved : K * T -> K * T) (same : K -> K -> bool) (act : action K T -> M (K * T) svector (reply T)) (capacity : nat).
Context (good : list (K * T) -> Prop).
Local Notation element := (K * T)%type.
Local Notation kept := (static_kept (K := K) (T := T) same good).
Local Notation maps_in := (static_maps_in (K := K) (T := T) same capacity good).
Local Notation vectors := (SpecStaticPrograms.vectors (V := element) capacity).
Local Notation vector_in := (is_static_vector_in (V := element) capacity).
Local Notation sizes_of := (SpecStaticPrograms.sizes_of (V := element)).
Local Notation elements := (SpecStaticPrograms.elements (V := element)).
Local Notation entry := (SpecMapPrograms.entry (K := K) (T := T)).
Context (Hnil : good []).
Context (Hact : forall others o m d w a, is_static_vector capacity o m others w -> good m -> represents same m d ->
  ends (act a o w)
    (fun o' r w' => r = snd (dictionary_act same d a) /\ incl (script w') (script w) /\
       exists m', is_static_vector capacity o' m' others w' /\ good m' /\ represents same m' (fst (dictionary_act same d a)))
    (fun o' w' => incl (script w') (script w) /\ (exists m', is_static_vector capacity o' m' others w' /\ good m' /\ represents same m' d) /\
       (someone_throws w \/ inserts_new d a /\ keys d = capacity))).

Lemma sp_step s os ls others w : vectors os ls others w -> SpecStaticPrograms.possible capacity s (sizes_of ls) = true ->
  ends (static_step moved capacity s os w) (fun os' _ w' => vectors os' (SpecStaticPrograms.then_ moved s ls) others w' /\ steady w w')
    (fun os' w' => exists ls', SpecStaticPrograms.or_else s ls ls' /\
       (someone_throws w \/ SpecStaticPrograms.fits capacity (SpecStaticPrograms.then_ moved s ls) = false /\ ls' = ls) /\ vectors os' ls' others w' /\ steady w w').
Proof.
  intros Hv Hp. unfold static_step. pose proof (StaticPrograms.step_ok moved capacity s os ls others w Hv Hp) as H.
  pose proof (StaticPrograms.calm_step moved capacity s os w) as Hc. unfold ends in *.
  destruct (SpecStaticPrograms.do_step moved capacity s os w) as [os1 [] w1|os1 w1|]; [| |contradiction]; destruct Hc as [Hc _]; unfold steady.
  - tauto.
  - destruct H as (ls' & H1 & H2 & H3). exists ls'. tauto.
Qed.

Lemma sp_kept_at i ds ls d : i < length ds -> Forall2 kept ds ls -> dictionary_at i ds = Some d -> good (elements i ls) /\ represents same (elements i ls) d.
Proof.
  unfold dictionary_at, SpecStaticPrograms.elements. intros Hi Hk. revert i Hi.
  induction Hk as [|e l ds ls He Hk IH]; intros [|i] Hi Hd; cbn in *; try lia; [subst e; exact He|]. apply IH; auto. lia.
Qed.
Lemma sp_kept_nth i ds ls : i < length ds -> Forall2 kept ds ls -> kept (dictionary_at i ds) (elements i ls).
Proof.
  unfold dictionary_at, SpecStaticPrograms.elements. intros Hi Hk. revert i Hi.
  induction Hk as [|e l ds ls He Hk IH]; intros [|i] Hi; cbn in *; try lia; auto. apply IH. lia.
Qed.

Lemma sp_focus {A} i (f : M element svector A) os ls others w (Q : A -> list element -> Prop) (E : list element -> Prop) : i < length os -> vectors os ls others w ->
  (forall o rest, is_static_vector capacity o (elements i ls) rest w ->
     ends (f o w) (fun o' a w' => steady w w' /\ exists m', Q a m' /\ is_static_vector capacity o' m' rest w') (fun o' w' => steady w w' /\ exists m', E m' /\ is_static_vector capacity o' m' rest w')) ->
  ends (one_of i f os w) (fun os' a w' => exists m', Q a m' /\ vectors os' (replace_at i m' ls) others w' /\ steady w w')
    (fun os' w' => exists m', E m' /\ vectors os' (replace_at i m' ls) others w' /\ steady w w').
Proof.
  intros Hi [Hin Hu] Hf. destruct (focus_one vector_in (StaticPrograms.in_swap capacity) i _ _ _ _ Hi Hin) as (o & l & rest & Hno & Hnl & Ho & Hr & Hback).
  rewrite (StaticPrograms.elements_nth _ _ _ Hnl) in Hf. unfold one_of. rewrite Hno. specialize (Hf o rest (conj Ho Hu)). unfold ends in *.
  destruct (f o w) as [o1 a w1|o1 w1|]; [| |contradiction].
  - destruct Hf as (Hs & m' & HQ & H1 & H2). exists m'. split; [exact HQ|]. split; [|exact Hs]. split; [|exact H2]. now apply Hback.
  - destruct Hf as (Hs & m' & HE & H1 & H2). exists m'. split; [exact HE|]. split; [|exact Hs]. split; [|exact H2]. now apply Hback.
Qed.

Lemma sp_fit os ls others w : vectors os ls others w -> SpecStaticPrograms.fits capacity ls = true.
Proof. intros [Hin _]. exact (StaticPrograms.all_fit capacity _ _ _ _ Hin). Qed.
Lemma sp_fits_in ls l : SpecStaticPrograms.fits (V := element) capacity ls = true -> In l ls -> length l <= capacity.
Proof. unfold SpecStaticPrograms.fits. rewrite forallb_forall. intros H Hi. apply Nat.leb_le. now apply H. Qed.
Lemma sp_elements_in j (ls : list (list element)) : j < length ls -> In (elements j ls) ls.
Proof. intros H. unfold SpecStaticPrograms.elements. now apply nth_In. Qed.
Lemma sp_fits_replace i l ls : SpecStaticPrograms.fits (V := element) capacity ls = true -> length l <= capacity -> SpecStaticPrograms.fits capacity (replace_at i l ls) = true.
Proof.
  unfold SpecStaticPrograms.fits. rewrite !forallb_forall. intros H Hl x Hx. unfold replace_at in Hx. apply in_app_or in Hx.
  destruct Hx as [Hx|Hx]; [|apply in_app_or in Hx; destruct Hx as [[<-|[]]|Hx]].
  - apply H. rewrite <- (firstn_skipn i ls). apply in_or_app. now left.
  - now apply Nat.leb_le.
  - apply H. rewrite <- (firstn_skipn (S i) ls). apply in_or_app. now right.
Qed.
Lemma sp_fits_app (ls ks : list (list element)) : SpecStaticPrograms.fits capacity (ls ++ ks) = SpecStaticPrograms.fits capacity ls && SpecStaticPrograms.fits capacity ks.
Proof. apply forallb_app. Qed.

Lemma static_map_step_ok s os ds others w :
  maps_in os ds others w -> static_allows s ds = true ->
  ends (do_static_map_step moved act capacity s os w)
    (fun os' r w' => r = static_reply same s ds /\ maps_in os' (static_after same s ds) others w' /\ steady w w')
    (fun os' w' => static_can_throw capacity (someone_throws w) s ds /\ maps_in os' (after_exception s ds) others w' /\ steady w w').
Proof.
  unfold static_allows. intros (ls & Hk & Hv) Hp. pose proof (mp_length _ _ _ Hk) as Hl1. pose proof Hv as [Hin Hu].
  pose proof (several_lengths vector_in _ _ _ _ Hin) as Hlen. pose proof (sp_fit _ _ _ _ Hv) as Hfit.
  assert (Hsz : length (sizes_of ls) = length ds) by (unfold SpecStaticPrograms.sizes_of; rewrite map_length; auto).
  destruct s as [|j|j|i|i n|i j|i j|i j|i a]; cbn [static_may_do do_static_map_step static_reply static_after static_can_throw after_exception] in *;
    repeat match goal with H : _ && _ = true |- _ => apply andb_prop in H; destruct H end;
    repeat match goal with
           | H : negb (nth _ _ _) = true |- _ => apply mp_lost_nth in H; destruct H as (d & Hd)
           | H : (_ <? _) = true |- _ => pose proof (proj1 (Nat.ltb_lt _ _) H); revert H
           end; intros.
  - (* MapNew *) pose proof (sp_step SpecStaticPrograms.New os ls others w Hv eq_refl) as H'. cbn [SpecStaticPrograms.then_ SpecStaticPrograms.or_else] in H'. unfold bind, ends in *.
    destruct (static_step moved capacity SpecStaticPrograms.New os w) as [os1 [] w1|os1 w1|]; [| |contradiction]; cbn [ret].
    + destruct H' as [H1 H2]. split; [reflexivity|]. split; [|exact H2]. eexists. split; [|exact H1]. apply mp_app; [exact Hk|]. apply mp_one. repeat split; auto.
    + destruct H' as (ls' & [] & _).
  - (* MapCopy *) destruct (sp_kept_at j ds ls d) as (Hf & Hr); auto.
    assert (Hpp : SpecStaticPrograms.possible capacity (SpecStaticPrograms.NewCopy (V := element) j) (sizes_of ls) = true) by (cbn [SpecStaticPrograms.possible]; now rewrite Hsz).
    pose proof (sp_step (SpecStaticPrograms.NewCopy j) os ls others w Hv Hpp) as H'. cbn [SpecStaticPrograms.then_ SpecStaticPrograms.or_else] in H'. unfold bind, ends in *.
    destruct (static_step moved capacity (SpecStaticPrograms.NewCopy j) os w) as [os1 [] w1|os1 w1|]; [| |contradiction]; cbn [ret].
    + destruct H' as [H1 H2]. split; [reflexivity|]. split; [|exact H2]. eexists. split; [|exact H1]. apply mp_app; [exact Hk|]. apply mp_one. rewrite Hd. now split.
    + destruct H' as (ls' & -> & Ht & H1 & H2). split.
      * destruct Ht as [Ht|[Ht _]]; [exact Ht|exfalso]. rewrite sp_fits_app, Hfit in Ht. cbn in Ht. rewrite andb_true_r in Ht. apply Nat.leb_gt in Ht.
        pose proof (sp_fits_in ls (elements j ls) Hfit ltac:(apply sp_elements_in; lia)). lia.
      * split; [|exact H2]. now exists ls.
  - (* MapMove *) assert (Hpp : SpecStaticPrograms.possible capacity (SpecStaticPrograms.NewMove (V := element) j) (sizes_of ls) = true) by (cbn [SpecStaticPrograms.possible]; now rewrite Hsz).
    pose proof (sp_step (SpecStaticPrograms.NewMove j) os ls others w Hv Hpp) as H'. cbn [SpecStaticPrograms.then_ SpecStaticPrograms.or_else] in H'. unfold bind, ends in *.
    destruct (static_step moved capacity (SpecStaticPrograms.NewMove j) os w) as [os1 [] w1|os1 w1|]; [| |contradiction]; cbn [ret].
    + destruct H' as [H1 H2]. split; [reflexivity|]. split; [|exact H2]. eexists. split; [|exact H1].
      apply mp_app; [apply mp_replace; [|exact Hk]|apply mp_one; now apply sp_kept_nth]. repeat split; auto.
    + destruct H' as (ls' & [] & _).
  - (* MapEnd *) assert (Hpp : SpecStaticPrograms.possible capacity (SpecStaticPrograms.End (V := element) i) (sizes_of ls) = true) by (cbn [SpecStaticPrograms.possible]; now rewrite Hsz).
    pose proof (sp_step (SpecStaticPrograms.End i) os ls others w Hv Hpp) as H'. cbn [SpecStaticPrograms.then_ SpecStaticPrograms.or_else] in H'. unfold bind, ends in *.
    destruct (static_step moved capacity (SpecStaticPrograms.End i) os w) as [os1 [] w1|os1 w1|]; [| |contradiction]; cbn [ret].
    + destruct H' as [H1 H2]. split; [reflexivity|]. split; [|exact H2]. eexists. split; [|exact H1]. now apply mp_remove.
    + destruct H' as (ls' & [] & _).
  - (* MapReserve *) discriminate.
  - (* MapCopyAssign *) destruct (sp_kept_at j ds ls d) as (Hf & Hr); auto.
    assert (Hpp : SpecStaticPrograms.possible capacity (SpecStaticPrograms.CopyAssign (V := element) i j) (sizes_of ls) = true).
    { cbn [SpecStaticPrograms.possible]. cbv zeta. rewrite Hsz. apply andb_true_intro; split; assumption. }
    pose proof (sp_step (SpecStaticPrograms.CopyAssign i j) os ls others w Hv Hpp) as H'. cbn [SpecStaticPrograms.then_ SpecStaticPrograms.or_else] in H'. unfold bind, ends in *.
    destruct (static_step moved capacity (SpecStaticPrograms.CopyAssign i j) os w) as [os1 [] w1|os1 w1|]; [| |contradiction]; cbn [ret].
    + destruct H' as [H1' H2']. split; [reflexivity|]. split; [|exact H2']. eexists. split; [|exact H1']. apply mp_replace; [|exact Hk]. rewrite Hd. now split.
    + destruct H' as (ls' & (Hij & n & _ & _ & ->) & Ht & H1' & H2'). split.
      * split; [exact Hij|]. destruct Ht as [Ht|[Ht _]]; [exact Ht|exfalso]. rewrite sp_fits_replace in Ht; [discriminate|exact Hfit|].
        apply (sp_fits_in ls); [exact Hfit|]. apply sp_elements_in. lia.
      * split; [|exact H2']. eexists. split; [|exact H1']. apply mp_replace; [exact I|exact Hk].
  - (* MapMoveAssign *) assert (Hpp : SpecStaticPrograms.possible capacity (SpecStaticPrograms.MoveAssign (V := element) i j) (sizes_of ls) = true).
    { cbn [SpecStaticPrograms.possible]. cbv zeta. rewrite Hsz. repeat (apply andb_true_intro; split); assumption. }
    pose proof (sp_step (SpecStaticPrograms.MoveAssign i j) os ls others w Hv Hpp) as H'. cbn [SpecStaticPrograms.then_ SpecStaticPrograms.or_else] in H'. unfold bind, ends in *.
    destruct (static_step moved capacity (SpecStaticPrograms.MoveAssign i j) os w) as [os1 [] w1|os1 w1|]; [| |contradiction]; cbn [ret].
    + destruct H' as [H1' H2']. split; [reflexivity|]. split; [|exact H2']. eexists. split; [|exact H1'].
      apply mp_replace; [exact I|]. apply mp_replace; [now apply sp_kept_nth|exact Hk].
    + destruct H' as (ls' & [] & _).
  - (* MapSwap *) assert (Hi : i < length ls) by lia. assert (Hj : j < length ls) by lia.
    match goal with H : negb (i =? j) = true |- _ => pose proof H as Hnij; apply negb_true_iff, Nat.eqb_neq in H end. rename H into Hij || idtac.
    assert (Hd : i <> j) by (apply Nat.eqb_neq, negb_true_iff; exact Hnij).
    unfold bind, get. rewrite Hlen. set (n := length ls) in *.
    assert (P1 : SpecStaticPrograms.possible capacity (SpecStaticPrograms.NewMove (V := element) i) (sizes_of ls) = true) by (cbn [SpecStaticPrograms.possible]; rewrite Hsz; apply Nat.ltb_lt; lia).
    pose proof (sp_step (SpecStaticPrograms.NewMove i) os ls others w Hv P1) as S1. cbn [SpecStaticPrograms.then_ SpecStaticPrograms.or_else] in S1. unfold ends in S1.
    destruct (static_step moved capacity (SpecStaticPrograms.NewMove i) os w) as [os1 [] w1|os1 w1|]; [|destruct S1 as (ls' & [] & _)|contradiction].
    destruct S1 as [V1 E1]. set (l1 := replace_at i [] ls ++ [elements i ls]) in *.
    assert (L1 : length l1 = S n) by exact (mp_lens i _ _ ls Hi).
    assert (SL : forall l : list (list element), length (sizes_of l) = length l) by (intros; apply map_length).
    assert (P2 : SpecStaticPrograms.possible capacity (SpecStaticPrograms.MoveAssign (V := element) i j) (sizes_of l1) = true).
    { cbn [SpecStaticPrograms.possible]. rewrite SL, L1. repeat (apply andb_true_intro; split); try (apply Nat.ltb_lt; lia). exact Hnij. }
    pose proof (sp_step (SpecStaticPrograms.MoveAssign i j) os1 l1 others w1 V1 P2) as S2. cbn [SpecStaticPrograms.then_ SpecStaticPrograms.or_else] in S2. unfold ends in S2.
    destruct (static_step moved capacity (SpecStaticPrograms.MoveAssign i j) os1 w1) as [os2 [] w2|os2 w2|]; [|destruct S2 as (ls' & [] & _)|contradiction].
    destruct S2 as [V2 E2]. set (l2 := replace_at j (map moved (elements j l1)) (replace_at i (elements j l1) l1)) in *.
    assert (L2 : length l2 = S n) by exact (mp_lens2 i j _ _ l1 (S n) L1 ltac:(lia) ltac:(lia)).
    assert (P3 : SpecStaticPrograms.possible capacity (SpecStaticPrograms.MoveAssign (V := element) j n) (sizes_of l2) = true).
    { cbn [SpecStaticPrograms.possible]. rewrite SL, L2. repeat (apply andb_true_intro; split); try (apply Nat.ltb_lt; lia). apply negb_true_iff, Nat.eqb_neq. lia. }
    pose proof (sp_step (SpecStaticPrograms.MoveAssign j n) os2 l2 others w2 V2 P3) as S3. cbn [SpecStaticPrograms.then_ SpecStaticPrograms.or_else] in S3. unfold ends in S3.
    destruct (static_step moved capacity (SpecStaticPrograms.MoveAssign j n) os2 w2) as [os3 [] w3|os3 w3|]; [|destruct S3 as (ls' & [] & _)|contradiction].
    destruct S3 as [V3 E3]. set (l3 := replace_at n (map moved (elements n l2)) (replace_at j (elements n l2) l2)) in *.
    assert (L3 : length l3 = S n) by exact (mp_lens2 j n _ _ l2 (S n) L2 ltac:(lia) ltac:(lia)).
    assert (P4 : SpecStaticPrograms.possible capacity (SpecStaticPrograms.End (V := element) n) (sizes_of l3) = true).
    { cbn [SpecStaticPrograms.possible]. rewrite SL, L3. apply Nat.ltb_lt; lia. }
    pose proof (sp_step (SpecStaticPrograms.End n) os3 l3 others w3 V3 P4) as S4. cbn [SpecStaticPrograms.then_ SpecStaticPrograms.or_else] in S4. unfold ends in S4.
    destruct (static_step moved capacity (SpecStaticPrograms.End n) os3 w3) as [os4 [] w4|os4 w4|]; [|destruct S4 as (ls' & [] & _)|contradiction].
    destruct S4 as [V4 E4]. cbn [ret ends]. split; [reflexivity|]. split.
    + exists (remove_at n l3). split; [|exact V4].
      replace (remove_at n l3) with (replace_at j (elements i ls) (replace_at i (elements j ls) ls))
        by (symmetry; exact (swap_by_moves2 i j [] [] (map moved (elements j l1)) (map moved (elements n l2)) ls Hi Hj Hd)).
      apply mp_replace; [apply sp_kept_nth; [lia|exact Hk]|]. apply mp_replace; [apply sp_kept_nth; [lia|exact Hk]|exact Hk].
    + unfold steady in *. eapply incl_tran; [exact E4|]. eapply incl_tran; [exact E3|]. eapply incl_tran; eassumption.
  - (* MapAct *) destruct (sp_kept_at i ds ls d) as (Hf & Hr); auto.
    pose proof (sp_focus i (act a) os ls others w
      (fun r m' => r = snd (dictionary_act same d a) /\ good m' /\ represents same m' (fst (dictionary_act same d a)))
      (fun m' => (good m' /\ represents same m' d) /\ (someone_throws w \/ inserts_new d a /\ keys d = capacity)) ltac:(lia) Hv) as H'.
    match type of H' with ?P -> _ => assert (Hmp : P); [|specialize (H' Hmp); clear Hmp] end.
    { intros o rest Ho. pose proof (Hact rest o (elements i ls) d w a Ho Hf Hr) as Hx. unfold ends in *.
      destruct (act a o w) as [o' r w'|o' w'|]; [| |contradiction].
      - destruct Hx as (-> & Hs & m' & Hm' & Hf' & Hr'). split; [exact Hs|]. exists m'. repeat split; auto; apply Hm' || apply Hr'.
      - destruct Hx as (Hs & (m' & Hm' & Hf' & Hr') & Ht). split; [exact Hs|]. exists m'. split; [|exact Hm']. split; [split; [exact Hf'|exact Hr']|exact Ht]. }
    unfold bind. unfold ends in *. destruct (one_of i (act a) os w) as [os1 r w1|os1 w1|]; [| |contradiction]; cbn [ret].
    + destruct H' as (m' & (-> & Hf' & Hr') & H1' & H2'). rewrite Hd. split; [reflexivity|]. split; [|exact H2']. eexists. split; [|exact H1'].
      apply mp_replace; [|exact Hk]. split; [exact Hf'|exact Hr'].
    + destruct H' as (m' & ((Hf' & Hr') & Ht) & H1' & H2'). split; [destruct Ht as [Ht|Ht]; [now left|right; eauto]|]. split; [|exact H2'].
      eexists. split; [|exact H1']. replace ds with (replace_at i (Some d) ds).
      * apply mp_replace; [|exact Hk]. split; [exact Hf'|exact Hr'].
      * apply replace_same. unfold dictionary_at in Hd. rewrite <- Hd. apply nth_error_nth'. assumption.
Qed.

(** ** Programs *)
Lemma sp_lost_returned s (ds : list entry) : static_allows s ds = true -> lost_of (static_after same s ds) = static_lost_after s (lost_of ds).
Proof.
  unfold static_allows. intros Hp. destruct s as [|j|j|i|i n|i j|i j|i j|i a]; cbn [static_after static_lost_after lost_after static_may_do] in *;
    repeat match goal with H : _ && _ = true |- _ => apply andb_prop in H; destruct H end;
    repeat match goal with
           | H : negb (nth _ _ _) = true |- _ => apply mp_lost_nth in H; destruct H as (d & Hd)
           end;
    rewrite ?mp_lost_app, ?mp_lost_replace, ?mp_lost_at; auto.
  - cbn. now rewrite Hd.
  - exact (eq_trans (mp_lost_app _ _) (f_equal (fun l => l ++ _) (mp_lost_replace j (Some no_entries) ds))).
  - unfold remove_at, lost_of. now rewrite map_app, firstn_map, skipn_map.
  - now rewrite Hd.
  - exact (eq_trans (mp_lost_replace j None _) (f_equal (replace_at j true) (mp_lost_replace i (dictionary_at j ds) ds))).
  - rewrite Hd. refine (eq_trans (mp_lost_replace i (Some _) ds) _). apply replace_same. assert (Hi : i < length (lost_of ds)) by (unfold lost_of; rewrite map_length; now apply Nat.ltb_lt).
    rewrite (nth_error_nth' _ true Hi), mp_lost_at, Hd. reflexivity.
Qed.
Lemma static_tells_trouble (P P' : Prop) (ds : list entry) ss seen ds' : (P -> P') -> static_tells same capacity P ds ss seen ds' -> static_tells same capacity P' ds ss seen ds'.
Proof.
  intros HP H. induction H.
  - constructor.
  - now constructor.
  - apply static_threw; auto. destruct s; cbn [static_can_throw] in *; intuition.
  - now constructor.
Qed.
Lemma sp_len os ds others w : maps_in os ds others w -> length os = length ds.
Proof. intros (ls & Hk & [Hin _]). rewrite (mp_length _ _ _ Hk). exact (several_lengths vector_in _ _ _ _ Hin). Qed.
Local Notation program := (static_map_program moved act capacity).
Lemma static_map_program_ok ss : forall os ds others w,
  maps_in os ds others w ->
  ends (program ss (lost_of ds) os w)
    (fun os' seen w' => exists ds', static_tells same capacity (someone_throws w) ds ss seen ds' /\ maps_in os' ds' others w') (fun _ _ => False).
Proof.
  induction ss as [|s ss IH]; intros os ds others w Hm; cbn [static_map_program].
  - cbn. exists ds. split; [constructor|exact Hm].
  - unfold bind at 1. unfold get. rewrite (sp_len _ _ _ _ Hm). fold (static_allows s ds). destruct (static_allows s ds) eqn:Hp.
    + unfold bind at 1. unfold attempt. pose proof (static_map_step_ok s os ds others w Hm Hp) as Hs. unfold ends in Hs.
      destruct (do_static_map_step moved act capacity s os w) as [os1 r w1|os1 w1|]; [| |contradiction].
      * destruct Hs as (-> & Hm1 & Hs1). rewrite <- (sp_lost_returned s ds Hp). specialize (IH _ _ _ _ Hm1). unfold bind, ends in *.
        destruct (program ss (lost_of (static_after same s ds)) os1 w1) as [os2 seen w2|os2 w2|]; try contradiction. cbn [ret].
        destruct IH as (ds' & Ht & Hm2). exists ds'. split; [|exact Hm2]. apply static_returned; [exact Hp|]. eapply static_tells_trouble; [|exact Ht]. now apply steady_throws.
      * destruct Hs as (Hc & Hm1 & Hs1). rewrite <- (lost_threw s ds). specialize (IH _ _ _ _ Hm1). unfold bind, ends in *.
        destruct (program ss (lost_of (after_exception s ds)) os1 w1) as [os2 seen w2|os2 w2|]; try contradiction. cbn [ret].
        destruct IH as (ds' & Ht & Hm2). exists ds'. split; [|exact Hm2]. apply static_threw; [exact Hp|exact Hc|]. eapply static_tells_trouble; [|exact Ht]. now apply steady_throws.
    + specialize (IH _ _ _ _ Hm). unfold bind, ends in *. destruct (program ss (lost_of ds) os w) as [os2 seen w2|os2 w2|]; try contradiction. cbn [ret].
      destruct IH as (ds' & Ht & Hm2). exists ds'. split; [|exact Hm2]. now apply static_skipped.
Qed.
Lemma static_map_program_calm ss : (forall m d a, good m -> represents same m d -> inserts_new d a -> keys d < capacity) -> forall os ds others w, ~ someone_throws w ->
  maps_in os ds others w -> ends (program ss (lost_of ds) os w) (fun _ seen _ => ~ In Threw seen) (fun _ _ => False).
Proof.
  intros Hroom. induction ss as [|s ss IH]; intros os ds others w Hq Hm; cbn [static_map_program].
  - cbn. auto.
  - unfold bind at 1. unfold get. rewrite (sp_len _ _ _ _ Hm). fold (static_allows s ds). destruct (static_allows s ds) eqn:Hp.
    + unfold bind at 1. unfold attempt. pose proof (static_map_step_ok s os ds others w Hm Hp) as Hs. unfold ends in Hs.
      destruct (do_static_map_step moved act capacity s os w) as [os1 r w1|os1 w1|]; [| |contradiction].
      * destruct Hs as (-> & Hm1 & Hs1). rewrite <- (sp_lost_returned s ds Hp).
        specialize (IH _ _ _ w1 ltac:(intros Ht; apply Hq; exact (steady_throws _ _ Hs1 Ht)) Hm1). unfold bind, ends in *.
        destruct (program ss (lost_of (static_after same s ds)) os1 w1) as [os2 seen w2|os2 w2|]; try contradiction. cbn [ret].
        intros [E|Hi]; [discriminate|contradiction].
      * exfalso. destruct Hs as (Hc & _ & _). destruct Hm as (ls & Hk & _).
        destruct s as [|j|j|i|i k|i j|i j|i j|i a]; cbn [static_can_throw] in Hc; try tauto.
        destruct Hc as [Hc|(d & Hd & Hn & Hc)]; [contradiction|]. unfold static_allows in Hp. cbn [static_may_do] in Hp. apply andb_prop in Hp. destruct Hp as [Hp _].
        apply Nat.ltb_lt in Hp. destruct (sp_kept_at i ds ls d Hp Hk Hd) as (Hf & Hr). pose proof (Hroom _ _ _ Hf Hr Hn). lia.
    + specialize (IH _ _ _ _ Hq Hm). unfold bind, ends in *. destruct (program ss (lost_of ds) os w) as [os2 seen w2|os2 w2|]; try contradiction. cbn [ret].
      intros [E|Hi]; [discriminate|contradiction].
Qed.
Lemma static_map_ends_ok n : forall os ds others w lost, length os = n ->
  maps_in os ds others w ->
  ends (program (repeat (MapEnd 0) n) lost os w) (fun os' _ w' => SpecVec.same (heap w') others) (fun _ _ => False).
Proof.
  induction n as [|n IH]; intros os ds others w lost Hn Hm.
  - destruct os; [|discriminate]. destruct Hm as (ls & Hk & [Hin _]). destruct ls; [|destruct Hin]. exact Hin.
  - pose proof (sp_len _ _ _ _ Hm) as Hlen.
    cbn [repeat static_map_program]. unfold bind at 1. unfold get. assert (static_may_do (MapEnd (K := K) (T := T) 0) (length os) lost = true) as -> by (apply (proj2 (Nat.ltb_lt 0 (length os))); lia).
    assert (Hp : static_allows (MapEnd (K := K) (T := T) 0) ds = true) by (apply (proj2 (Nat.ltb_lt 0 (length ds))); lia).
    pose proof (static_map_step_ok (MapEnd 0) os ds others w Hm Hp) as Hs. unfold bind at 1. unfold attempt. unfold ends in Hs.
    destruct (do_static_map_step moved act capacity (MapEnd 0) os w) as [os1 r w1|os1 w1|]; [|destruct Hs as ([] & _)|contradiction].
    destruct Hs as (_ & Hm1 & _). cbn [static_after] in Hm1.
    pose proof (sp_len _ _ _ _ Hm1) as Hlen1.
    rewrite length_remove in Hlen1 by lia.
    specialize (IH os1 _ others w1 (static_lost_after (MapEnd (K := K) (T := T) 0) lost) ltac:(lia) Hm1). unfold bind, ends in *.
    destruct (program (repeat (MapEnd 0) n) (static_lost_after (MapEnd (K := K) (T := T) 0) lost) os1 w1); auto.
Qed.
Lemma whole_static_maps_ok ss w : unused_names w ->
  ends (whole_static_map_program moved act capacity ss tt w)
    (fun _ seen w' => SpecVec.same (heap w') (heap w) /\ exists ds, static_tells same capacity (someone_throws w) [] ss seen ds) (fun _ _ => False).
Proof.
  intros Hu. assert (Hm : maps_in [] [] (heap w) w). { exists []. split; [constructor|]. split; [now intros b|exact Hu]. }
  unfold whole_static_map_program. pose proof (static_map_program_ok ss [] [] (heap w) w Hm) as H. unfold ends in *. change (lost_of []) with (@nil bool) in H.
  destruct (program ss [] [] w) as [os seen w1|os w1|]; try contradiction. destruct H as (ds & Ht & Hm1).
  pose proof (static_map_ends_ok (length os) os ds (heap w) w1 (repeat true (length os)) eq_refl Hm1) as H. unfold ends in H.
  destruct (program (repeat (MapEnd 0) (length os)) (repeat true (length os)) os w1); try contradiction. eauto.
Qed.
End Proofs.

(** ** The two kinds of maps *)
Lemma static_flat_act_ok {K T} (moved : K * T -> K * T) key_less capacity (Hlt : strict_weak_order key_less) others o m d w a :
  is_static_vector capacity o m others w -> flat key_less m -> represents (equivalent key_less) m d ->
  ends (mem_act moved key_less (static_vector capacity) a o w)
    (fun o' r w' => r = snd (dictionary_act (equivalent key_less) d a) /\ incl (script w') (script w) /\
       exists m', is_static_vector capacity o' m' others w' /\ flat key_less m' /\ represents (equivalent key_less) m' (fst (dictionary_act (equivalent key_less) d a)))
    (fun o' w' => incl (script w') (script w) /\ (exists m', is_static_vector capacity o' m' others w' /\ flat key_less m' /\ represents (equivalent key_less) m' d) /\
       (someone_throws w \/ inserts_new d a /\ keys d = capacity)).
Proof.
  intros Ho Hf Hr. refine (FlatMemoryProofs2.ends_weaken _ _ _ _ _ (flat_static_act moved key_less Hlt capacity others None I o d w a (ex_intro _ m (conj Ho (conj Hf Hr)))) _ _); cbv beta.
  - intros o' r w' (-> & Hm & Hs & _). split; [reflexivity|]. split; [exact Hs|exact Hm].
  - intros o' w' (-> & Hm & Hs & Ht). split; [exact Hs|]. split; [exact Hm|]. tauto.
Qed.
Lemma static_linear_act_ok {K T} (moved : K * T -> K * T) equal capacity (Heq : equivalence equal) others o m d w a :
  is_static_vector capacity o m others w -> distinct equal m -> represents equal m d ->
  ends (mem_linear_act moved equal (static_vector capacity) a o w)
    (fun o' r w' => r = snd (dictionary_act equal d a) /\ incl (script w') (script w) /\
       exists m', is_static_vector capacity o' m' others w' /\ distinct equal m' /\ represents equal m' (fst (dictionary_act equal d a)))
    (fun o' w' => incl (script w') (script w) /\ (exists m', is_static_vector capacity o' m' others w' /\ distinct equal m' /\ represents equal m' d) /\
       (someone_throws w \/ inserts_new d a /\ keys d = capacity)).
Proof.
  intros Hh Hm Hr.
  pose proof (linear_act_memory moved equal (static_vector capacity) (static_holds capacity others) (fun _ m => length m = capacity) (fun o m => False)
    (static_size capacity others) (static_read capacity others) (static_quiet capacity others) (static_push moved capacity others) (static_erase' moved capacity others) o m w a Hh) as Ha.
  destruct (linear_act_ok equal Heq m d a Hm Hr) as (m1 & Hact & Hm1 & Hr1). unfold ends, ends_or in *. destruct (mem_linear_act moved equal (static_vector capacity) a o w) as [o' r w'|o' w'|].
  - destruct Ha as (m' & E & Hh' & Hs). rewrite Hact in E. injection E as <- <-. split; [reflexivity|]. split; [exact Hs|]. now exists m1.
  - destruct Ha as (-> & Hh' & Hs & Hc). split; [exact Hs|]. split; [now exists m|]. destruct Hc as [Hc|(k & v & -> & Hk & Hc)]; [now left|right].
    destruct Hr as (Hr1' & Hr2). split; [exists k, v; split; [reflexivity|]; now rewrite <- Hr1', Hk|]. now rewrite <- Hr2.
  - destruct Ha as (_ & k & v & _ & _ & Hc). exact Hc.
Qed.

Lemma inserts_new_keys {K T} same (d : @dictionary K T) a : inserts_new d a -> keys (fst (dictionary_act same d a)) = S (keys d).
Proof. intros (k & v & -> & E). cbn [dictionary_act]. rewrite E. cbn. lia. Qed.
Lemma static_flat_room {K T} (key_less : K -> K -> bool) (Hlt : strict_weak_order key_less) n capacity : different_keys (equivalent key_less) n -> n <= capacity ->
  forall (m : list (K * T)) d a, flat key_less m -> represents (equivalent key_less) m d -> inserts_new d a -> keys d < capacity.
Proof.
  intros Hn Hc m d a Hf Hr Hi. destruct (flat_act_ok key_less Hlt m d a Hf Hr) as (m1 & _ & Hm1 & Hr1). destruct Hr1 as [_ Hr1]. rewrite (inserts_new_keys _ _ _ Hi) in Hr1.
  pose proof (pigeons key_less Hlt n m1 Hn (flat_is_distinct key_less m1 Hm1)). lia.
Qed.
Lemma static_linear_room {K T} (equal : K -> K -> bool) (Heq : equivalence equal) n capacity : different_keys equal n -> n <= capacity ->
  forall (m : list (K * T)) d a, distinct equal m -> represents equal m d -> inserts_new d a -> keys d < capacity.
Proof.
  intros Hn Hc m d a Hf Hr Hi. destruct (linear_act_ok equal Heq m d a Hf Hr) as (m1 & _ & Hm1 & Hr1). destruct Hr1 as [_ Hr1]. rewrite (inserts_new_keys _ _ _ Hi) in Hr1.
  pose proof (LinearPrograms.lp_pigeons (fun e => e) equal Heq 1 Nat.lt_0_1 n m1 Hn Hm1). lia.
Qed.
