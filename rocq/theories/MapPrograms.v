(** * Proofs: programs with any number of flat maps *)

From Coq Require Import List Arith Bool Lia.
From Verif Require Import Mem MemLemmas Vec SpecVec SpecHistory SpecSeveral Several SpecVecPrograms VecPrograms SpecSort SpecUnique FlatMap SpecMap Keyed SpecDict
  KeyedProofs SpecFlatMemory FlatMemory VecCost FlatMemoryProofs2 SpecMapPrograms.
From Verif Require PropsVec.
Import ListNotations.
Local Open Scope nat_scope.

Section Lists.
Context {A B : Type} (R : A -> B -> Prop).
Lemma mp_firstn n : forall l k, Forall2 R l k -> Forall2 R (firstn n l) (firstn n k).
Proof. induction n; intros l k H; [constructor|]. destruct H; constructor; auto. Qed.
Lemma mp_skipn n : forall l k, Forall2 R l k -> Forall2 R (skipn n l) (skipn n k).
Proof. induction n; intros l k H; [exact H|]. destruct H; [constructor|]. cbn. auto. Qed.
Lemma mp_app l l' k k' : Forall2 R l k -> Forall2 R l' k' -> Forall2 R (l ++ l') (k ++ k').
Proof. intros H H'. induction H; cbn; auto. Qed.
Lemma mp_one x y : R x y -> Forall2 R [x] [y].
Proof. auto. Qed.
Lemma mp_replace i x y l k : R x y -> Forall2 R l k -> Forall2 R (replace_at i x l) (replace_at i y k).
Proof. intros H H'. unfold replace_at. apply mp_app; [now apply mp_firstn|]. apply mp_app; [auto|now apply mp_skipn]. Qed.
Lemma mp_remove i l k : Forall2 R l k -> Forall2 R (remove_at i l) (remove_at i k).
Proof. intros H'. unfold remove_at. apply mp_app; [now apply mp_firstn|now apply mp_skipn]. Qed.
Lemma mp_nth i x y l k : R x y -> Forall2 R l k -> R (nth i l x) (nth i k y).
Proof. intros H H'. revert i. induction H'; intros [|i]; cbn; auto. Qed.
Lemma mp_length l k : Forall2 R l k -> length l = length k.
Proof. intros H. induction H; cbn; auto. Qed.
End Lists.

Lemma nth_replace_d {A} i (x d : A) l : i < length l -> nth i (replace_at i x l) d = x.
Proof. intros H. apply nth_error_nth. now apply nth_replace. Qed.
Lemma nth_replace_other_d {A} i j (x d : A) l : i < length l -> j <> i -> nth j (replace_at i x l) d = nth j l d.
Proof.
  intros H Hj. pose proof (nth_replace_other i j x l H Hj) as E. destruct (nth_error l j) as [y|] eqn:Ey.
  - now rewrite (nth_error_nth _ _ _ E), (nth_error_nth _ _ _ Ey).
  - apply nth_error_None in E, Ey. now rewrite !nth_overflow.
Qed.

Lemma replace_app_l {A} i (x : A) a b : i < length a -> replace_at i x (a ++ b) = replace_at i x a ++ b.
Proof.
  intros H. unfold replace_at. rewrite firstn_app, skipn_app. replace (i - length a) with 0 by lia. replace (S i - length a) with 0 by lia. cbn [firstn skipn].
  rewrite app_nil_r. cbn [app]. now rewrite <- app_assoc.
Qed.
Lemma remove_last {A} (x y : A) a : remove_at (length a) (replace_at (length a) x (a ++ [y])) = a.
Proof.
  unfold replace_at. rewrite firstn_app, firstn_all, Nat.sub_diag. cbn [firstn]. rewrite app_nil_r, skipn_all2 by (rewrite app_length; cbn; lia). rewrite app_nil_r.
  unfold remove_at. rewrite firstn_app, firstn_all, Nat.sub_diag. cbn [firstn]. rewrite app_nil_r, skipn_all2 by (rewrite app_length; cbn; lia). now rewrite app_nil_r.
Qed.
Lemma swap_by_moves {A} i j (d : A) l : i < length l -> j < length l ->
  let n := length l in
  let l1 := replace_at i d l ++ [nth i l d] in
  let l2 := replace_at j d (replace_at i (nth j l1 d) l1) in
  remove_at n (replace_at n d (replace_at j (nth n l2 d) l2)) = replace_at j (nth i l d) (replace_at i (nth j l d) l).
Proof.
  intros Hi Hj n l1 l2. set (x := nth i l d) in *. set (y := nth j (replace_at i d l) d).
  assert (Hr : forall k (z : A), k < length l -> forall a : list A, length a = length l -> length (replace_at k z a) = length l) by (intros k z Hk a Ha; rewrite length_replace; lia).
  assert (E1 : nth j l1 d = y) by (unfold l1; rewrite app_nth1; [reflexivity|]; rewrite length_replace; lia).
  assert (E2 : l2 = replace_at j d (replace_at i y l) ++ [x]).
  { unfold l2. rewrite E1. unfold l1. rewrite replace_app_l by (rewrite length_replace; lia). rewrite replace_twice by lia. rewrite replace_app_l by (rewrite length_replace; lia). reflexivity. }
  assert (Hl : length (replace_at j d (replace_at i y l)) = n) by (unfold n; auto).
  assert (E3 : nth n l2 d = x). { rewrite E2. rewrite app_nth2 by lia. rewrite Hl, Nat.sub_diag. reflexivity. }
  rewrite E3, E2. rewrite replace_app_l by (rewrite Hl; exact Hj). rewrite replace_twice by (rewrite length_replace; lia).
  replace n with (length (replace_at j x (replace_at i y l))) by auto. rewrite remove_last.
  destruct (Nat.eq_dec i j) as [->|Hij].
  - rewrite !replace_twice by lia. reflexivity.
  - unfold y. rewrite nth_replace_other_d by lia. reflexivity.
Qed.

Lemma mp_lens {A} i (x y : A) l : i < length l -> length (replace_at i x l ++ [y]) = S (length l).
Proof. intros H. rewrite app_length, length_replace by exact H. cbn. lia. Qed.
Lemma mp_lens2 {A} i j (x y : A) l n : length l = n -> i < n -> j < n -> length (replace_at j x (replace_at i y l)) = n.
Proof. intros <- Hi Hj. rewrite length_replace; rewrite length_replace; auto. Qed.

Section Proofs.
Context {K T : Type} (moved : K * T -> K * T) (key_less : K -> K -> bool) (Hlt : strict_weak_order key_less) (maxc : nat) (Hmax : 0 < maxc).
Local Notation element := (K * T)%type.
Local Notation kept := (kept (K := K) (T := T) key_less).
Local Notation maps_in := (maps_in (K := K) (T := T) key_less maxc).
Local Notation same := (equivalent key_less).

Definition steady (w w' : world element) : Prop := incl (script w') (script w).
Lemma steady_throws w w' : steady w w' -> someone_throws w' -> someone_throws w.
Proof. intros H Ht. apply H, Ht. Qed.

(** A step of the containers. *)
Lemma mp_step s os ls others w : vectors 0 maxc os ls others w -> possible maxc s (sizes_of ls) (gone_of ls) = true ->
  ends (container_step moved maxc s os w) (fun os' _ w' => vectors 0 maxc os' (then_ s ls) others w' /\ steady w w')
    (fun os' w' => (someone_throws w \/ too_large maxc s ls) /\ (exists ls', or_else s ls ls' /\ vectors 0 maxc os' ls' others w') /\ steady w w').
Proof.
  intros Hv Hp. unfold container_step. pose proof (step_fine moved 0 maxc (Nat.le_0_l _) Hmax s os ls others w Hv Hp) as H.
  pose proof (calm_step moved 0 maxc (Nat.le_0_l _) s os w) as Hc. unfold ends in *.
  destruct (do_step moved 0 maxc s os w) as [os1 [] w1|os1 w1|]; [| |contradiction]; destruct Hc as [Hc _]; unfold steady; tauto.
Qed.

Lemma mp_lost_nth i (ds : list (entry (K := K) (T := T))) : negb (nth i (lost_of ds) true) = true -> exists d, dictionary_at i ds = Some d.
Proof.
  unfold dictionary_at. revert i. induction ds as [|[d|] ds IH]; intros [|i] H; cbn in *; try discriminate; eauto.
Qed.
Lemma mp_kept_at i ds ls d : Forall2 kept ds ls -> dictionary_at i ds = Some d ->
  exists m, at_index i ls = Some m /\ elements i ls = m /\ flat key_less m /\ represents same m d.
Proof.
  intros Hk Hd. pose proof (mp_nth kept i None None ds ls I Hk) as H. unfold dictionary_at in Hd. rewrite Hd in H. destruct H as (m & E & Hf & H1 & H2).
  exists m. unfold elements, at_index. rewrite E. repeat split; auto.
Qed.
Lemma mp_kept_nth i ds ls : Forall2 kept ds ls -> kept (dictionary_at i ds) (at_index i ls).
Proof. intros Hk. exact (mp_nth kept i None None ds ls I Hk). Qed.

Lemma mp_focus {A} i (f : M element bvector A) os ls others w m (Q : A -> list element -> Prop) (E : list element -> Prop) : i < length os -> vectors 0 maxc os ls others w -> at_index i ls = Some m ->
  (forall o rest, is_vector 0 maxc o m rest w ->
     ends (f o w) (fun o' a w' => steady w w' /\ exists m', Q a m' /\ is_vector 0 maxc o' m' rest w') (fun o' w' => steady w w' /\ exists m', E m' /\ is_vector 0 maxc o' m' rest w')) ->
  ends (one_of i f os w) (fun os' a w' => exists m', Q a m' /\ vectors 0 maxc os' (replace_at i (Some m') ls) others w' /\ steady w w')
    (fun os' w' => exists m', E m' /\ vectors 0 maxc os' (replace_at i (Some m') ls) others w' /\ steady w w').
Proof.
  intros Hi [Hin Hu] Hm Hf. destruct (focus_one (vector_in 0 maxc) (in_swap 0 maxc) i _ _ _ _ Hi Hin) as (o & l & rest & Hno & Hnl & Ho & Hr & Hback).
  rewrite (at_nth _ _ _ Hnl) in Hm. subst l. unfold one_of. rewrite Hno. specialize (Hf o rest (conj Ho Hu)). unfold ends in *.
  destruct (f o w) as [o1 a w1|o1 w1|]; [| |contradiction].
  - destruct Hf as (Hs & m' & HQ & H1 & H2). exists m'. split; [exact HQ|]. split; [|exact Hs]. split; [|exact H2]. now apply Hback.
  - destruct Hf as (Hs & m' & HE & H1 & H2). exists m'. split; [exact HE|]. split; [|exact Hs]. split; [|exact H2]. now apply Hback.
Qed.

Lemma map_step_ok s os ds others w :
  maps_in os ds others w -> may_do maxc s (length ds) (lost_of ds) = true ->
  ends (do_map_step moved key_less maxc s os w)
    (fun os' r w' => r = step_reply key_less s ds /\ maps_in os' (after_step key_less s ds) others w' /\ steady w w')
    (fun os' w' => can_throw maxc (someone_throws w) s ds /\ maps_in os' (after_exception s ds) others w' /\ steady w w').
Proof.
  intros (ls & Hk & Hv) Hp. pose proof (mp_length _ _ _ Hk) as Hl1. pose proof Hv as [Hin Hu].
  pose proof (several_lengths (vector_in 0 maxc) _ _ _ _ Hin) as Hlen.
  assert (Hsz : length (sizes_of ls) = length ds) by (rewrite sizes_length; auto).
  destruct s as [|j|j|i|i n|i j|i j|i j|i a]; cbn [may_do do_map_step step_reply after_step can_throw after_exception] in *;
    repeat match goal with H : _ && _ = true |- _ => apply andb_prop in H; destruct H end;
    repeat match goal with
           | H : negb (nth _ _ _) = true |- _ => apply mp_lost_nth in H; destruct H as (d & Hd)
           | H : (_ <=? _) = true |- _ => apply Nat.leb_le in H
           end.
  - (* MapNew *) unfold container_step. pose proof (mp_step New os ls others w Hv eq_refl) as H. cbn [do_step] in *. unfold container_step in H. cbn [do_step] in H.
    unfold another, on_unit, bind in *. replace (bv_default 0 tt w) with (Ret (V := element) tt (BVector (Storage None 0) 0) w) in * by reflexivity.
    cbn in H |- *. destruct H as [H1 H2]. split; [reflexivity|]. split; [|exact H2]. exists (ls ++ [Some []]). split; [|exact H1].
    apply mp_app; [exact Hk|]. apply mp_one. exists []. split; [reflexivity|]. split; [apply flat_nothing|apply (represents_nothing key_less)].
  - (* MapCopy *) destruct (mp_kept_at _ _ _ _ Hk Hd) as (m & Em & El & Hf & Hr).
    assert (Hpp : possible maxc (NewCopy (V := element) j) (sizes_of ls) (gone_of ls) = true) by (cbn [possible]; now rewrite Hsz).
    pose proof (mp_step (NewCopy j) os ls others w Hv Hpp) as H'. cbn [then_ or_else too_large] in H'. unfold bind, ends in *.
    destruct (container_step moved maxc (NewCopy j) os w) as [os1 [] w1|os1 w1|]; [| |contradiction]; cbn [ret].
    + destruct H' as [H1 H2]. split; [reflexivity|]. split; [|exact H2]. eexists. split; [|exact H1]. apply mp_app; [exact Hk|]. apply mp_one. rewrite Hd, El.
      exists m. split; [reflexivity|]. split; [exact Hf|exact Hr].
    + destruct H' as ([Ht|[]] & (ls' & -> & H1) & H2). split; [exact Ht|]. split; [|exact H2]. now exists ls.
  - (* MapMove *) assert (Hpp : possible maxc (NewMove (V := element) j) (sizes_of ls) (gone_of ls) = true) by (cbn [possible]; now rewrite Hsz).
    pose proof (mp_step (NewMove j) os ls others w Hv Hpp) as H'. cbn [then_ or_else too_large] in H'. unfold bind, ends in *.
    destruct (container_step moved maxc (NewMove j) os w) as [os1 [] w1|os1 w1|]; [| |contradiction]; cbn [ret].
    + destruct H' as [H1 H2]. split; [reflexivity|]. split; [|exact H2]. eexists. split; [|exact H1].
      apply mp_app; [apply mp_replace; [exact I|exact Hk]|]. apply mp_one. now apply mp_kept_nth.
    + destruct H' as (_ & (ls' & [] & _) & _).
  - (* MapEnd *) assert (Hpp : possible maxc (End (V := element) i) (sizes_of ls) (gone_of ls) = true) by (cbn [possible]; now rewrite Hsz).
    pose proof (mp_step (End i) os ls others w Hv Hpp) as H'. cbn [then_ or_else too_large] in H'. unfold bind, ends in *.
    destruct (container_step moved maxc (End i) os w) as [os1 [] w1|os1 w1|]; [| |contradiction]; cbn [ret].
    + destruct H' as [H1 H2]. split; [reflexivity|]. split; [|exact H2]. eexists. split; [|exact H1]. now apply mp_remove.
    + destruct H' as (_ & (ls' & [] & _) & _).
  - (* MapReserve *) destruct (mp_kept_at _ _ _ _ Hk Hd) as (m & Em & El & Hf & Hr). assert (Hi : i < length os) by (apply Nat.ltb_lt; rewrite Hlen, <- Hl1; assumption).
    pose proof (mp_focus i (bv_reserve moved 0 maxc n) os ls others w m (fun _ m' => m' = m) (fun m' => m' = m /\ someone_throws w) Hi Hv Em) as H'.
    unfold bind. unfold ends in *. destruct (one_of i (bv_reserve moved 0 maxc n) os w) as [os1 [] w1|os1 w1|]; cbn [ret].
    all: match type of H' with ?P -> _ => assert (Hmp : P); [|specialize (H' Hmp)] end.
    1,3,5: intros o rest Ho; pose proof (PropsVec.C34_reserve element moved 0 maxc n o m rest w (Nat.le_0_l _) Ho ltac:(assumption)) as Hc;
      pose proof (evolves_reserve moved _ less_script_evolution 0 maxc n o w) as He; unfold ends in Hc;
      destruct (bv_reserve moved 0 maxc n o w) as [o1 u w2|o1 w2|]; [| |contradiction]; (split; [exact He|]);
      [exists m; split; [reflexivity|apply Hc]|destruct Hc as [Hc Ht]; exists m; split; [split; [reflexivity|exact Ht]|]; exact (untouched_in 0 maxc _ _ (Some m) _ _ _ (proj1 Ho) Hc)].
    + destruct H' as (m' & -> & H1' & H2'). split; [reflexivity|]. split; [|exact H2']. exists ls. split; [exact Hk|]. now rewrite at_replace in H1'.
    + destruct H' as (m' & (-> & Ht) & H1' & H2'). split; [exact Ht|]. split; [|exact H2']. exists ls. split; [exact Hk|]. now rewrite at_replace in H1'.
    + exact H'.
  - (* MapCopyAssign *) destruct (mp_kept_at _ _ _ _ Hk Hd) as (m & Em & El & Hf & Hr).
    assert (Hpp : possible maxc (CopyAssign (V := element) i j) (sizes_of ls) (gone_of ls) = true).
    { cbn [possible]. cbv zeta. rewrite Hsz. repeat (apply andb_true_intro; split); assumption. }
    pose proof (mp_step (CopyAssign i j) os ls others w Hv Hpp) as H'. cbn [then_ or_else too_large] in H'. unfold bind, ends in *.
    destruct (container_step moved maxc (CopyAssign i j) os w) as [os1 [] w1|os1 w1|]; [| |contradiction]; cbn [ret].
    + destruct H' as [H1' H2']. split; [reflexivity|]. split; [|exact H2']. eexists. split; [|exact H1']. apply mp_replace; [|exact Hk]. rewrite Hd, El.
      exists m. split; [reflexivity|]. split; [exact Hf|exact Hr].
    + destruct H' as (Ht & (ls' & Ho & H1') & H2'). split. { destruct Ht as [Ht|Ht]; [now left|right]. exists d. split; [exact Hd|]. rewrite El in Ht. now rewrite <- (proj2 Hr). }
      split; [|exact H2']. exists ls'. split; [|exact H1']. destruct (at_index i ls) as [l|] eqn:Ei.
      * destruct Ho as (n & _ & _ & ->). apply mp_replace; [exact I|exact Hk].
      * subst ls'. assert (Hi : i < length ls) by (apply Nat.ltb_lt; rewrite <- Hl1; assumption).
        replace ls with (replace_at i (None : state (V := element)) ls); [apply mp_replace; [exact I|exact Hk]|].
        apply replace_same. unfold at_index in Ei. rewrite <- Ei. now apply nth_error_nth'.
  - (* MapMoveAssign *) assert (Hpp : possible maxc (MoveAssign (V := element) i j) (sizes_of ls) (gone_of ls) = true).
    { cbn [possible]. cbv zeta. rewrite Hsz. repeat (apply andb_true_intro; split); assumption. }
    pose proof (mp_step (MoveAssign i j) os ls others w Hv Hpp) as H'. cbn [then_ or_else too_large] in H'. unfold bind, ends in *.
    destruct (container_step moved maxc (MoveAssign i j) os w) as [os1 [] w1|os1 w1|]; [| |contradiction]; cbn [ret].
    + destruct H' as [H1' H2']. split; [reflexivity|]. split; [|exact H2']. eexists. split; [|exact H1'].
      apply mp_replace; [exact I|]. apply mp_replace; [now apply mp_kept_nth|exact Hk].
    + destruct H' as (_ & (ls' & [] & _) & _).
  - (* MapSwap *) assert (Hi : i < length ls) by (apply Nat.ltb_lt; rewrite <- Hl1; assumption). assert (Hj : j < length ls) by (apply Nat.ltb_lt; rewrite <- Hl1; assumption).
    unfold bind, get. rewrite Hlen. set (n := length ls) in *.
    assert (P1 : possible maxc (NewMove (V := element) i) (sizes_of ls) (gone_of ls) = true) by (cbn [possible]; now rewrite Hsz).
    pose proof (mp_step (NewMove i) os ls others w Hv P1) as S1. cbn [then_ or_else too_large] in S1. unfold ends in S1.
    destruct (container_step moved maxc (NewMove i) os w) as [os1 [] w1|os1 w1|]; [|destruct S1 as (_ & (ls' & [] & _) & _)|contradiction].
    destruct S1 as [V1 E1]. set (l1 := replace_at i None ls ++ [at_index i ls]) in *.
    assert (L1 : length l1 = S n) by exact (mp_lens i _ _ ls Hi).
    assert (P2 : possible maxc (MoveAssign (V := element) i j) (sizes_of l1) (gone_of l1) = true).
    { cbn [possible]. rewrite (eq_trans (sizes_length l1) L1). apply andb_true_intro. split; apply Nat.ltb_lt; lia. }
    pose proof (mp_step (MoveAssign i j) os1 l1 others w1 V1 P2) as S2. cbn [then_ or_else too_large] in S2. unfold ends in S2.
    destruct (container_step moved maxc (MoveAssign i j) os1 w1) as [os2 [] w2|os2 w2|]; [|destruct S2 as (_ & (ls' & [] & _) & _)|contradiction].
    destruct S2 as [V2 E2]. set (l2 := replace_at j None (replace_at i (at_index j l1) l1)) in *.
    assert (L2 : length l2 = S n) by exact (mp_lens2 i j _ _ l1 (S n) L1 ltac:(lia) ltac:(lia)).
    assert (P3 : possible maxc (MoveAssign (V := element) j n) (sizes_of l2) (gone_of l2) = true).
    { cbn [possible]. rewrite (eq_trans (sizes_length l2) L2). apply andb_true_intro. split; apply Nat.ltb_lt; lia. }
    pose proof (mp_step (MoveAssign j n) os2 l2 others w2 V2 P3) as S3. cbn [then_ or_else too_large] in S3. unfold ends in S3.
    destruct (container_step moved maxc (MoveAssign j n) os2 w2) as [os3 [] w3|os3 w3|]; [|destruct S3 as (_ & (ls' & [] & _) & _)|contradiction].
    destruct S3 as [V3 E3]. set (l3 := replace_at n None (replace_at j (at_index n l2) l2)) in *.
    assert (L3 : length l3 = S n) by exact (mp_lens2 j n _ _ l2 (S n) L2 ltac:(lia) ltac:(lia)).
    assert (P4 : possible maxc (End (V := element) n) (sizes_of l3) (gone_of l3) = true).
    { cbn [possible]. rewrite (eq_trans (sizes_length l3) L3). apply Nat.ltb_lt; lia. }
    pose proof (mp_step (End n) os3 l3 others w3 V3 P4) as S4. cbn [then_ or_else too_large] in S4. unfold ends in S4.
    destruct (container_step moved maxc (End n) os3 w3) as [os4 [] w4|os4 w4|]; [|destruct S4 as (_ & (ls' & [] & _) & _)|contradiction].
    destruct S4 as [V4 E4]. cbn [ret ends]. split; [reflexivity|]. split.
    + exists (remove_at n l3). split; [|exact V4].
      replace (remove_at n l3) with (replace_at j (at_index i ls) (replace_at i (at_index j ls) ls)) by (symmetry; exact (swap_by_moves i j None ls Hi Hj)).
      apply mp_replace; [now apply mp_kept_nth|]. apply mp_replace; [now apply mp_kept_nth|exact Hk].
    + unfold steady in *. eapply incl_tran; [exact E4|]. eapply incl_tran; [exact E3|]. eapply incl_tran; eassumption.
  - (* MapAct *) destruct (mp_kept_at _ _ _ _ Hk Hd) as (m & Em & El & Hf & Hr). assert (Hi : i < length os) by (apply Nat.ltb_lt; rewrite Hlen, <- Hl1; assumption).
    pose proof (mp_focus i (mem_act moved key_less (bounded_vector moved 0 maxc) a) os ls others w m
      (fun r m' => r = snd (dictionary_act same d a) /\ flat key_less m' /\ represents same m' (fst (dictionary_act same d a)))
      (fun m' => (flat key_less m' /\ represents same m' d) /\ (someone_throws w \/ inserts_new d a /\ cannot_double maxc (keys d))) Hi Hv Em) as H'.
    match type of H' with ?P -> _ => assert (Hmp : P); [|specialize (H' Hmp); clear Hmp] end.
    { intros o rest Ho.
      pose proof (flat_vector_act moved key_less Hlt maxc rest False (fun _ => True) (fun _ => False) 0 ltac:(contradiction) ltac:(auto) ltac:(contradiction)
        o d w a (conj (ex_intro _ m (conj Ho (conj Hf Hr))) I)) as Hx. unfold ends in *.
      destruct (mem_act moved key_less (bounded_vector moved 0 maxc) a o w) as [o' r w'|o' w'|]; [| |contradiction].
      - destruct Hx as (-> & ((m' & Hm' & Hf' & Hr') & _) & Hs & _). split; [exact Hs|]. exists m'. repeat split; auto; apply Hm' || apply Hr'.
      - destruct Hx as (-> & ((m' & Hm' & Hf' & Hr') & _) & Hs & Ht). split; [exact Hs|]. exists m'. split; [|exact Hm']. split; [split; [exact Hf'|exact Hr']|]. tauto. }
    unfold bind. unfold ends in *. destruct (one_of i (mem_act moved key_less (bounded_vector moved 0 maxc) a) os w) as [os1 r w1|os1 w1|]; [| |contradiction]; cbn [ret].
    + destruct H' as (m' & (-> & Hf' & Hr') & H1' & H2'). rewrite Hd. split; [reflexivity|]. split; [|exact H2']. eexists. split; [|exact H1'].
      apply mp_replace; [|exact Hk]. exists m'. split; [reflexivity|]. split; [exact Hf'|exact Hr'].
    + destruct H' as (m' & ((Hf' & Hr') & Ht) & H1' & H2'). split; [destruct Ht as [Ht|Ht]; [now left|right; eauto]|]. split; [|exact H2'].
      eexists. split; [|exact H1']. replace ds with (replace_at i (Some d) ds).
      * apply mp_replace; [|exact Hk]. exists m'. split; [reflexivity|]. split; [exact Hf'|exact Hr'].
      * apply replace_same. unfold dictionary_at in Hd. rewrite <- Hd. apply nth_error_nth'. apply Nat.ltb_lt. assumption.
Qed.

(** ** Programs *)
Local Notation entry := (SpecMapPrograms.entry (K := K) (T := T)).
Lemma mp_map_replace {A B} (f : A -> B) i x l : map f (replace_at i x l) = replace_at i (f x) (map f l).
Proof. unfold replace_at. now rewrite !map_app, firstn_map, skipn_map. Qed.
Lemma mp_lost_at i (ds : list entry) : nth i (lost_of ds) true = match dictionary_at i ds with Some _ => false | None => true end.
Proof. unfold dictionary_at. revert i. induction ds as [|d ds IH]; intros [|i]; cbn; auto. Qed.
Lemma mp_lost_replace i (d : entry) ds : lost_of (replace_at i d ds) = replace_at i (match d with Some _ => false | None => true end) (lost_of ds).
Proof. apply (mp_map_replace (fun d : entry => match d with Some _ => false | None => true end)). Qed.
Lemma mp_lost_app (ds ds' : list entry) : lost_of (ds ++ ds') = lost_of ds ++ lost_of ds'.
Proof. apply map_app. Qed.
Lemma lost_returned s (ds : list entry) : may_do maxc s (length ds) (lost_of ds) = true -> lost_of (after_step key_less s ds) = lost_after s (lost_of ds).
Proof.
  intros Hp. destruct s as [|j|j|i|i n|i j|i j|i j|i a]; cbn [after_step lost_after may_do] in *;
    repeat match goal with H : _ && _ = true |- _ => apply andb_prop in H; destruct H end;
    repeat match goal with
           | H : negb (nth _ _ _) = true |- _ => apply mp_lost_nth in H; destruct H as (d & Hd)
           end;
    rewrite ?mp_lost_app, ?mp_lost_replace, ?mp_lost_at; auto.
  - cbn. now rewrite Hd.
  - unfold remove_at, lost_of. now rewrite map_app, firstn_map, skipn_map.
  - now rewrite Hd.
  - rewrite Hd, mp_lost_replace. apply replace_same. assert (Hi : i < length (lost_of ds)) by (unfold lost_of; rewrite map_length; now apply Nat.ltb_lt).
    rewrite (nth_error_nth' _ true Hi), mp_lost_at, Hd. reflexivity.
Qed.
Lemma lost_threw s (ds : list entry) : lost_of (after_exception s ds) = lost_after_exception s (lost_of ds).
Proof. destruct s; auto. apply mp_lost_replace. Qed.

Lemma tells_trouble (P P' : Prop) (ds : list entry) ss seen ds' : (P -> P') -> tells key_less maxc P ds ss seen ds' -> tells key_less maxc P' ds ss seen ds'.
Proof.
  intros HP H. induction H.
  - constructor.
  - now constructor.
  - apply tells_threw; auto. destruct s; cbn [can_throw] in *; intuition.
  - now constructor.
Qed.
Lemma map_program_ok ss : forall os ds others w,
  maps_in os ds others w ->
  ends (map_program moved key_less maxc ss (lost_of ds) os w)
    (fun os' seen w' => exists ds', tells key_less maxc (someone_throws w) ds ss seen ds' /\ maps_in os' ds' others w') (fun _ _ => False).
Proof.
  induction ss as [|s ss IH]; intros os ds others w Hm; cbn [map_program].
  - cbn. exists ds. split; [constructor|exact Hm].
  - assert (Hlen : length os = length ds).
    { destruct Hm as (ls & Hk & [Hin _]). rewrite (mp_length _ _ _ Hk). exact (several_lengths (vector_in 0 maxc) _ _ _ _ Hin). }
    unfold bind at 1. unfold get. rewrite Hlen. destruct (may_do maxc s (length ds) (lost_of ds)) eqn:Hp.
    + unfold bind at 1. unfold attempt. pose proof (map_step_ok s os ds others w Hm Hp) as Hs. unfold ends in Hs.
      destruct (do_map_step moved key_less maxc s os w) as [os1 r w1|os1 w1|]; [| |contradiction].
      * destruct Hs as (-> & Hm1 & Hs1). rewrite <- (lost_returned s ds Hp). specialize (IH _ _ _ _ Hm1). unfold bind, ends in *.
        destruct (map_program moved key_less maxc ss (lost_of (after_step key_less s ds)) os1 w1) as [os2 seen w2|os2 w2|]; try contradiction. cbn [ret].
        destruct IH as (ds' & Ht & Hm2). exists ds'. split; [|exact Hm2]. apply tells_returned; [exact Hp|]. eapply tells_trouble; [|exact Ht]. now apply steady_throws.
      * destruct Hs as (Hc & Hm1 & Hs1). rewrite <- (lost_threw s ds). specialize (IH _ _ _ _ Hm1). unfold bind, ends in *.
        destruct (map_program moved key_less maxc ss (lost_of (after_exception s ds)) os1 w1) as [os2 seen w2|os2 w2|]; try contradiction. cbn [ret].
        destruct IH as (ds' & Ht & Hm2). exists ds'. split; [|exact Hm2]. apply tells_threw; [exact Hp|exact Hc|]. eapply tells_trouble; [|exact Ht]. now apply steady_throws.
    + specialize (IH _ _ _ _ Hm). unfold bind, ends in *. destruct (map_program moved key_less maxc ss (lost_of ds) os w) as [os2 seen w2|os2 w2|]; try contradiction. cbn [ret].
      destruct IH as (ds' & Ht & Hm2). exists ds'. split; [|exact Hm2]. now apply tells_skipped.
Qed.
Lemma map_program_calm n ss : different_keys same n -> 2 * n <= maxc -> forall os ds others w, ~ someone_throws w ->
  maps_in os ds others w ->
  ends (map_program moved key_less maxc ss (lost_of ds) os w) (fun _ seen _ => ~ In Threw seen) (fun _ _ => False).
Proof.
  intros Hn H2n. induction ss as [|s ss IH]; intros os ds others w Hq Hm; cbn [map_program].
  - cbn. auto.
  - assert (Hlen : length os = length ds).
    { destruct Hm as (ls & Hk & [Hin _]). rewrite (mp_length _ _ _ Hk). exact (several_lengths (vector_in 0 maxc) _ _ _ _ Hin). }
    unfold bind at 1. unfold get. rewrite Hlen. destruct (may_do maxc s (length ds) (lost_of ds)) eqn:Hp.
    + unfold bind at 1. unfold attempt. pose proof (map_step_ok s os ds others w Hm Hp) as Hs. unfold ends in Hs.
      destruct (do_map_step moved key_less maxc s os w) as [os1 r w1|os1 w1|]; [| |contradiction].
      * destruct Hs as (-> & Hm1 & Hs1). rewrite <- (lost_returned s ds Hp).
        specialize (IH _ _ _ w1 ltac:(intros Ht; apply Hq; exact (steady_throws _ _ Hs1 Ht)) Hm1). unfold bind, ends in *.
        destruct (map_program moved key_less maxc ss (lost_of (after_step key_less s ds)) os1 w1) as [os2 seen w2|os2 w2|]; try contradiction. cbn [ret].
        intros [E|Hi]; [discriminate|contradiction].
      * exfalso. destruct Hs as (Hc & _ & _). destruct Hm as (ls & Hk & _).
        assert (Hsmall : forall i d, dictionary_at i ds = Some d -> keys d <= n).
        { intros i d Hd. destruct (mp_kept_at _ _ _ _ Hk Hd) as (m & _ & _ & Hf & Hr). rewrite <- (proj2 Hr).
          apply (pigeons key_less Hlt n m Hn). now apply (flat_is_distinct key_less). }
        destruct s as [|j|j|i|i k|i j|i j|i j|i a]; cbn [can_throw] in Hc; try contradiction.
        -- destruct Hc as [Hc|(d & Hd & Hc)]; [contradiction|]. specialize (Hsmall _ _ Hd). lia.
        -- destruct Hc as [Hc|(d & Hd & (k & v & -> & Hv) & Hc)]; [contradiction|]. destruct (mp_kept_at _ _ _ _ Hk Hd) as (m & _ & _ & Hf & Hr).
           assert (element_of same m k = None) as Hnone by (destruct Hr as [Hr _]; specialize (Hr k); rewrite Hv in Hr; destruct (element_of same m k); [discriminate|reflexivity]).
           pose proof (room_for_key key_less Hlt n m k v Hn Hf Hnone). destruct Hr as [_ Hr]. unfold cannot_double in Hc. lia.
    + specialize (IH _ _ _ _ Hq Hm). unfold bind, ends in *. destruct (map_program moved key_less maxc ss (lost_of ds) os w) as [os2 seen w2|os2 w2|]; try contradiction. cbn [ret].
      intros [E|Hi]; [discriminate|contradiction].
Qed.
Lemma map_ends_ok n : forall os ds others w lost, length os = n ->
  maps_in os ds others w ->
  ends (map_program moved key_less maxc (repeat (MapEnd 0) n) lost os w) (fun os' _ w' => SpecVec.same (heap w') others) (fun _ _ => False).
Proof.
  induction n as [|n IH]; intros os ds others w lost Hn Hm.
  - destruct os; [|discriminate]. destruct Hm as (ls & Hk & [Hin _]). destruct ls; [|destruct Hin]. exact Hin.
  - assert (Hlen : length os = length ds).
    { destruct Hm as (ls & Hk & [Hin _]). rewrite (mp_length _ _ _ Hk). exact (several_lengths (vector_in 0 maxc) _ _ _ _ Hin). }
    cbn [repeat map_program]. unfold bind at 1. unfold get. assert (may_do maxc (MapEnd (K := K) (T := T) 0) (length os) lost = true) as -> by (apply (proj2 (Nat.ltb_lt 0 (length os))); lia).
    assert (Hp : may_do maxc (MapEnd (K := K) (T := T) 0) (length ds) (lost_of ds) = true) by (apply (proj2 (Nat.ltb_lt 0 (length ds))); lia).
    pose proof (map_step_ok (MapEnd 0) os ds others w Hm Hp) as Hs. unfold bind at 1. unfold attempt. unfold ends in Hs.
    destruct (do_map_step moved key_less maxc (MapEnd 0) os w) as [os1 r w1|os1 w1|]; [|destruct Hs as ([] & _)|contradiction].
    destruct Hs as (_ & Hm1 & _). cbn [after_step] in Hm1.
    assert (Hlen1 : length os1 = length (remove_at 0 ds)).
    { destruct Hm1 as (ls & Hk & [Hin _]). rewrite (mp_length _ _ _ Hk). exact (several_lengths (vector_in 0 maxc) _ _ _ _ Hin). }
    rewrite length_remove in Hlen1 by lia.
    specialize (IH os1 _ others w1 (lost_after (MapEnd (K := K) (T := T) 0) lost) ltac:(lia) Hm1). unfold bind, ends in *.
    destruct (map_program moved key_less maxc (repeat (MapEnd 0) n) (lost_after (MapEnd (K := K) (T := T) 0) lost) os1 w1); auto.
Qed.
Lemma whole_maps_ok ss w : unused_names w ->
  ends (whole_map_program moved key_less maxc ss tt w)
    (fun _ seen w' => SpecVec.same (heap w') (heap w) /\ exists ds, tells key_less maxc (someone_throws w) [] ss seen ds) (fun _ _ => False).
Proof.
  intros Hu. assert (Hm : maps_in [] [] (heap w) w). { exists []. split; [constructor|]. split; [now intros b|exact Hu]. }
  unfold whole_map_program. pose proof (map_program_ok ss [] [] (heap w) w Hm) as H. unfold ends in *. change (lost_of []) with (@nil bool) in H.
  destruct (map_program moved key_less maxc ss [] [] w) as [os seen w1|os w1|]; try contradiction. destruct H as (ds & Ht & Hm1).
  pose proof (map_ends_ok (length os) os ds (heap w) w1 (repeat true (length os)) eq_refl Hm1) as H. unfold ends in H.
  destruct (map_program moved key_less maxc (repeat (MapEnd 0) (length os)) (repeat true (length os)) os w1); try contradiction. eauto.
Qed.
End Proofs.
