(** * Proofs about dynamic_array *)

From Coq Require Import List Arith Bool Lia.
From Verif Require Import Mem MemLemmas Vec VecLemmas VecInst SpecVec VecProofs VecProofs2 DynArray SpecDyn.
Import ListNotations.

Section Proofs.
Context {V : Type} (moved : V -> V) (min max : nat).
Local Notation world := (world V).
Local Notation contents := (@contents V).
Local Notation memory := (@memory V).
Local Notation M := (M V).
Local Notation arr := (is_array_in (V := V) min max).

Lemma arr_ext o vs (g g' h h' : memory) : arr o vs g h -> eqh g g' -> eqh h h' -> arr o vs g' h'.
Proof.
  intros (Hs & Hr & H) Hg Hh. split; auto. split; auto. destruct (u_pointer o) as [b|].
  - destruct H as (H1 & H2 & H3). split; [now rewrite <- Hg|]. split; [now rewrite <- Hh|]. intros b' Hb. rewrite <- Hh, <- Hg. auto.
  - destruct H as [H1 H2]. split; auto. intros b. rewrite <- Hh, <- Hg. apply H2.
Qed.
Lemma arr_here q o vs g h w : at_ q w h -> arr o vs g h -> is_array min max o vs g w.
Proof. intros H Ha. destruct (at_here _ _ _ H) as [He Hu]. split; auto. eapply arr_ext; eauto. apply eqh_refl. Qed.

(** What the destructor relies on: an array or what a move leaves. *)
Definition owns (o : storage) (vs : list V) (g h : memory) : Prop :=
  match u_pointer o with
  | Some b => u_size o = length vs /\ g b = None /\ h b = Some (map Some vs) /\ forall b', b' <> b -> h b' = g b'
  | None => vs = [] /\ eqh h g
  end.
Lemma arr_owns o vs g h : arr o vs g h -> owns o vs g h.
Proof. intros (Hs & Hr & H). unfold owns. destruct (u_pointer o); auto. Qed.
Lemma owns_arr o vs us g h g' h' : arr o vs g h -> owns o us g' h' -> vs = us -> arr o us g' h'.
Proof.
  intros (Hs & Hr & H) Ho <-. split; auto. split; auto. unfold owns in Ho. destruct (u_pointer o); tauto.
Qed.
Lemma gone_owns o g : gone o -> owns o [] g g.
Proof. intros H. unfold owns. rewrite H. split; auto. intros b. reflexivity. Qed.
Lemma owns_swap o vs t us g m1 m2 : owns o vs g m1 -> owns t us m1 m2 -> exists m', owns t us g m' /\ owns o vs m' m2.
Proof.
  unfold owns. intros Ho Ht.
  destruct (u_pointer o) as [b|] eqn:Po; destruct (u_pointer t) as [c|] eqn:Pt.
  - destruct Ho as (Os & O1 & O2 & O3), Ht as (Ts & T1 & T2 & T3). assert (Hne : c <> b) by congruence.
    exists (upd g c (Some (map Some us))). split; (split; [auto|]).
    + split. { rewrite <- O3; auto. } split; [apply upd_same|]. intros b' Hb. now apply upd_other.
    + split. { rewrite upd_other; auto. } split. { rewrite T3; auto. }
      intros b' Hb. unfold upd. destruct (Nat.eqb_spec b' c) as [->|Hc]; auto. rewrite T3; auto.
  - destruct Ho as (Os & O1 & O2 & O3), Ht as (T1 & T2). exists g. split.
    + split; auto. now intros x.
    + split; auto. split; auto. split; [rewrite T2; auto|]. intros b' Hb. rewrite T2. auto.
  - destruct Ho as (O1 & O2), Ht as (Ts & T1 & T2 & T3). exists m2. split.
    + split; auto. split; [rewrite <- O2; auto|]. split; auto. intros b' Hb. rewrite T3, O2; auto.
    + split; auto. now intros x.
  - destruct Ho as (O1 & O2), Ht as (T1 & T2). exists m2. split.
    + split; auto. intros x. rewrite T2. apply O2.
    + split; auto. now intros x.
Qed.
Lemma keep_all o vs g h mks us : owns o vs g h -> Forall2 (yields g) mks us -> Forall2 (yields h) mks us.
Proof.
  intros Ho. apply Forall2_weaken. intros mk v Hmk.
  destruct mk as [v'|[b'|] i|[b'|] i|[b'|] i]; cbn in Hmk |- *; try contradiction; auto.
  destruct Hmk as (cs & Hc & Hi). exists cs. split; auto. unfold owns in Ho. destruct (u_pointer o) as [b|].
  - destruct Ho as (_ & O1 & _ & O3). rewrite O3; auto. congruence.
  - destruct Ho as [_ O2]. rewrite O2. auto.
Qed.

Lemma wp_size {X} o vs (g h : memory) (x : X) w (Q : X -> nat -> world -> Prop) E :
  arr o vs g h -> Q x (length vs) w -> wp (da_size o) x w Q E.
Proof.
  intros (Hs & _ & H) HQ. unfold da_size, storage_capacity. apply wp_bind. apply wp_require.
  { destruct (u_pointer o); auto. destruct H as [-> _]. now rewrite Hs. }
  apply wp_ret. now rewrite Hs.
Qed.


Lemma wp_size_owned {X} o b vs (g h : memory) (x : X) w (Q : X -> nat -> world -> Prop) E :
  owns o vs g h -> u_pointer o = Some b -> Q x (length vs) w -> wp (da_size o) x w Q E.
Proof.
  unfold owns. intros Ho Hp HQ. unfold da_size, storage_capacity. rewrite Hp in *. destruct Ho as [Hs _]. apply wp_bind. apply wp_require; auto.
  apply wp_ret. now rewrite Hs.
Qed.

(** Destroying the elements and giving back the block of [o]. [raw] is the memory in between. *)
Definition raw (o : storage) (g r : memory) : Prop :=
  match u_pointer o with
  | Some b => g b = None /\ r b = Some (repeat None (u_size o)) /\ forall b', b' <> b -> r b' = g b'
  | None => eqh r g
  end.
Lemma wp_destroy_elements q {X} o vs (g h : memory) (x : X) w (Q : X -> unit -> world -> Prop) (E : X -> world -> Prop) :
  at_ q w h -> owns o vs g h -> (forall w' r, at_ q w' r -> raw o g r -> Q x tt w') -> wp (da_destroy_elements o) x w Q E.
Proof.
  intros H Ho HQ. pose proof Ho as Ha. unfold da_destroy_elements, da_data, owns, raw in *. destruct (u_pointer o) as [b|] eqn:Hp.
  - destruct Ho as (Hs & O1 & O2 & O3). apply wp_bind. eapply wp_size_owned; [unfold owns; rewrite Hp; exact Ha|exact Hp|].
    eapply (wp_destroy_range q) with (l1 := []) (l2 := []) (vs := vs); [exact H|cbn; rewrite app_nil_r; exact O2|reflexivity|reflexivity|].
    intros w1 H1. cbn [app] in H1. rewrite app_nil_r in H1. rewrite Hs in *. eapply HQ; [exact H1|]. split; auto. split; [apply upd_same|].
    intros b' Hb. rewrite upd_other; auto.
  - destruct Ho as [_ O2]. apply wp_ret. eapply HQ; eauto.
Qed.
Lemma wp_free q {X} o (g r : memory) (x : X) w (Q : X -> unit -> world -> Prop) (E : X -> world -> Prop) :
  at_ q w r -> raw o g r -> (forall w', at_ q w' g -> Q x tt w') -> wp (deallocate_storage o) x w Q E.
Proof.
  unfold raw, deallocate_storage. intros H Hr HQ. destruct (u_pointer o) as [b|].
  - destruct Hr as (R1 & R2 & R3). eapply (wp_deallocate q); [exact H|exact R2|]. intros w2 H2. apply HQ. eapply at_ext; [exact H2|].
    intros b'. unfold upd. destruct (Nat.eqb_spec b' b) as [->|]; auto.
  - apply wp_ret. apply HQ. eapply at_ext; eauto.
Qed.

Lemma destroy_ok q o vs g h w : at_ q w h -> owns o vs g h -> wp da_destroy o w (fun _ _ w' => at_ q w' g) (fun _ _ => False).
Proof.
  intros H Ho. unfold da_destroy. apply wp_bind, wp_get. apply wp_bind. eapply wp_destroy_elements; eauto. intros w1 r H1 Hr.
  eapply wp_free; eauto.
Qed.

Lemma from_ok q mks us g w : at_ q w g -> Forall2 (yields g) mks us ->
  wp (da_from moved min max mks) tt w
    (fun _ o w' => exists h, at_ q w' h /\ arr o us g h /\ u_pointer o <> None)
    (fun _ w' => at_ q w' g /\ (~ q \/ ~ (min <= length us <= max))).
Proof.
  intros H Hy. pose proof (Forall2_len _ _ _ Hy) as Hl. unfold da_from. apply wp_bind.
  destruct ((min <=? length mks) && (length mks <=? max)) eqn:Hr.
  2:{ apply wp_throw. split; auto. right. intros [H1 H2]. apply Nat.leb_le in H1, H2. rewrite Hl, H1, H2 in Hr. discriminate. }
  apply andb_prop in Hr. destruct Hr as [Hr1 Hr2]. apply Nat.leb_le in Hr1, Hr2.
  apply wp_ret. apply wp_bind. eapply wp_allocate_storage; [exact H| |auto].
  intros w1 b Hb H1. apply wp_bind. apply wp_rethrow. cbn [u_pointer].
  eapply wp_uninitialized_copy with (l1 := []) (l2 := []); [exact H1|rewrite upd_same; cbn; now rewrite app_nil_r|reflexivity| | |].
  - eapply Forall2_weaken; [|exact Hy]. intros mk v Hmk.
    destruct mk as [v'|[b'|] i|[b'|] i|[b'|] i]; cbn in Hmk |- *; try contradiction; auto.
    destruct Hmk as (cs & Hc & Hi). exists cs. split; auto. rewrite upd_other; auto. congruence.
  - intros w2 H2. apply wp_ret. eexists. split; [exact H2|]. split; [|discriminate]. split; [cbn; congruence|]. split; [lia|]. cbn.
    split; auto. rewrite app_nil_r. split; [apply upd_same|]. intros b' Hb'. now rewrite !upd_other.
  - intros w2 Hq H2. unfold deallocate_storage. cbn [u_pointer u_size].
    eapply wp_release; [exact H2|apply eqh_refl|exact Hb|reflexivity|]. intros w3 H3. auto.
Qed.


Lemma move_assign_ok q o vs t us g m h w : at_ q w h -> owns o vs g m -> owns t us m h ->
  wp da_move_assign (o, t) w
    (fun p _ w' => fst p = t /\ gone (snd p) /\ exists h', at_ q w' h' /\ owns t us g h') (fun _ _ => False).
Proof.
  intros H Ho Ht. destruct (owns_swap _ _ _ _ _ _ _ Ho Ht) as (m' & Ht' & Ho').
  unfold da_move_assign. apply wp_bind, wp_get. cbn [fst snd]. apply wp_bind. eapply wp_destroy_elements; eauto. intros w1 r H1 Hr.
  apply wp_bind, wp_put. eapply wp_free; eauto. intros w2 H2. cbn. split; auto. split; [reflexivity|]. eauto.
Qed.
Lemma self_move_assign_ok q o vs g h w : at_ q w h -> owns o vs g h ->
  wp da_self_move_assign o w (fun o' _ w' => gone o' /\ at_ q w' g) (fun _ _ => False).
Proof.
  intros H Ho. unfold da_self_move_assign. apply wp_bind, wp_get. apply wp_bind. eapply wp_destroy_elements; eauto. intros w1 r H1 Hr.
  apply wp_bind, wp_put. eapply wp_free; eauto. intros w2 H2. split; [reflexivity|auto].
Qed.
Lemma clear_ok q o vs g h w : at_ q w h -> owns o vs g h ->
  wp da_clear o w (fun o' _ w' => o' = da_default /\ at_ q w' g) (fun _ _ => False).
Proof.
  intros H Ho. unfold da_clear. apply wp_local. apply wp_ret.
  assert (Hd : owns da_default [] h h) by now apply gone_owns.
  eapply wp_conseq; [eapply move_assign_ok; [exact H|exact Ho|exact Hd]| |].
  - intros p ? w' (Hf & Hg & h' & H' & Hd'). cbn in Hd'. destruct Hd' as [_ Hd'].
    eapply wp_conseq; [eapply destroy_ok; [exact H'|now apply gone_owns]| |]; [|tauto].
    intros ? ? w2 H2. split; auto. eapply at_ext; [exact H2|exact Hd'].
  - cbn. tauto.
Qed.
Lemma replace_ok q mks us o vs g h w : at_ q w h -> owns o vs g h -> Forall2 (yields g) mks us ->
  wp (da_replace moved min max mks) o w
    (fun o' _ w' => exists h', at_ q w' h' /\ arr o' us g h')
    (fun o' w' => o' = o /\ at_ q w' h /\ (~ q \/ ~ (min <= length us <= max))).
Proof.
  intros H Ho Hy. unfold da_replace. apply wp_local. apply wp_unit.
  eapply wp_conseq; [eapply from_ok; [exact H|eapply keep_all; eauto]| |].
  2:{ intros ? w' [H1 H2]. auto. }
  intros ? t w1 (h1 & H1 & Ht & _).
  eapply wp_conseq; [eapply move_assign_ok; [exact H1|exact Ho|eapply arr_owns; exact Ht]| |].
  - intros p ? w2 (Hf & Hg & h2 & H2 & Ht2).
    eapply wp_conseq; [eapply destroy_ok; [exact H2|now apply gone_owns]| |]; [|tauto].
    intros ? ? w3 H3. exists h2. split; auto. rewrite Hf. eapply owns_arr; eauto.
  - cbn. tauto.
Qed.
Lemma copy_all_ok q {X} b mks us old l1 h (x : X) w g :
  at_ q w h -> h b = Some (map Some (l1 ++ old)) -> length mks = length old -> g b = None -> (forall b', b' <> b -> h b' = g b') ->
  Forall2 (yields g) mks us ->
  wp (copy_all moved (Some b) (length l1) mks) x w
    (fun x' _ w' => x' = x /\ exists h', at_ q w' h' /\ h' b = Some (map Some (l1 ++ us)) /\ forall b', b' <> b -> h' b' = g b')
    (fun x' w' => x' = x /\ ~ q /\ exists n h', n < length us /\ at_ q w' h' /\
       h' b = Some (map Some (l1 ++ firstn n us ++ skipn n old)) /\ forall b', b' <> b -> h' b' = g b').
Proof.
  intros H Hb Hl Hg Ho Hy. revert old l1 h w H Hb Hl Ho. induction Hy as [|mk u mks us Hmk Hy IH]; intros [|v old] l1 h w H Hb Hl Ho; cbn in Hl; try discriminate.
  - cbn [copy_all]. apply wp_ret. split; auto. exists h. auto.
  - cbn [copy_all]. apply wp_bind. unfold assign_at. apply wp_bind.
    assert (Hyh : yields h mk u).
    { destruct mk as [v'|[b'|] i|[b'|] i|[b'|] i]; cbn in Hmk |- *; try contradiction; auto.
      destruct Hmk as (cs & Hc & Hi). exists cs. split; auto. rewrite Ho; auto. congruence. }
    eapply (wp_make moved q); [exact H|exact Hyh| |].
    + intros w1 H1. eapply (wp_store q) with (l1 := map Some l1) (l2 := map Some old) (v' := v); [exact H1|rewrite Hb, map_app; reflexivity|now rewrite map_length|].
      intros w2 H2. specialize (IH old (l1 ++ [u]) _ _ H2). rewrite app_length in IH. cbn [length] in IH. rewrite Nat.add_1_r in IH.
      eapply wp_conseq; [apply IH| |].
      * rewrite upd_same, !map_app. cbn. now rewrite <- app_assoc.
      * now injection Hl.
      * intros b' Hb'. rewrite upd_other; auto.
      * intros x' ? w3 (Hx & h' & H' & Hb' & Ho'). split; auto. exists h'. rewrite <- app_assoc in Hb'. auto.
      * intros x' w3 (Hx & Hq & n & h' & Hn & H' & Hb' & Ho'). split; auto. split; auto. exists (S n), h'. cbn. split; [lia|].
        rewrite <- app_assoc in Hb'. auto.
    + intros w1 Hq H1. split; auto. split; auto. exists 0, h. cbn. split; [lia|auto].
Qed.

Lemma assign_ok q mks us o vs g h w : at_ q w h -> arr o vs g h \/ gone o /\ vs = [] /\ eqh h g -> Forall2 (yields g) mks us ->
  wp (da_assign moved min max mks) o w
    (fun o' _ w' => exists h', at_ q w' h' /\ arr o' us g h')
    (fun o' w' => (~ q \/ ~ (min <= length us <= max)) /\
       (o' = o /\ at_ q w' h /\ (gone o \/ length us <> length vs /\ 0 < min) \/
        gone o' /\ u_size o' = 0 /\ at_ q w' g /\ length us <> length vs /\ min = 0 \/
        o' = o /\ ~ q /\ length us = length vs /\
        exists n h', n < length us /\ at_ q w' h' /\ arr o (firstn n us ++ skipn n vs) g h')).
Proof.
  intros H Ha Hy. pose proof (Forall2_len _ _ _ Hy) as Hl.
  assert (Ho : owns o vs g h). { destruct Ha as [Ha|(Hg & -> & He)]; [now apply arr_owns|]. unfold owns. rewrite Hg. auto. }
  unfold da_assign. apply wp_bind, wp_get. unfold da_data. destruct (u_pointer o) as [b|] eqn:Hp.
  - destruct Ha as [Ha|(Hg & _)]; [|unfold gone in Hg; congruence].
    apply wp_bind. eapply wp_size; [exact Ha|]. destruct (Nat.eqb_spec (length mks) (length vs)) as [He|He].
    + pose proof Ha as (Hs & Hr & Hc). rewrite Hp in Hc. destruct Hc as (C1 & C2 & C3).
      eapply wp_conseq; [eapply (copy_all_ok q b mks us vs [] h o w g); eauto| |].
      * intros o' ? w' (-> & h' & H' & Hb & Ho'). exists h'. split; auto. split; [rewrite Hs; congruence|]. split; [rewrite <- Hl, He; auto|].
        rewrite Hp. auto.
      * intros o' w' (-> & Hq & n & h' & Hn & H' & Hb & Ho'). split; auto. right; right. split; auto. split; auto. split; [congruence|].
        exists n, h'. split; auto. split; auto. cbn [app] in Hb.
        assert (Hll : length (firstn n us ++ skipn n vs) = length vs).
        { rewrite app_length, firstn_length, skipn_length. lia. }
        split; [congruence|]. split; [now rewrite Hll|]. rewrite Hp. auto.
    + apply wp_bind. destruct (Nat.eqb_spec min 0) as [H0|H0].
      * eapply wp_conseq; [eapply clear_ok; eauto| |]; [|cbn; tauto].
        intros o1 ? w1 (-> & H1). eapply wp_conseq; [eapply replace_ok; [exact H1|now apply gone_owns|exact Hy]| |]; auto.
        intros o' w' (-> & H' & Hw). split; auto. right; left. split; [reflexivity|]. split; [reflexivity|]. split; auto. split; auto. congruence.
      * apply wp_ret. eapply wp_conseq; [eapply replace_ok; eauto| |]; auto.
        intros o' w' (-> & H' & Hw). split; auto. left. split; auto. split; auto. right. split; [congruence|lia].
  - eapply wp_conseq; [eapply replace_ok; eauto| |]; auto.
    intros o' w' (-> & H' & Hw). split; auto.
Qed.

Lemma copies_of o vs g h b : arr o vs g h -> u_pointer o = Some b -> Forall2 (yields h) (map (CopyOf (Some b)) (seq 0 (length vs))) vs.
Proof.
  intros (_ & _ & H) Hp. rewrite Hp in H. destruct H as (_ & H & _).
  assert (Hgen : forall l1 l2, vs = l1 ++ l2 -> Forall2 (yields h) (map (CopyOf (Some b)) (seq (length l1) (length l2))) l2).
  { intros l1 l2. revert l1. induction l2 as [|v l2 IH]; intros l1 E; cbn; constructor.
    - cbn. exists (map Some vs). split; auto. rewrite E, map_app. cbn. apply nth_error_mid. now rewrite map_length.
    - specialize (IH (l1 ++ [v])). rewrite app_length in IH. cbn in IH. rewrite Nat.add_1_r in IH. apply IH. now rewrite <- app_assoc. }
  apply (Hgen [] vs eq_refl).
Qed.
Lemma copies o vs g h : arr o vs g h -> Forall2 (yields h) (map (CopyOf (u_pointer o)) (seq 0 (length vs))) vs.
Proof.
  intros H. destruct (u_pointer o) as [b|] eqn:Hp; [eapply copies_of; eauto|].
  destruct H as (_ & _ & H). rewrite Hp in H. destruct H as [-> _]. constructor.
Qed.
(** ** For a world *)
Local Notation is_array := (is_array (V := V) min max).
Local Notation two_arrays := (two_arrays (V := V) min max).
Lemma wp_ends {X A} (m : M X A) x w Q E : wp m x w Q E -> ends (m x w) Q E.
Proof. unfold wp, ends. destruct (m x w); auto. Qed.
Lemma ends_weak {X A} (r : out V X A) (Q Q' : X -> A -> world -> Prop) (E E' : X -> world -> Prop) :
  ends r Q E -> (forall x a w, Q x a w -> Q' x a w) -> (forall x w, E x w -> E' x w) -> ends r Q' E'.
Proof. unfold ends. destruct r; auto. Qed.
Lemma reason_of (w : world) (P : Prop) : ~ calm w \/ P -> someone_throws w \/ P.
Proof. intros [H|H]; auto. left. now apply not_calm. Qed.

Lemma from_array mks us w : unused_names w -> Forall2 (makes (heap w)) mks us ->
  ends (da_from moved min max mks tt w)
    (fun _ o w' => is_array o us (heap w) w')
    (fun _ w' => same (heap w') (heap w) /\ unused_names w' /\ (someone_throws w \/ ~ (min <= length us <= max))).
Proof.
  intros Hu Hm. eapply ends_weak; [apply wp_ends; eapply from_ok; [apply at_start; exact Hu|eapply makes_all; eassumption]| |].
  - intros _ o w' (h & H & Ha & _). eapply arr_here; eauto.
  - intros _ w' [H Hw]. destruct (at_here _ _ _ H) as [He Hu']. split; [apply eqh_sym, He|]. split; auto. now apply reason_of.
Qed.
Lemma copy_array o vs others w : is_array o vs others w ->
  ends (da_copy moved min max o tt w)
    (fun _ t w' => two_arrays o vs t vs others w')
    (fun _ w' => same (heap w') (heap w) /\ unused_names w' /\ someone_throws w).
Proof.
  intros [Ha Hu]. apply wp_ends. unfold da_copy. apply wp_bind. eapply wp_size; [exact Ha|].
  eapply wp_conseq; [eapply from_ok; [apply at_start; exact Hu|eapply copies; exact Ha]| |].
  - intros _ t w' (h & H & Ht & _). destruct (arr_here _ _ _ _ _ _ H Ht) as [Ht' Hu']. exists (heap w). auto.
  - intros _ w' [H Hw]. destruct (at_here _ _ _ H) as [He Hu']. split; [apply eqh_sym, He|]. split; auto.
    destruct (reason_of _ _ Hw) as [Ht|Ht]; auto. destruct Ha as (_ & Hr & _). contradiction.
Qed.
Lemma back q (w : world) (others : memory) : at_ q w others -> same (heap w) others /\ unused_names w.
Proof. intros H. destruct (at_here _ _ _ H) as [He Hu]. split; auto. now apply eqh_sym. Qed.
Lemma destroy_array o vs others w : is_array o vs others w ->
  ends (da_destroy o w) (fun _ _ w' => same (heap w') others /\ unused_names w') (fun _ _ => False).
Proof.
  intros [Ha Hu]. eapply ends_weak; [apply wp_ends; eapply destroy_ok; [apply at_start; exact Hu|apply arr_owns; exact Ha]| |]; auto.
  intros ? ? w' H. eapply back. exact H.
Qed.
Lemma destroy_gone (o : storage) (w : world) : gone o -> da_destroy o w = Ret o tt w.
Proof. unfold gone. intros H. unfold da_destroy, bind, get, da_destroy_elements, da_data, deallocate_storage. now rewrite H. Qed.
Lemma clear_array o vs others w : min = 0 -> is_array o vs others w \/ gone o /\ vs = [] /\ same (heap w) others /\ unused_names w ->
  ends (da_clear o w) (fun o' _ w' => is_array o' [] others w' /\ o' = da_default /\ same (heap w') others) (fun _ _ => False).
Proof.
  intros H0 Ha.
  assert (Ho : owns o vs others (heap w) /\ unused_names w).
  { destruct Ha as [[Ha Hu]|(Hg & -> & He & Hu)]; split; auto; [now apply arr_owns|]. unfold owns. rewrite Hg. auto. }
  destruct Ho as [Ho Hu]. eapply ends_weak; [apply wp_ends; eapply clear_ok; [apply at_start; exact Hu|exact Ho]| |]; auto.
  intros o' ? w' (-> & H). destruct (back _ _ _ H) as [He Hu']. split; [|auto]. split; auto. split; [reflexivity|].
  split; [cbn; lia|]. cbn. auto.
Qed.
Lemma assign_array mks us o vs others w : is_array o vs others w -> Forall2 (makes others) mks us ->
  ends (da_assign moved min max mks o w)
    (fun o' _ w' => is_array o' us others w')
    (fun o' w' => (someone_throws w \/ ~ (min <= length us <= max)) /\
       (untouched o o' w w' \/
        min = 0 /\ length us <> length vs /\ is_array o' [] others w' \/
        someone_throws w /\ length us = length vs /\ exists n, n < length us /\ is_array o' (firstn n us ++ skipn n vs) others w')).
Proof.
  intros [Ha Hu] Hm. eapply ends_weak; [apply wp_ends; eapply assign_ok; [apply at_start; exact Hu|left; exact Ha|eapply makes_all; eassumption]| |].
  - intros o' ? w' (h & H & Hr). eapply arr_here; eauto.
  - intros o' w' [Hw H]. split; [now apply reason_of|]. destruct H as [(-> & H & _)|[(Hg & Hs & H & Hl & H0)|(-> & Hq & Hl & n & h' & Hn & H & Hr)]].
    + left. eapply untouched_intro; eauto.
    + right; left. split; auto. split; auto. destruct (back _ _ _ H) as [He Hu']. split; auto. split; auto. split; [cbn; lia|].
      rewrite Hg. auto.
    + right; right. split; [now apply not_calm|]. split; auto. exists n. split; auto. eapply arr_here; eauto.
Qed.
(** The strong guarantee holds when the size cannot be zero and changes. *)
Lemma assign_strong mks us o vs others w : is_array o vs others w -> Forall2 (makes others) mks us -> 0 < min -> length us <> length vs ->
  ends (da_assign moved min max mks o w)
    (fun o' _ w' => is_array o' us others w')
    (fun o' w' => untouched o o' w w').
Proof.
  intros Ha Hm H0 Hl. eapply ends_weak; [apply assign_array; eauto| |]; auto.
  intros o' w' [_ [H|[H|H]]]; auto; destruct H as (H1 & H2 & _); [lia|contradiction].
Qed.
Lemma assign_gone mks us (o : storage) w : gone o -> unused_names w -> Forall2 (makes (heap w)) mks us ->
  ends (da_assign moved min max mks o w)
    (fun o' _ w' => is_array o' us (heap w) w')
    (fun o' w' => untouched o o' w w' /\ (someone_throws w \/ ~ (min <= length us <= max))).
Proof.
  intros Hg Hu Hm.
  assert (Hy : Forall2 (yields (heap w)) mks us) by (eapply makes_all; eassumption).
  apply wp_ends. unfold da_assign. apply wp_bind, wp_get. unfold da_data. rewrite Hg.
  eapply wp_conseq; [eapply replace_ok; [apply at_start; exact Hu|apply gone_owns; exact Hg|exact Hy]| |].
  - intros o' ? w' (h & H & Hr). eapply arr_here; eauto.
  - intros o' w' (-> & H & Hw). split; [|now apply reason_of]. eapply untouched_intro; eauto.
Qed.
(** Assigning as many elements as there are keeps the block. *)
Lemma assign_in_place mks us o vs others w : is_array o vs others w -> u_pointer o <> None -> Forall2 (makes others) mks us ->
  length us = length vs ->
  ends (da_assign moved min max mks o w)
    (fun o' _ w' => o' = o /\ is_array o us others w')
    (fun o' w' => someone_throws w /\ o' = o /\ exists n, n < length us /\ is_array o (firstn n us ++ skipn n vs) others w').
Proof.
  intros [Ha Hu] Hp Hm Hl. pose proof (Forall2_len _ _ _ Hm) as Hll.
  assert (Hy : Forall2 (yields others) mks us) by (apply makes_all; exact Hm).
  apply wp_ends. unfold da_assign. apply wp_bind, wp_get. unfold da_data. pose proof Ha as (Hs & Hr & Hc).
  destruct (u_pointer o) as [b|] eqn:Hb; [|contradiction]. destruct Hc as (C1 & C2 & C3). apply wp_bind. eapply wp_size; [exact Ha|].
  replace (length mks =? length vs) with true by (symmetry; apply Nat.eqb_eq; congruence).
  eapply wp_conseq; [eapply (copy_all_ok (calm w) b mks us vs [] (heap w) o w others); eauto; [now apply at_start|congruence]| |].
  - intros o' ? w' (-> & h' & H' & Hb' & Ho'). split; auto. eapply arr_here; [exact H'|]. split; [congruence|]. split; [rewrite Hl; auto|].
    rewrite Hb. auto.
  - intros o' w' (-> & Hq & n & h' & Hn & H' & Hb' & Ho'). split; [now apply not_calm|]. split; auto. exists n. split; auto.
    eapply arr_here; [exact H'|]. cbn [app] in Hb'.
    assert (Hlen : length (firstn n us ++ skipn n vs) = length vs).
    { rewrite app_length, firstn_length, skipn_length. lia. }
    split; [congruence|]. split; [now rewrite Hlen|]. rewrite Hb. auto.
Qed.
Lemma move_assign_arrays o vs t us others w : two_arrays o vs t us others w ->
  ends (da_move_assign (o, t) w)
    (fun p _ w' => is_array (fst p) us others w' /\ fst p = t /\ gone (snd p)) (fun _ _ => False).
Proof.
  intros (m & Ho & Ht & Hu). eapply ends_weak; [apply wp_ends; eapply move_assign_ok; [apply at_start; exact Hu|apply arr_owns; exact Ho|apply arr_owns; exact Ht]| |]; auto.
  intros p ? w' (Hf & Hg & h & H & Hw). split; auto. rewrite Hf. eapply arr_here; eauto. eapply owns_arr; eauto.
Qed.
Lemma move_assign_to_gone (o t : storage) us others w : gone o -> is_array t us others w ->
  ends (da_move_assign (o, t) w)
    (fun p _ w' => is_array (fst p) us others w' /\ fst p = t /\ gone (snd p)) (fun _ _ => False).
Proof.
  intros Hg [Ht Hu]. eapply ends_weak; [apply wp_ends; eapply move_assign_ok; [apply at_start; exact Hu|apply gone_owns; exact Hg|apply arr_owns; exact Ht]| |]; auto.
  intros p ? w' (Hf & Hg' & h & H & Hw). split; auto. rewrite Hf. eapply arr_here; eauto. eapply owns_arr; eauto.
Qed.
Lemma self_move_array o vs others w : is_array o vs others w ->
  ends (da_self_move_assign o w) (fun o' _ w' => gone o' /\ same (heap w') others /\ unused_names w') (fun _ _ => False).
Proof.
  intros [Ha Hu]. eapply ends_weak; [apply wp_ends; eapply self_move_assign_ok; [apply at_start; exact Hu|apply arr_owns; exact Ha]| |]; auto.
  intros o' ? w' [Hg H]. split; auto. eapply back; eauto.
Qed.
Lemma copy_assign_arrays o vs t us others w : two_arrays t us o vs others w ->
  ends (da_copy_assign moved min max t o w)
    (fun o' _ w' => two_arrays t us o' us others w')
    (fun o' w' => someone_throws w /\
       (untouched o o' w w' \/
        min = 0 /\ length us <> length vs /\ two_arrays t us o' [] others w' \/
        length us = length vs /\ exists n, n < length us /\ two_arrays t us o' (firstn n us ++ skipn n vs) others w')).
Proof.
  intros (m & Ht & Ho & Hu).
  assert (Hst : forall x E (Q : storage -> nat -> world -> Prop), Q x (length us) w -> @wp V storage nat (da_size t) x w Q E) by (intros; eapply wp_size; eauto).
  unfold da_copy_assign, bind. specialize (Hst o (fun _ _ => False) (fun x n w' => x = o /\ n = length us /\ w' = w) (conj eq_refl (conj eq_refl eq_refl))).
  unfold wp in Hst. destruct (da_size t o w) as [x n w1|x w1|]; [|contradiction..]. destruct Hst as (-> & -> & ->).
  eapply ends_weak; [eapply assign_array; [split; [exact Ho|exact Hu]|]| |].
  - pose proof (copies _ _ _ _ Ht) as Hc. unfold da_data. eapply Forall2_weaken; [|exact Hc]. intros mk v. apply makes_yields.
  - intros o' ? w' [Hr Hu']. exists m. auto.
  - intros o' w' [Hw H]. split.
    + destruct Hw as [Hw|Hw]; auto. destruct Ht as (_ & Hr & _). contradiction.
    + destruct H as [H|[(H0 & Hl & H & Hu')|(_ & Hl & n & Hn & H & Hu')]]; auto; right; [left|right].
      * split; auto. split; auto. exists m. auto.
      * split; auto. exists n. split; auto. exists m. auto.
Qed.
Lemma swap_arrays o vs t us others w : two_arrays o vs t us others w ->
  ends (da_swap (o, t) w)
    (fun p _ w' => two_arrays (fst p) us (snd p) vs others w' /\ same (heap w') (heap w)) (fun _ _ => False).
Proof.
  intros (m & Ho & Ht & Hu). pose proof Ho as (Hs & Hr & Hc). pose proof Ht as (Hs' & Hr' & Hc').
  destruct o as [po so], t as [pt st]. cbn [u_pointer u_size] in *.
  unfold da_swap, da_move, storage_move. cbn [fst snd u_pointer u_size].
  unfold da_move_assign, bind, get, put, da_destroy_elements, da_data, deallocate_storage, ret. cbn [fst snd u_pointer u_size]. cbn.
  split; [|intros b; reflexivity]. destruct (owns_swap _ _ _ _ _ _ _ (arr_owns _ _ _ _ Ho) (arr_owns _ _ _ _ Ht)) as (m' & H1 & H2). exists m'.
  split; [exact (owns_arr _ _ _ _ _ _ _ Ht H1 eq_refl)|]. split; [exact (owns_arr _ _ _ _ _ _ _ Ho H2 eq_refl)|exact Hu].
Qed.
Lemma from_refuses mks (w : world) : ~ (min <= length mks <= max) -> da_from moved min max mks tt w = Exc tt w.
Proof.
  intros H. unfold da_from, bind. destruct (Nat.leb_spec min (length mks)); [|reflexivity]. destruct (Nat.leb_spec (length mks) max); [|reflexivity].
  exfalso. auto.
Qed.
Lemma size_array {X} o vs others w (x : X) : is_array o vs others w -> da_size o x w = Ret x (length vs) w.
Proof.
  intros [Ha _]. pose proof (wp_size o vs _ _ x w (fun x' n w' => x' = x /\ n = length vs /\ w' = w) (fun _ _ => False) Ha) as H.
  unfold wp in H. destruct (da_size o x w) as [x' n w'|x' w'|f]; destruct H; auto; try contradiction. destruct H0 as [-> ->]. now subst.
Qed.
Lemma move_array o vs others w t o' : is_array o vs others w -> da_move o = (t, o') -> is_array t vs others w /\ t = o /\ gone o'.
Proof. unfold da_move, storage_move. intros Ha E. injection E as <- <-. destruct o as [p s]. cbn. split; auto. split; auto. reflexivity. Qed.
Lemma clear_any (Hz : min = 0) o vs others w : is_array o vs others w \/ gone o /\ vs = [] /\ same (heap w) others /\ unused_names w ->
  ends (da_clear o w) (fun o' _ w' => is_array o' [] others w' /\ same (heap w') others) (fun _ _ => False).
Proof. intros H. eapply ends_weak; [apply (clear_array o vs others); auto| |]; auto. intros o' ? w' (H1 & _ & H2). auto. Qed.
End Proofs.
