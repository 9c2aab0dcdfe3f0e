(** * The composed operations: insert, erase_if, resize, assign *)

From Coq Require Import List Arith Bool Lia.
From Verif Require Import Mem MemLemmas Vec VecLemmas VecLemmas2.
Import ListNotations.

Section Generic.
Context {V : Type} (moved : V -> V) (quiet : Prop).
Local Notation M := (M V).
Local Notation world := (world V).
Local Notation block := (block V).
Local Notation contents := (@contents V).
Local Notation at_ := (at_ quiet).
Context {O : Type} (C : container (V := V) O).
Context (own : O -> block -> contents -> contents -> Prop).
Local Notation holds_cells := (holds_cells C own).
Context (B : base_laws C own).
Ltac fin := split; [reflexivity|split; [assumption|first [assumption|intros; contradiction|auto]]].

Lemma filter_none (pr : V -> bool) pre : forallb (fun v => negb (pr v)) pre = true -> filter (fun v => negb (pr v)) pre = pre.
Proof.
  induction pre as [|v pre IH]; cbn; auto. destruct (pr v); cbn; [discriminate|]. intros H. now rewrite IH.
Qed.

Lemma filter_length (f : V -> bool) l : length (filter f l) <= length l.
Proof. induction l as [|v l IH]; cbn; auto. destruct (f v); cbn; lia. Qed.

(** After the first element that is erased, [pre] stays in place. The result is the number of elements
    after it that stay. *)
Lemma erase_if_ok pr o vs k g h w :
  at_ w h -> holds_cells o vs k g h ->
  wp (erase_if moved C pr) o w
    (fun o' r w' => exists h' k', at_ w' h' /\ holds_cells o' (filter (fun v => negb (pr v)) vs) k' g h' /\
       exists pre suf, vs = pre ++ suf /\ forallb (fun v => negb (pr v)) pre = true /\
         match suf with [] => True | v :: _ => pr v = true end /\
         r = length (filter (fun v => negb (pr v)) suf))
    (fun o' w' => exists h' all, ~ quiet /\ at_ w' h' /\ length all = length vs /\ holds_cells o' all k g h').
Proof.
  intros H [Ho Hs]. unfold erase_if. apply wp_bind, wp_get. apply wp_bind. rewrite Hs.
  destruct vs as [|v0 vs0].
  { cbn [length find_if]. apply wp_ret. cbn [Nat.eqb]. apply wp_ret. exists h, k. split; auto. split; [split; auto|].
    exists [], []. cbn. auto. }
  set (vs := v0 :: vs0) in *. assert (Hpos : 0 < length vs) by (cbn; lia). clearbody vs. clear v0 vs0.
  destruct (own_block _ _ B _ _ _ _ Ho) as (b & Hb & Hc & Hg). { rewrite length_cells. lia. }
  rewrite Hb. eapply find_if_ok with (l1 := []) (vs := vs) (l2 := repeat None k); eauto.
  2:{ intros w' Hq H'. exists h, vs. split; auto. split; auto. split; auto. split; auto. }
  intros w1 pre suf Hv Hpre Hsuf H1. cbn [Nat.add].
  destruct (Nat.eqb_spec (length pre) (length vs)) as [He|He].
  - assert (suf = []). { destruct suf; auto. rewrite Hv, app_length in He. cbn in He. lia. }
    subst suf. rewrite app_nil_r in Hv. subst pre. apply wp_ret.
    exists h, k. split; auto. rewrite (filter_none pr vs) by assumption. split; [split; auto|].
    exists vs, []. rewrite app_nil_r. cbn. auto.
  - destruct suf as [|v suf]. { rewrite app_nil_r in Hv. congruence. }
    apply wp_bind.
    eapply erase_if_loop_ok with (l1 := map Some pre) (junk := [v]) (vs := suf) (l2 := repeat None k) (h0 := h); eauto.
    + apply eqh_sym, upd_id. rewrite Hc, Hv. now rewrite map_app, <- app_assoc.
    + discriminate.
    + now rewrite map_length.
    + rewrite map_length. cbn. lia.
    + rewrite Hv, app_length. cbn. lia.
    + intros w2 junk' Hj H2. cbn [fst snd length] in *. set (kept := filter (fun v => negb (pr v)) suf) in *.
      assert (Hkl : length kept <= length suf) by apply filter_length.
      apply wp_bind.
      assert (Ho2 : own o (map Some ((pre ++ kept) ++ junk') ++ repeat None k) g
                        (upd h b (Some (map Some pre ++ map Some kept ++ map Some junk' ++ repeat None k)))).
      { rewrite !map_app, <- !app_assoc. eapply bl_upd; eauto.
        rewrite !app_length, !map_length, repeat_length, Hv, app_length. cbn. lia. }
      eapply wp_conseq. { eapply erase_to_end_ok; [exact B|exact H2|split; [exact Ho2|]|].
        - rewrite Hs, Hv, !app_length. cbn. lia.
        - rewrite app_length. reflexivity. }
      2:{ contradiction. }
      cbv beta. intros o3 _ w3 (h3 & H3 & Hh3). apply wp_ret.
      exists h3, (length junk' + k). split; auto. split.
      * rewrite Hv, filter_app, (filter_none pr pre) by assumption. cbn [filter]. rewrite Hsuf. exact Hh3.
      * exists pre, (v :: suf). split; auto. split; auto. split; auto. cbn [filter]. rewrite Hsuf. reflexivity.
    + intros w2 all Hq Hall H2. cbn [length] in Hall. eexists _, (pre ++ all). split; [exact Hq|]. split; [exact H2|]. split.
      * rewrite Hv, !app_length, Hall. cbn. lia.
      * split. { rewrite map_app, <- app_assoc. eapply bl_upd; eauto.
          rewrite !app_length, !map_length, repeat_length, Hv, app_length. cbn. lia. }
        rewrite Hs, Hv, !app_length, Hall. cbn. lia.
Qed.

(** ** Assigning to elements that exist *)
Lemma copy_truncate_ok p from n mks us vs dn l1 l2 h0 h (o : O) w (Q : O -> nat -> world -> Prop) (E : O -> world -> Prop) :
  at_ w h -> eqh h (upd h0 p (Some (l1 ++ map Some vs ++ l2))) ->
  (forall cs, Forall2 (yields (upd h0 p (Some cs))) mks us) -> from = length l1 -> n = length vs ->
  (forall w' m, m = Nat.min (length vs) (length us) ->
     at_ w' (upd h0 p (Some (l1 ++ map Some (firstn m us ++ skipn m vs) ++ l2))) -> Q o (dn + m) w') ->
  (forall w' m, ~ quiet -> m < Nat.min (length vs) (length us) ->
     at_ w' (upd h0 p (Some (l1 ++ map Some (firstn m us ++ skipn m vs) ++ l2))) -> E o w') ->
  wp (copy_truncate moved (Some p) from n mks dn) o w Q E.
Proof.
  intros H Hb Hy -> ->. revert us vs dn l1 h w H Hb Hy.
  induction mks as [|mk mks IH]; intros us vs dn l1 h w H Hb Hy HQ HE.
  - assert (us = []) by (specialize (Hy []); inversion Hy; reflexivity). subst us.
    replace (copy_truncate moved (Some p) (length l1) (length vs) [] dn) with (@ret V O nat dn) by (destruct vs; reflexivity).
    apply wp_ret. specialize (HQ w 0). rewrite Nat.add_0_r in HQ. apply HQ. { cbn. lia. }
    eapply at_ext; eauto.
  - destruct us as [|u us]. { specialize (Hy []). inversion Hy. }
    destruct vs as [|v vs]; cbn [length copy_truncate].
    { apply wp_ret. specialize (HQ w 0 eq_refl). rewrite Nat.add_0_r in HQ. apply HQ. eapply at_ext; eauto. }
    assert (Hhp : h p = Some (l1 ++ Some v :: map Some vs ++ l2)) by (rewrite Hb, upd_same; reflexivity).
    apply wp_bind. unfold assign_at. apply wp_bind.
    eapply wp_make with (v := u) (h := h); [exact H| | |].
    { assert (Hmk : yields (upd h0 p (Some (l1 ++ map Some (v :: vs) ++ l2))) mk u) by (specialize (Hy (l1 ++ map Some (v :: vs) ++ l2)); inversion Hy; assumption).
      destruct mk as [v'|[b|] i|[b|] i|[b|] i]; cbn in Hmk |- *; try contradiction; auto. destruct Hmk as (cs & Hc & Hi).
      exists cs. split; auto. now rewrite Hb. }
    2:{ intros w' Hq H'. apply (HE w' 0 Hq). { cbn. lia. } cbn [firstn skipn app]. eapply at_ext; eauto. }
    intros w1 H1. eapply wp_store; eauto. intros w2 H2.
    replace (S (length l1)) with (length (l1 ++ [Some u])) by (rewrite app_length; cbn; lia).
    eapply IH with (us := us) (vs := vs) (l1 := l1 ++ [Some u]).
    + exact H2.
    + eapply eqh_trans. { apply upd_eqh. exact Hb. } eapply eqh_trans. { apply upd_upd. }
      rewrite <- app_cons_assoc. apply eqh_refl.
    + intros cs. specialize (Hy cs). inversion Hy. assumption.
    + intros w3 m Hm H3. replace (S dn + m) with (dn + S m) by lia. apply (HQ w3 (S m)). { cbn. lia. }
      cbn [firstn skipn app map]. rewrite <- app_cons_assoc in H3. exact H3.
    + intros w3 m Hq Hm H3. apply (HE w3 (S m) Hq). { cbn. lia. }
      cbn [firstn skipn app map]. rewrite <- app_cons_assoc in H3. exact H3.
Qed.

Lemma copy_truncate_null mks (o : O) w (Q : O -> nat -> world -> Prop) (E : O -> world -> Prop) :
  Q o 0 w -> wp (copy_truncate moved None 0 0 mks 0) o w Q E.
Proof. intros HQ. destruct mks; exact HQ. Qed.

Lemma Forall2_skipn {A A'} (P : A -> A' -> Prop) l l' n : Forall2 P l l' -> Forall2 P (skipn n l) (skipn n l').
Proof. intros H. revert n. induction H; intros [|n]; cbn; auto. Qed.

(** The elements are assigned one by one, then the container is shortened or extended. What
    follows is given by [append_spec]. *)
Lemma assign_ok fits sized mks us o vs k g h w (Q : O -> unit -> world -> Prop) (E : O -> world -> Prop) :
  at_ w h -> holds_cells o vs k g h -> Forall2 (yields g) mks us ->
  (forall o' k' h' w' m, m = Nat.min (length vs) (length us) -> at_ w' h' -> holds_cells o' (firstn m us) k' g h' ->
     m + k' = length vs + k ->
     wp (append moved C (Source (skipn m mks) sized)) o' w' Q E) ->
  (forall o' h' w' m, ~ quiet -> m < Nat.min (length vs) (length us) -> at_ w' h' ->
     holds_cells o' (firstn m us ++ skipn m vs) k g h' -> E o' w') ->
  wp (assign moved C false fits (Source mks sized)) o w Q E.
Proof.
  intros H [Ho Hs] Hy Happ HE. unfold assign. cbn [s_elements s_sized].
  pose proof (Forall2_len _ _ _ Hy) as Hlen.
  apply wp_bind, wp_get. apply wp_bind. rewrite Hs.
  assert (Hfin : forall w' h' m, m = Nat.min (length vs) (length us) -> at_ w' h' ->
     own o (map Some (firstn m us ++ skipn m vs) ++ repeat None k) g h' ->
     wp (erase_to_end C m ;;; append moved C (Source (skipn m mks) sized)) o w' Q E).
  { intros w' h' m Hm H' Ho'. apply wp_bind. eapply wp_conseq.
    { eapply erase_to_end_ok with (vs := firstn m us) (us := skipn m vs); [exact B|exact H'|split; [exact Ho'|]|].
      - rewrite Hs, app_length, firstn_length, skipn_length. lia.
      - rewrite firstn_length. lia. }
    2:{ contradiction. }
    cbv beta. intros o2 _ w2 (h2 & H2 & Hh2). eapply Happ; eauto.
    rewrite skipn_length. lia. }
  pose proof (bl_data _ _ B _ _ _ _ Ho) as Hd. destruct (c_data C o) as [b|] eqn:Hb.
  - destruct Hd as [Hc Hg].
    eapply copy_truncate_ok with (l1 := []) (vs := vs) (us := us) (l2 := repeat None k) (h0 := h); eauto.
    + apply eqh_sym, upd_id. exact Hc.
    + intros cs. eapply Forall2_weaken; [|exact Hy]. intros mk v Hmk.
      destruct mk as [v'|[b'|] i|[b'|] i|[b'|] i]; cbn in Hmk |- *; try contradiction; auto.
      destruct Hmk as (cs' & Hc' & Hi'). exists cs'. split; auto. rewrite upd_other.
      * eapply bl_keep; eauto.
      * intros ->. rewrite Hg in Hc'. discriminate.
    + intros w1 m Hm H1. cbn [Nat.add app] in *. eapply Hfin; eauto.
      eapply bl_upd; eauto. rewrite !length_cells, app_length, firstn_length, skipn_length. lia.
    + intros w1 m Hq Hm H1. cbn [app] in H1. eapply HE; eauto. split.
      * eapply bl_upd; eauto. rewrite !length_cells, app_length, firstn_length, skipn_length. lia.
      * rewrite Hs, app_length, firstn_length, skipn_length. lia.
  - assert (vs = []). { destruct vs; [reflexivity|discriminate]. } subst vs.
    cbn [length]. apply copy_truncate_null. eapply (Hfin w h 0); eauto.
Qed.

Lemma yields_elsewhere o cs g h h' mk v :
  own o cs g h -> (forall b, c_data C o <> Some b -> h' b = h b) -> yields g mk v -> yields h' mk v.
Proof.
  intros Ho Hh Hmk. destruct mk as [v'|[b|] i|[b|] i|[b|] i]; cbn in Hmk |- *; try contradiction; auto.
  destruct Hmk as (cs' & Hc & Hi). exists cs'. split; auto.
  pose proof (bl_data _ _ B _ _ _ _ Ho) as Hd. rewrite Hh. { eapply bl_keep; eauto. }
  intros Hb. rewrite Hb in Hd. destruct Hd as [_ Hd]. rewrite Hd in Hc. discriminate.
Qed.

(** Inserting nothing at the end. *)
Lemma insert_nothing_ok o vs k g h w :
  at_ w h -> holds_cells o vs k g h ->
  wp (insert_without_reallocation moved C (length vs) [] 0) o w
    (fun o' r w' => r = length vs /\ exists h', at_ w' h' /\ holds_cells o' vs k g h')
    (fun o' w' => o' = o /\ at_ w' h /\ ~ quiet).
Proof.
  intros H [Ho Hs]. unfold insert_without_reallocation.
  apply wp_bind, wp_get. rewrite Hs, Nat.sub_diag. cbn [uninitialized_relocate_reversed].
  apply wp_bind, wp_ret. apply wp_bind, wp_rethrow, wp_uninitialized_copy_nil.
  apply wp_bind. eapply wp_set_size; eauto. { rewrite length_cells. lia. }
  intros o' Ho' _ Hs'. apply wp_ret. split; auto. exists h. split; auto. split; auto. lia.
Qed.

(** insert where there is room. *)
Lemma insert_in_place_ok mks us o l1 l2 k g h w position :
  at_ w h -> holds_cells o (l1 ++ l2) k g h -> Forall2 (yields g) mks us -> position = length l1 ->
  mks <> [] \/ l2 = [] -> length mks <= k ->
  wp (insert_without_reallocation moved C position mks (length mks)) o w
    (fun o' r w' => r = position /\ exists h', at_ w' h' /\ holds_cells o' (l1 ++ us ++ l2) (k - length mks) g h')
    (fun o' w' => o' = o /\ at_ w' h /\ ~ quiet).
Proof.
  intros H Hh Hy -> Hne Hk. pose proof (Forall2_len _ _ _ Hy) as Hlen. destruct mks as [|mk mks].
  - destruct us; [|discriminate]. destruct Hne as [Hne|Hne]; [contradiction|]. subst l2. cbn [app length] in *.
    rewrite app_nil_r in *. rewrite Nat.sub_0_r. eapply insert_nothing_ok; eauto.
  - cbn [length] in *.
    eapply (insert_without_reallocation_ok moved quiet C own B o l1 l2 (mk :: mks) us (k - S (length mks))); eauto.
    { replace (S (length mks) + (k - S (length mks))) with k by lia. exact Hh. }
    intros h' Hh' _. destruct Hh as [Ho Hs]. eapply Forall2_weaken; [|exact Hy]. intros. eapply yields_elsewhere; eauto.
Qed.

(** ** Containers that cannot reserve *)
Section Fixed.
Context (NR : c_reserve C = None).

Lemma push_back_fixed_ok mk v o vs k g h w :
  at_ w h -> holds_cells o vs k g h -> yields h mk v ->
  wp (lazy_push_back moved C mk) o w
    (fun o' _ w' => 1 <= k /\ exists h', at_ w' h' /\ holds_cells o' (vs ++ [v]) (k - 1) g h')
    (fun o' w' => o' = o /\ at_ w' h /\ (quiet -> k = 0)).
Proof.
  intros H [Ho Hs] Hy. unfold lazy_push_back.
  pose proof (bl_max _ _ B _ _ _ _ Ho) as Hm. rewrite length_cells in Hm.
  destruct (Nat.eqb_spec (c_max C) 0) as [Hz|Hz]. { apply wp_throw. split; auto. split; auto. intros _. lia. }
  apply wp_bind, wp_get. apply wp_bind. eapply wp_capacity; eauto. rewrite length_cells, NR.
  destruct (Nat.ltb_spec (c_size C o) (length vs + k)) as [Hlt|Hge]; [|apply wp_throw; split; auto; split; auto; intros _; lia].
  destruct k as [|k]; [lia|]. eapply wp_conseq. { eapply into_capacity_ok; eauto. split; eauto. }
  + cbv beta. intros o' _ w' (h' & H' & Hh'). split; [lia|]. exists h'. split; auto. now rewrite Nat.sub_succ, Nat.sub_0_r.
  + cbv beta. intros o' w' (-> & H' & Hq). fin.
Qed.

Lemma append_fixed_ok mks us o vs k g h w :
  at_ w h -> holds_cells o vs k g h -> Forall2 (yields h) mks us -> length mks <= k ->
  wp (append moved C (Source mks true)) o w
    (fun o' _ w' => exists h', at_ w' h' /\ holds_cells o' (vs ++ us) (k - length mks) g h')
    (fun o' w' => o' = o /\ at_ w' h /\ mks <> [] /\ ~ quiet).
Proof.
  intros H [Ho Hs] Hy Hk. unfold append. rewrite NR. pose proof (Forall2_len _ _ _ Hy) as Hlen.
  apply wp_bind, wp_get. apply wp_bind. eapply wp_capacity; eauto. rewrite length_cells, Hs.
  apply wp_bind. unfold checked_uninitialized_copy. cbn [s_sized s_elements].
  apply wp_bind. destruct (Nat.ltb_spec (length vs + k) (length mks)); [lia|]. apply wp_ret.
  assert (Hrep : repeat (@None V) k = repeat None (length mks) ++ repeat None (k - length mks)).
  { rewrite <- repeat_plus. f_equal. lia. }
  assert (Hfin : forall w1 h1, at_ w1 h1 -> own o (map Some vs ++ map Some us ++ repeat None (k - length mks)) g h1 ->
    wp (c_set_size C (length vs + length mks)) o w1
      (fun o' _ w' => exists h', at_ w' h' /\ holds_cells o' (vs ++ us) (k - length mks) g h')
      (fun o' w' => o' = o /\ at_ w' h /\ mks <> [] /\ ~ quiet)).
  { intros w1 h1 H1 Ho1. eapply wp_set_size; eauto. { rewrite !app_length, !map_length, repeat_length. lia. }
    intros o' Ho' _ Hs'. exists h1. split; auto. split. { rewrite map_app, <- app_assoc. exact Ho'. }
    rewrite Hs', app_length. lia. }
  destruct mks as [|mk mks].
  - destruct us; [|discriminate]. apply wp_uninitialized_copy_nil. eapply Hfin; eauto.
    cbn [length map app]. rewrite Nat.sub_0_r. exact Ho.
  - replace (length vs) with (length (map Some vs)) at 1 by apply map_length.
    eapply (wp_own_copy moved quiet C own B o us); eauto. { rewrite <- Hrep. exact Ho. }
    intros w1 Hq H1. split; auto. split; auto. split; auto. discriminate.
Qed.

(** A sized source that is longer than the whole capacity is refused. *)
Lemma append_fixed_refuses mks o vs k g h w :
  at_ w h -> holds_cells o vs k g h -> length vs + k < length mks ->
  wp (append moved C (Source mks true)) o w (fun _ _ _ => False) (fun o' w' => o' = o /\ w' = w).
Proof.
  intros H [Ho Hs] Hk. unfold append. rewrite NR.
  apply wp_bind, wp_get. apply wp_bind. eapply wp_capacity; eauto. rewrite length_cells, Hs.
  apply wp_bind. unfold checked_uninitialized_copy. cbn [s_sized s_elements].
  apply wp_bind. destruct (Nat.ltb_spec (length vs + k) (length mks)); [|lia]. apply wp_throw. auto.
Qed.

Lemma insert_fixed_ok mks us o l1 l2 k g h w position :
  at_ w h -> holds_cells o (l1 ++ l2) k g h -> Forall2 (yields g) mks us -> position = length l1 ->
  mks <> [] \/ l2 = [] ->
  wp (insert moved C position mks) o w
    (fun o' r w' => length mks <= k /\ r = position /\ exists h', at_ w' h' /\ holds_cells o' (l1 ++ us ++ l2) (k - length mks) g h')
    (fun o' w' => o' = o /\ at_ w' h /\ (quiet -> k < length mks)).
Proof.
  intros H Hh Hy Hp Hne. unfold insert. destruct Hh as [Ho Hs].
  apply wp_bind, wp_get. apply wp_bind. apply wp_require. { rewrite Hs, Hp, app_length. apply Nat.leb_le. lia. }
  apply wp_bind. eapply wp_capacity; eauto. rewrite length_cells, NR, Hs.
  destruct (Nat.leb_spec (length (l1 ++ l2) + length mks) (length (l1 ++ l2) + k)).
  - eapply wp_conseq. { eapply insert_in_place_ok with (k := k); eauto; [split; eauto|lia]. }
    + cbv beta. intros o' r w' (Hr & h' & H' & Hh'). split; [lia|]. split; eauto.
    + cbv beta. intros o' w' (-> & H' & Hq). fin.
  - apply wp_throw. split; auto. split; auto. intros _. lia.
Qed.

Lemma resize_fixed_ok mk v new_size o vs k g h w :
  at_ w h -> holds_cells o vs k g h -> yields g mk v -> new_size <= length vs + k ->
  wp (resize moved C new_size mk) o w
    (fun o' _ w' => exists h', at_ w' h' /\
       holds_cells o' (firstn new_size vs ++ repeat v (new_size - length vs)) (length vs + k - new_size) g h')
    (fun o' w' => o' = o /\ at_ w' h /\ ~ quiet).
Proof.
  intros H Hh Hy Hn. unfold resize. destruct Hh as [Ho Hs]. apply wp_bind, wp_get. rewrite Hs.
  destruct (Nat.leb_spec new_size (length vs)).
  - eapply wp_conseq. { eapply erase_to_end_ok with (vs := firstn new_size vs) (us := skipn new_size vs) (k := k); [exact B|exact H|rewrite firstn_skipn; split; eauto|].
      rewrite firstn_length. lia. }
    2:{ contradiction. }
    cbv beta. intros o' _ w' (h' & H' & Hh'). exists h'. split; auto.
    replace (new_size - length vs) with 0 by lia. cbn [repeat]. rewrite app_nil_r.
    rewrite skipn_length in Hh'. replace (length vs + k - new_size) with (length vs - new_size + k) by lia. exact Hh'.
  - eapply wp_conseq. { eapply append_fixed_ok with (us := repeat v (new_size - length vs)); [exact H|split; eauto|..].
      - eapply Forall2_yields_keep; [exact B|exact Ho|]. induction (new_size - length vs); cbn; auto.
      - rewrite repeat_length. lia. }
    + cbv beta. intros o' _ w' (h' & H' & Hh'). exists h'. split; auto. rewrite (firstn_all2 vs) by lia.
      rewrite repeat_length in Hh'. replace (length vs + k - new_size) with (k - (new_size - length vs)) by lia. exact Hh'.
    + cbv beta. intros o' w' (-> & H' & _ & Hq). auto.
Qed.

Lemma assign_fixed_ok fits mks us o vs k g h w :
  at_ w h -> holds_cells o vs k g h -> Forall2 (yields g) mks us -> length mks <= length vs + k ->
  wp (assign moved C false fits (Source mks true)) o w
    (fun o' _ w' => exists h' k', at_ w' h' /\ holds_cells o' us k' g h')
    (fun o' w' => exists m h' k', ~ quiet /\ m <= Nat.min (length vs) (length us) /\ at_ w' h' /\
       holds_cells o' (firstn m us ++ skipn m vs) k' g h').
Proof.
  intros H Hh Hy Hk. eapply assign_ok; eauto.
  - intros o' k' h' w' m Hm H' Hh' Hcap. pose proof (Forall2_len _ _ _ Hy) as Hlen.
    eapply wp_conseq. { eapply append_fixed_ok; [exact H'|exact Hh'| |].
      - eapply Forall2_yields_keep; [exact B|apply Hh'|]. apply Forall2_skipn. exact Hy.
      - rewrite skipn_length. lia. }
    + cbv beta. intros o2 _ w2 (h2 & H2 & Hh2). rewrite firstn_skipn in Hh2. eauto.
    + cbv beta. intros o2 w2 (-> & H2 & Hne & Hq). exists m, h', k'. split; auto. split; [lia|]. split; auto.
      replace (skipn m vs) with (@nil V). { now rewrite app_nil_r. }
      symmetry. apply skipn_all2. destruct (le_lt_dec (length us) (length vs)); [|lia].
      elim Hne. apply skipn_all2. lia.
  - intros o' h' w' m Hq Hm H' Hh'. exists m, h', k. split; auto. split; [lia|]. auto.
Qed.

(** Assigning to an empty container, element types that are trivially copyable. *)
Lemma clear_and_fill_ok mks us o vs k g h w :
  at_ w h -> holds_cells o vs k g h -> Forall2 (yields g) mks us -> length mks <= length vs + k ->
  wp (assign moved C true true (Source mks true)) o w
    (fun o' _ w' => exists h' k', at_ w' h' /\ holds_cells o' us k' g h')
    (fun o' w' => exists h' k', ~ quiet /\ at_ w' h' /\ holds_cells o' [] k' g h').
Proof.
  intros H Hh Hy Hk. unfold assign. apply wp_bind. eapply wp_conseq. { eapply clear_ok; eauto. } 2:{ contradiction. }
  cbv beta. intros o1 _ w1 (h1 & H1 & [Ho1 Hs1]). pose proof (Forall2_len _ _ _ Hy) as Hlen.
  unfold assign_to_empty. apply wp_bind, wp_get. apply wp_bind. apply wp_require. { now apply Nat.eqb_eq. }
  unfold assign_to_empty_into_capacity. cbn [s_elements].
  apply wp_bind, wp_get. apply wp_bind. apply wp_require. { now apply Nat.eqb_eq. }
  apply wp_bind.
  eapply (wp_own_copy moved quiet C own B o1 us mks [] (repeat None (length vs + k - length mks))); [exact H1| |eapply Forall2_yields_keep; eauto|..].
  { cbn [app map] in *. rewrite <- repeat_plus. replace (length mks + (length vs + k - length mks)) with (length vs + k) by lia. exact Ho1. }
  - intros w2 h2 H2 Ho2 _. cbn [app] in Ho2. eapply wp_set_size; eauto.
    { rewrite app_length, map_length, repeat_length. lia. }
    intros o3 Ho3 _ Hs3. exists h2, (length vs + k - length mks). split; auto. split; auto. lia.
  - intros w2 Hq H2. exists h1, (length vs + k). split; auto. split; auto. split; auto.
Qed.

End Fixed.

Section Realloc.
Context (stable : O -> Prop) (n0 : nat) (reserve : nat -> M O unit) (RL : realloc_laws quiet C own stable n0 reserve).

Lemma assign_realloc_ok fits mks us o vs k g h w :
  at_ w h -> holds_cells o vs k g h -> Forall2 (yields g) mks us ->
  wp (assign moved C false fits (Source mks true)) o w
    (fun o' _ w' => exists h' k', at_ w' h' /\ holds_cells o' us k' g h')
    (fun o' w' => exists m h' k', (quiet -> length vs + k < length us /\ c_max C < reallocation_size (length vs + k) (length us)) /\ m <= Nat.min (length vs) (length us) /\ at_ w' h' /\
       holds_cells o' (firstn m us ++ skipn m vs) k' g h').
Proof.
  intros H Hh Hy. eapply assign_ok; eauto.
  - intros o' k' h' w' m Hm H' Hh' Hcap. pose proof (Forall2_len _ _ _ Hy) as Hlen.
    destruct (le_lt_dec (length us) (length vs)) as [Hle|Hgt].
    + replace (skipn m mks) with (@nil (maker V)) by (symmetry; apply skipn_all2; lia).
      replace (firstn m us) with us in Hh' by (symmetry; apply firstn_all2; lia).
      eapply wp_conseq. { eapply (append_nothing_ok moved quiet C own stable n0 B reserve RL); eauto. }
      * cbv beta. intros o2 _ w2 (h2 & H2 & Hh2). eauto.
      * contradiction.
    + eapply wp_conseq. { eapply (append_sized_ok moved quiet C own stable n0 B reserve RL); [exact H'|exact Hh'|].
        eapply Forall2_yields_keep; [exact B|apply Hh'|]. apply Forall2_skipn. exact Hy. }
      * cbv beta. intros o2 _ w2 (h2 & k2 & H2 & Hh2 & _). rewrite firstn_skipn in Hh2. eauto.
      * cbv beta. intros o2 w2 (-> & H2 & Hq). exists m, h', k'. split.
        { intros q. specialize (Hq q). rewrite firstn_length, skipn_length in Hq.
          replace (Nat.min m (length us) + k') with (length vs + k) in Hq by lia.
          replace (Nat.min m (length us) + (length us - m)) with (length us) in Hq by lia. split; [lia|apply Hq]. }
        split; [lia|]. split; auto.
        replace (skipn m vs) with (@nil V). { now rewrite app_nil_r. }
        symmetry. apply skipn_all2. lia.
  - intros o' h' w' m Hq Hm H' Hh'. exists m, h', k. split; [intros; contradiction|]. split; [lia|]. auto.
Qed.

Lemma insert_realloc_ok mks us o l1 l2 k g h w position :
  at_ w h -> holds_cells o (l1 ++ l2) k g h -> Forall2 (yields g) mks us -> position = length l1 ->
  mks <> [] \/ l2 = [] ->
  wp (insert moved C position mks) o w
    (fun o' r w' => r = position /\ exists h' k', at_ w' h' /\ holds_cells o' (l1 ++ us ++ l2) k' g h' /\
       length l1 + length l2 + length us + k' = if length us <=? k then length l1 + length l2 + k
         else reallocation_size (length l1 + length l2 + k) (length l1 + length l2 + length us))
    (fun o' w' => o' = o /\ at_ w' h /\ (quiet -> k < length us /\ c_max C < reallocation_size (length l1 + length l2 + k) (length l1 + length l2 + length us))).
Proof.
  intros H Hh Hy Hp Hne. unfold insert. destruct Hh as [Ho Hs]. pose proof (Forall2_len _ _ _ Hy) as Hlen.
  apply wp_bind, wp_get. apply wp_bind. apply wp_require. { rewrite Hs, Hp, app_length. apply Nat.leb_le. lia. }
  apply wp_bind. eapply wp_capacity; eauto. rewrite length_cells, (rl_reserve_is _ _ _ _ _ _ RL), Hs.
  destruct (Nat.leb_spec (length (l1 ++ l2) + length mks) (length (l1 ++ l2) + k)).
  - eapply wp_conseq. { eapply insert_in_place_ok with (k := k); eauto; [split; eauto|lia]. }
    + cbv beta. intros o' r w' (Hr & h' & H' & Hh'). split; auto. exists h', (k - length mks). split; auto. split; auto.
      destruct (Nat.leb_spec (length us) k); lia.
    + cbv beta. intros o' w' (-> & H' & Hq). fin.
  - eapply wp_conseq. { eapply (insert_with_reallocation_ok moved quiet C own stable n0 B reserve RL) with (k := k); eauto.
      + split; eauto.
      + eapply Forall2_yields_keep; eauto.
      + lia. }
    + cbv beta. intros o' r w' (Hr & h' & k' & H' & Hh' & Hk'). split; auto. exists h', k'. split; auto. split; auto.
      destruct (Nat.leb_spec (length us) k); lia.
    + cbv beta. intros o' w' (-> & H' & Hq). split; auto. split; auto. intros q. split; [lia|]. auto.
Qed.

Lemma resize_realloc_ok mk v new_size o vs k g h w :
  at_ w h -> holds_cells o vs k g h -> yields g mk v ->
  wp (resize moved C new_size mk) o w
    (fun o' _ w' => exists h' k', at_ w' h' /\
       holds_cells o' (firstn new_size vs ++ repeat v (new_size - length vs)) k' g h')
    (fun o' w' => o' = o /\ at_ w' h /\ (quiet -> length vs + k < new_size /\ c_max C < reallocation_size (length vs + k) new_size)).
Proof.
  intros H Hh Hy. unfold resize. destruct Hh as [Ho Hs]. apply wp_bind, wp_get. rewrite Hs.
  destruct (Nat.leb_spec new_size (length vs)).
  - eapply wp_conseq. { eapply erase_to_end_ok with (vs := firstn new_size vs) (us := skipn new_size vs) (k := k); [exact B|exact H|rewrite firstn_skipn; split; eauto|].
      rewrite firstn_length. lia. }
    2:{ contradiction. }
    cbv beta. intros o' _ w' (h' & H' & Hh'). eexists _, _. split; [exact H'|].
    replace (new_size - length vs) with 0 by lia. cbn [repeat]. rewrite app_nil_r. exact Hh'.
  - eapply wp_conseq. { eapply (append_sized_ok moved quiet C own stable n0 B reserve RL) with (us := repeat v (new_size - length vs)); [exact H|split; eauto|].
      eapply Forall2_yields_keep; [exact B|exact Ho|]. induction (new_size - length vs); cbn; auto. }
    + cbv beta. intros o' _ w' (h' & k' & H' & Hh' & _). rewrite (firstn_all2 vs) by lia. eauto.
    + cbv beta. intros o' w' (-> & H' & Hq). rewrite repeat_length in Hq.
      replace (length vs + (new_size - length vs)) with new_size in Hq by lia. split; auto. split; auto. intros q. specialize (Hq q). split; [lia|apply Hq].
Qed.

End Realloc.
End Generic.
