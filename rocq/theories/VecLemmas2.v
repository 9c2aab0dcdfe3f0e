(** * Generic container operations that allocate *)

From Coq Require Import List Arith Bool Lia.
From Verif Require Import Mem MemLemmas Vec VecLemmas.
Import ListNotations.

Section Generic.
Context {V : Type} (moved : V -> V) (quiet : Prop).
Local Notation M := (M V).
Local Notation world := (world V).
Local Notation block := (block V).
Local Notation contents := (@contents V).
Local Notation at_ := (at_ quiet).
Context {O : Type} (C : container (V := V) O).
Context (own : O -> block -> contents -> contents -> Prop) (stable : O -> Prop) (n0 : nat).
Local Notation holds_cells := (holds_cells C own).
Local Notation disposes := (disposes quiet C).
Ltac fin := split; [reflexivity|split; [assumption|first [assumption|intros; contradiction|auto]]].
Context (B : base_laws C own).

(** What reallocation needs. [n0]: the capacity of a default-constructed container. *)
Record realloc_laws (reserve : nat -> M O unit) : Prop := {
  rl_reserve_is : c_reserve C = Some reserve;
  rl_default : forall h w, at_ w h ->
    wp (c_default C) tt w (fun _ o w' => exists h', at_ w' h' /\ holds_cells o [] n0 h h')
       (fun _ w' => at_ w' h /\ ~ quiet);
  rl_min : forall o cs g h, own o cs g h -> n0 <= length cs;
  rl_destroy : forall o vs k g h, holds_cells o vs k g h -> disposes o g h;
  rl_reserve : forall o vs k g h n w, at_ w h -> holds_cells o vs k g h -> n <= c_max C ->
    wp (reserve n) o w
      (fun o' _ w' => exists h' k', at_ w' h' /\ holds_cells o' vs k' g h' /\
         (if n <=? length vs + k then k' = k else length vs + k' = n /\ stable o'))
      (fun o' w' => o' = o /\ at_ w' h /\ ~ quiet);
  rl_stable : forall o n w, stable o -> match c_set_size C n o w with Ret o' _ _ => stable o' | _ => True end;
  rl_move : forall o t vs k ct g g2 h w, at_ w h -> own t ct g2 h -> holds_cells o vs k g g2 ->
    (stable t \/ exists us j, ct = map Some us ++ repeat None j /\ c_size C t = length us) ->
    wp (c_move_assign C) (o, t) w
      (fun p _ w' => exists g' h', at_ w' h' /\ own (fst p) ct g g' /\ c_size C (fst p) = c_size C t /\
         disposes (snd p) g' h')
      (fun _ _ => False)
}.

Lemma reallocation_size_grows cap n : 1 <= n -> cap < reallocation_size cap n.
Proof. unfold reallocation_size. lia. Qed.
Lemma reallocation_size_enough cap n : n <= reallocation_size cap n.
Proof. unfold reallocation_size. lia. Qed.

(** Leaving the scope of a temporary. *)
Lemma leave (o t : O) g h (w : world) (P : world -> Prop) :
  disposes t g h -> at_ w h -> (forall w', at_ w' g -> P w') ->
  wp (c_destroy C) t w (fun _ _ w' => P w') (fun _ _ => False).
Proof.
  intros Hd H HP. eapply wp_conseq. { apply Hd. exact H. } { cbv beta. intros _ _ w' H'. auto. } { auto. }
Qed.

(** Moving the temporary into the container and leaving. The container's elements were
    relocated, its size is set to zero first. *)
Lemma wp_set_size_stable o cs g h n (w : world) (Q : O -> unit -> world -> Prop) (E : O -> world -> Prop) reserve :
  realloc_laws reserve -> own o cs g h -> n <= length cs ->
  (forall o', own o' cs g h -> c_data C o' = c_data C o -> c_size C o' = n -> (stable o -> stable o') -> Q o' tt w) ->
  wp (c_set_size C n) o w Q E.
Proof.
  intros RL H Hn HQ. unfold wp. destruct (bl_set _ _ B _ _ _ _ n w H Hn) as (o' & He & H1 & H2 & H3).
  pose proof (fun S => rl_stable _ RL o n w S) as Hst. rewrite He in *. auto.
Qed.

Section Realloc.
Context (reserve : nat -> M O unit) (RL : realloc_laws reserve).

Lemma lazy_push_back_ok mk v o vs k g h w :
  at_ w h -> holds_cells o vs k g h -> yields h mk v ->
  (1 <= k \/ reallocation_size (length vs + k) 1 <= c_max C) ->
  wp (lazy_push_back moved C mk) o w
    (fun o' _ w' => exists h' k', at_ w' h' /\ holds_cells o' (vs ++ [v]) k' g h' /\
       length vs + 1 + k' = if k =? 0 then reallocation_size (length vs) 1 else length vs + k)
    (fun o' w' => o' = o /\ at_ w' h /\ ~ quiet).
Proof.
  intros H Hh Hy Hmax. destruct Hh as [Ho Hs]. unfold lazy_push_back.
  pose proof (bl_max _ _ B _ _ _ _ Ho) as Hm. rewrite length_cells in Hm.
  destruct (Nat.eqb_spec (c_max C) 0) as [Hz|Hz]. { unfold reallocation_size in Hmax. lia. }
  apply wp_bind, wp_get. apply wp_bind. eapply wp_capacity; eauto. rewrite length_cells.
  destruct (Nat.ltb_spec (c_size C o) (length vs + k)) as [Hlt|Hge].
  - destruct k as [|k]; [lia|].
    eapply wp_conseq. { eapply into_capacity_ok; eauto. split; eauto. }
    + cbv beta. intros o' _ w' (h' & H' & Hh'). exists h', k. split; [|split]; auto. cbn [Nat.eqb]. lia.
    + auto.
  - assert (k = 0) by lia. subst k. rewrite Nat.add_0_r in *. rewrite Hs. clear Hge.
    destruct Hmax as [|Hmax]; [lia|].
    rewrite (rl_reserve_is _ RL). apply wp_local. apply wp_unit.
    eapply wp_conseq; [apply (rl_default _ RL); exact H| |]; [|cbv beta; intros _ w1 [H1 Hq]; fin].
    cbv beta. intros _ t w1 (h1 & H1 & Ht & Hts).
    pose proof (rl_min _ RL _ _ _ _ Ho) as Hn0. rewrite length_cells in Hn0.
    pose proof (reallocation_size_grows (length vs) 1 (le_n 1)) as Hgrow.
    apply wp_bind. unfold assume_capacity. apply wp_require. { now apply Nat.leb_le. }
    apply wp_bind. apply wp_snd. cbn [fst snd].
    eapply wp_conseq. { apply (rl_reserve _ RL) with (vs := []); [exact H1|split; [exact Ht|exact Hts]|exact Hmax]. }
    2:{ cbv beta. intros t' w2 (-> & H2 & Hq). eapply leave; [exact o|eapply (rl_destroy _ RL); split; eauto|exact H2|]. intros w3 H3. fin. }
    cbv beta. intros t' _ w2 (h2 & k' & H2 & [Ht' Hts'] & Hk).
    cbn [length Nat.add] in Hk. destruct (Nat.leb_spec (reallocation_size (length vs) 1) n0); [lia|].
    destruct Hk as [-> Hst].
    set (N := reallocation_size (length vs) 1) in *. clearbody N.
    apply wp_bind, wp_get. cbn [fst snd]. apply wp_bind.
    cbn [map app] in Ht'.
    destruct (own_block _ _ B _ _ _ _ Ht') as (b & Hb & Hc & Hg). { rewrite repeat_length. lia. }
    assert (Hrep : repeat (@None V) N = repeat None (length vs) ++ None :: repeat None (N - length vs - 1)).
    { change (None :: repeat None (N - length vs - 1)) with (repeat (@None V) (S (N - length vs - 1))).
      rewrite <- repeat_plus. f_equal. lia. }
    assert (Hy2 : yields h2 mk v). { eapply yields_keep; eauto. }
    rewrite Hb. eapply wp_construct; eauto.
    { rewrite Hc, Hrep. reflexivity. } { now rewrite repeat_length. }
    2:{ intros w3 Hq H3. eapply leave; [exact o|eapply (rl_destroy _ RL t' []); split; [exact Ht'|exact Hts']|exact H3|]. intros w4 H4. fin. }
    intros w3 H3. apply wp_bind. rewrite <- Hb.
    assert (Ht3 : own t' (repeat None (length vs) ++ Some v :: repeat None (N - length vs - 1)) h
              (upd h2 b (Some (repeat None (length vs) ++ Some v :: repeat None (N - length vs - 1))))).
    { eapply (bl_upd _ _ B); eauto. rewrite !app_length. cbn. rewrite !repeat_length. lia. }
    eapply (wp_own_relocate moved quiet C own B o t' [] vs [] []); [exact H3|exact Ho|exact Ht3|auto..|].
    intros w4 g4 h4 H4 Ho4 Ht4. cbn [app] in *. rewrite app_nil_r in Ho4.
    apply wp_bind. apply wp_fst. cbn [fst snd]. eapply wp_set_size; eauto. { lia. }
    intros o5 Ho5 _ Hs5.
    apply wp_bind.
    eapply wp_conseq.
    { eapply (rl_move _ RL) with (vs := []) (o := o5); [exact H4|exact Ht4|split; [exact Ho5|exact Hs5]|left; exact Hst]. }
    2:{ contradiction. }
    cbv beta. intros [o6 t6] _ w6 (g6 & h6 & H6 & Ho6 & Hs6 & Hd6). cbn [fst snd] in *.
    apply wp_fst. cbn [fst snd]. eapply wp_set_size; eauto.
    { rewrite app_length, map_length. cbn. rewrite repeat_length. lia. }
    intros o7 Ho7 _ Hs7. eapply leave; eauto.
    intros w7 H7. exists g6, (N - length vs - 1). split; auto. split.
    + split. { rewrite map_app. cbn [map]. rewrite <- app_cons_assoc. exact Ho7. } rewrite Hs7, app_length. cbn. lia.
    + cbn. lia.
Qed.

Lemma check_capacity_ok {X} n (x : X) w (Q : X -> unit -> world -> Prop) (E : X -> world -> Prop) :
  (n <= c_max C -> Q x tt w) -> (c_max C < n -> E x w) -> wp (check_capacity C n) x w Q E.
Proof.
  intros HQ HE. unfold check_capacity. destruct (Nat.leb_spec n (c_max C)). - now apply wp_ret, HQ. - now apply wp_throw, HE.
Qed.

(** A temporary with enough room: exponential_force_reserve on a new container. *)
Lemma force_reserve_ok t g h w cap new_size :
  at_ w h -> holds_cells t [] n0 g h -> n0 <= cap -> 1 <= new_size ->
  wp (exponential_force_reserve C reserve cap new_size) t w
    (fun t' _ w' => exists h', at_ w' h' /\ holds_cells t' [] (reallocation_size cap new_size) g h' /\ stable t' /\
       reallocation_size cap new_size <= c_max C)
    (fun t' w' => t' = t /\ at_ w' h /\ (quiet -> c_max C < reallocation_size cap new_size)).
Proof.
  intros H [Ht Hts] Hn Hnew. unfold exponential_force_reserve.
  apply wp_bind. eapply wp_capacity; eauto. rewrite length_cells. cbn [length].
  apply wp_bind. apply wp_require. { apply Nat.leb_le. lia. }
  apply wp_bind. apply wp_require. { apply Nat.leb_le. lia. }
  apply wp_bind. apply check_capacity_ok. 2: auto. intros Hmax.
  eapply wp_conseq. { apply (rl_reserve _ RL) with (vs := []); [exact H|split; [exact Ht|exact Hts]|exact Hmax]. }
  - cbv beta. intros t' _ w' (h' & k' & H' & Hh' & Hk).
    cbn [length Nat.add] in Hk. destruct (Nat.leb_spec (reallocation_size cap new_size) n0).
    { pose proof (reallocation_size_grows cap new_size Hnew). lia. }
    destruct Hk as [-> Hst]. exists h'. auto.
  - cbv beta. intros t' w' (-> & H' & Hq). fin.
Qed.

Lemma append_sized_ok mks us o vs k g h w :
  at_ w h -> holds_cells o vs k g h -> Forall2 (yields h) mks us ->
  wp (append moved C (Source mks true)) o w
    (fun o' _ w' => exists h' k', at_ w' h' /\ holds_cells o' (vs ++ us) k' g h' /\
       length vs + length us + k' = if length us <=? k then length vs + k else reallocation_size (length vs + k) (length vs + length us))
    (fun o' w' => o' = o /\ at_ w' h /\ (quiet -> k < length us /\ c_max C < reallocation_size (length vs + k) (length vs + length us))).
Proof.
  intros H [Ho Hs] Hy. unfold append. rewrite (rl_reserve_is _ RL). cbn [s_sized s_elements].
  pose proof (Forall2_len _ _ _ Hy) as Hlen.
  apply wp_bind, wp_get. apply wp_bind. eapply wp_capacity; eauto. rewrite length_cells, Hs.
  apply wp_bind. destruct (Nat.leb_spec (length vs + length mks) (length vs + k)).
  - replace (length vs) with (length (map Some vs)) at 1 by apply map_length.
    assert (Hk : repeat (@None V) k = repeat None (length mks) ++ repeat None (k - length mks)).
    { rewrite <- repeat_plus. f_equal. lia. }
    eapply (wp_own_copy moved quiet C own B o us); eauto. { rewrite <- Hk. exact Ho. }
    2:{ intros w1 Hq H1. fin. }
    intros w1 h1 H1 Ho1 _. eapply wp_set_size; eauto.
    { rewrite !app_length, !map_length, repeat_length. lia. }
    intros o' Ho' _ Hs'. exists h1, (k - length mks). split; auto. split; [split|].
    + rewrite map_app, <- app_assoc. exact Ho'.
    + rewrite Hs', app_length. lia.
    + destruct (Nat.leb_spec (length us) k); lia.
  - apply wp_local. apply wp_unit.
    eapply wp_conseq; [apply (rl_default _ RL); exact H| |]; [|cbv beta; intros _ w1 [H1 Hq]; fin].
    cbv beta. intros _ t w1 (h1 & H1 & Ht).
    pose proof (rl_min _ RL _ _ _ _ Ho) as Hn0. rewrite length_cells in Hn0.
    apply wp_bind. apply wp_snd. cbn [fst snd].
    eapply wp_conseq. { eapply force_reserve_ok; eauto. lia. }
    2:{ cbv beta. intros t' w2 (-> & H2 & Hq). eapply leave; [exact o|eapply (rl_destroy _ RL); eauto|exact H2|]. intros w3 H3. rewrite <- Hlen. split; auto. split; auto. intros q. split; [lia|]. auto. }
    cbv beta. intros t' _ w2 (h2 & H2 & [Ht2 Hts2] & Hst & Hmax). cbn [map app] in Ht2.
    set (N := reallocation_size _ _) in *.
    assert (HN : length vs + length mks <= N) by apply reallocation_size_enough.
    apply wp_bind, wp_get. cbn [fst snd]. apply wp_bind.
    assert (Hk : repeat (@None V) N = repeat None (length vs) ++ repeat None (length mks) ++ repeat None (N - length vs - length mks)).
    { rewrite <- !repeat_plus. f_equal. lia. }
    replace (length vs) with (length (repeat (@None V) (length vs))) at 1 by apply repeat_length.
    eapply (wp_own_copy moved quiet C own B t' us); eauto. { rewrite <- Hk. exact Ht2. }
    { eapply Forall2_yields_keep; eauto. }
    2:{ intros w3 Hq H3. eapply leave; [exact o|eapply (rl_destroy _ RL t' []); split; [exact Ht2|exact Hts2]|exact H3|]. intros w4 H4. fin. }
    intros w3 h3 H3 Ht3 _. apply wp_bind.
    eapply (wp_own_relocate moved quiet C own B o t' [] vs (repeat None k) []); [exact H3|exact Ho|exact Ht3|auto..|].
    intros w4 g4 h4 H4 Ho4 Ht4. cbn [app] in *. rewrite <- repeat_plus in Ho4.
    apply wp_bind. apply wp_fst. cbn [fst snd]. eapply wp_set_size; eauto. { lia. }
    intros o5 Ho5 _ Hs5.
    eapply wp_conseq.
    { eapply (rl_move _ RL) with (vs := []) (o := o5); [exact H4|exact Ht4|split; [exact Ho5|exact Hs5]|left; exact Hst]. }
    2:{ contradiction. }
    cbv beta. intros [o6 t6] _ w6 (g6 & h6 & H6 & Ho6 & Hs6 & Hd6). cbn [fst snd] in *.
    eapply leave; eauto. intros w7 H7.
    eapply wp_set_size; eauto. { rewrite !app_length, !map_length, repeat_length. lia. }
    intros o' Ho' _ Hs'. eexists _, _. split; [exact H7|]. split; [split|].
    + rewrite map_app, <- app_assoc. exact Ho'.
    + rewrite Hs', app_length. lia.
    + destruct (Nat.leb_spec (length us) k); [lia|]. rewrite <- Hlen. fold N. lia.
Qed.

Lemma append_nothing_ok o vs k g h w :
  at_ w h -> holds_cells o vs k g h ->
  wp (append moved C (Source [] true)) o w
    (fun o' _ w' => exists h', at_ w' h' /\ holds_cells o' vs k g h')
    (fun _ _ => False).
Proof.
  intros H [Ho Hs]. unfold append. rewrite (rl_reserve_is _ RL). cbn [s_sized s_elements length].
  apply wp_bind, wp_get. apply wp_bind. eapply wp_capacity; eauto. rewrite length_cells, Hs, Nat.add_0_r.
  apply wp_bind. destruct (Nat.leb_spec (length vs) (length vs + k)); [|lia].
  apply wp_uninitialized_copy_nil. eapply wp_set_size; eauto. { rewrite length_cells. lia. }
  intros o' Ho' _ Hs'. exists h. split; auto. split; auto.
Qed.

(** Without a size: one push_back after another. Each may throw; what was appended stays. *)
Lemma each_push_back_ok mks us o vs k g h w :
  at_ w h -> holds_cells o vs k g h ->
  Forall2 (yields g) mks us ->
  2 * (length vs + length us) <= c_max C ->
  wp (each_push_back moved C mks) o w
    (fun o' _ w' => exists h' k', at_ w' h' /\ holds_cells o' (vs ++ us) k' g h')
    (fun o' w' => exists done h' k', done < length us /\ ~ quiet /\ at_ w' h' /\ holds_cells o' (vs ++ firstn done us) k' g h').
Proof.
  intros H Hh Hy. revert o vs k h w H Hh. induction Hy as [|mk v mks us Hy Hys IH]; intros o vs k h w H Hh Hmax; cbn [each_push_back].
  - apply wp_ret. exists h, k. rewrite app_nil_r. auto.
  - apply wp_bind. cbn [length] in Hmax. destruct Hh as [Ho Hs].
    eapply wp_conseq. { eapply (lazy_push_back_ok mk v); [exact H|split; eauto|eapply yields_keep; eauto|].
      destruct k; [right|left; lia]. unfold reallocation_size. lia. }
    + cbv beta. intros o' _ w' (h' & k' & H' & Hh' & _).
      eapply wp_conseq. { eapply IH; [exact H'|exact Hh'|]. rewrite app_length. cbn. lia. }
      * cbv beta. intros o2 _ w2. rewrite <- app_assoc. cbn [app]. auto.
      * cbv beta. intros o2 w2 (d & h2 & k2 & Hd & Hq & H2 & Hh2). exists (S d), h2, k2. cbn [length firstn].
        rewrite <- app_assoc in Hh2. split; [lia|auto].
    + cbv beta. intros o' w' (-> & H' & Hq). exists 0, h, k. cbn [firstn length]. rewrite app_nil_r. split; [lia|]. split; auto. split; auto. split; auto.
Qed.

Lemma insert_with_reallocation_ok mks us o l1 l2 k g h w position n :
  at_ w h -> holds_cells o (l1 ++ l2) k g h -> Forall2 (yields h) mks us -> position = length l1 ->
  n = length mks -> 1 <= n ->
  wp (insert_with_reallocation moved C reserve position mks n) o w
    (fun o' r w' => r = position /\ exists h' k', at_ w' h' /\ holds_cells o' (l1 ++ us ++ l2) k' g h' /\
       length l1 + length l2 + length us + k' = reallocation_size (length l1 + length l2 + k) (length l1 + length l2 + length us))
    (fun o' w' => o' = o /\ at_ w' h /\ (quiet -> c_max C < reallocation_size (length l1 + length l2 + k) (length l1 + length l2 + length us))).
Proof.
  intros H [Ho Hs] Hy -> -> Hn1. unfold insert_with_reallocation.
  pose proof (Forall2_len _ _ _ Hy) as Hlen. rewrite app_length in Hs.
  apply wp_local. apply wp_unit.
  eapply wp_conseq; [apply (rl_default _ RL); exact H| |]; [|cbv beta; intros _ w1 [H1 Hq]; fin].
  cbv beta. intros _ t w1 (h1 & H1 & Ht).
  pose proof (rl_min _ RL _ _ _ _ Ho) as Hn0. rewrite length_cells, app_length in Hn0.
  apply wp_bind, wp_get. cbn [fst snd]. apply wp_bind, wp_fst. cbn [fst snd]. eapply wp_capacity; eauto.
  rewrite length_cells, app_length. cbn [fst snd].
  apply wp_bind. apply wp_snd. cbn [fst snd].
  eapply wp_conseq. { eapply force_reserve_ok; eauto. lia. }
  2:{ cbv beta. intros t' w2 (-> & H2 & Hq). eapply leave; [exact o|eapply (rl_destroy _ RL); eauto|exact H2|]. intros w3 H3. rewrite Hs, Hlen in Hq. fin. }
  cbv beta. intros t' _ w2 (h2 & H2 & [Ht2 Hts2] & Hst & Hmax). cbn [map app] in Ht2. cbn [length] in Hts2.
  set (N := reallocation_size _ _) in *.
  assert (HN : length l1 + length l2 + length mks <= N).
  { unfold N. rewrite Hs. apply reallocation_size_enough. }
  apply wp_bind, wp_get. cbn [fst snd]. apply wp_bind.
  assert (Hk : repeat (@None V) N = repeat None (length l1) ++ repeat None (length mks) ++ repeat None (length l2) ++ repeat None (N - length l1 - length l2 - length mks)).
  { rewrite <- !repeat_plus. f_equal. lia. }
  replace (length l1) with (length (repeat (@None V) (length l1))) at 1 by apply repeat_length.
  eapply (wp_own_copy moved quiet C own B t' us); eauto. { rewrite <- Hk. exact Ht2. }
  { eapply Forall2_yields_keep; eauto. }
  2:{ intros w3 Hq H3. eapply leave; [exact o|eapply (rl_destroy _ RL t' []); split; [exact Ht2|exact Hts2]|exact H3|]. intros w4 H4. fin. }
  intros w3 h3 H3 Ht3 _. apply wp_bind.
  eapply (wp_own_relocate moved quiet C own B o t' [] l1 (map Some l2 ++ repeat None k) []); [exact H3| |exact Ht3|auto..|].
  { cbn [app]. rewrite app_assoc, <- map_app. exact Ho. }
  intros w4 g4 h4 H4 Ho4 Ht4. cbn [app] in *. apply wp_bind.
  eapply (wp_own_relocate moved quiet C own B o t' (repeat None (length l1)) l2 (repeat None k) (map Some l1 ++ map Some us)); [exact H4|exact Ho4|..].
  { rewrite <- !app_assoc. replace (c_size C o - length l1) with (length l2) by lia. exact Ht4. }
  { lia. } { now rewrite repeat_length. } { rewrite app_length, !map_length. lia. }
  intros w5 g5 h5 H5 Ho5 Ht5. rewrite <- !app_assoc in Ht5.
  apply wp_bind. apply wp_fst. cbn [fst snd]. eapply wp_set_size; eauto. { lia. }
  intros o6 Ho6 _ Hs6.
  apply wp_bind. apply wp_snd. cbn [fst snd]. eapply wp_set_size_stable; eauto.
  { rewrite !app_length, !map_length, repeat_length. lia. }
  intros t6 Ht6 _ Hts6 Hst6. apply wp_bind.
  eapply wp_conseq.
  { eapply (rl_move _ RL) with (vs := []) (o := o6); [exact H5|exact Ht6| |left; auto].
    split; [|exact Hs6]. cbn [map app]. rewrite <- !repeat_plus in Ho6. exact Ho6. }
  2:{ contradiction. }
  cbv beta. intros [o7 t7] _ w7 (g7 & h7 & H7 & Ho7 & Hs7 & Hd7). cbn [fst snd] in *.
  eapply leave; eauto. intros w8 H8. split; auto. eexists _, _. split; [exact H8|]. split; [split|].
  + rewrite !map_app, <- !app_assoc. exact Ho7.
  + cbn [fst]. rewrite Hs7, Hts6, Hs, !app_length. lia.
  + assert (HN' : N = reallocation_size (length l1 + length l2 + k) (length l1 + length l2 + length us)) by (unfold N; now rewrite Hs, Hlen).
    rewrite <- HN'. lia.
Qed.

Lemma shrink_to_fit_ok mincap o vs k g h w :
  at_ w h -> holds_cells o vs k g h ->
  wp (shrink_to_fit moved C mincap) o w
    (fun o' _ w' => exists h' k', at_ w' h' /\ holds_cells o' vs k' g h' /\
       (k' = 0 \/ length vs + k' = n0 \/ 0 < mincap /\ length vs + k' = mincap))
    (fun o' w' => o' = o /\ at_ w' h /\ ~ quiet).
Proof.
  intros H [Ho Hs]. unfold shrink_to_fit. rewrite (rl_reserve_is _ RL).
  apply wp_bind, wp_get. apply wp_bind. eapply wp_capacity; eauto. rewrite length_cells, Hs.
  destruct (Nat.eqb_spec (length vs) (length vs + k)).
  { apply wp_ret. exists h, k. split; [|split; [split|]]; auto. left. lia. }
  destruct (Nat.ltb_spec 0 mincap) as [Hmc|Hmc]; cbn [andb].
  1: destruct (Nat.eqb_spec (length vs + k) mincap).
  1:{ apply wp_ret. exists h, k. split; [|split; [split|]]; auto. }
  all: apply wp_local; apply wp_unit;
    (eapply wp_conseq; [apply (rl_default _ RL); exact H| |]; [|cbv beta; intros _ w1 [H1 Hq]; fin]);
    cbv beta; intros _ t w1 (h1 & H1 & Ht & Hts).
  all: pose proof (bl_max _ _ B _ _ _ _ Ho) as Hm; rewrite length_cells in Hm;
    apply wp_bind; apply wp_snd; cbn [fst snd].
  all: (eapply wp_conseq; [apply (rl_reserve _ RL) with (vs := []); [exact H1|split; [exact Ht|exact Hts]|lia]| |]);
    [|cbv beta; intros t' w2 (-> & H2 & Hq); eapply leave; [exact o|eapply (rl_destroy _ RL); split; eauto|exact H2|intros w3 H3; fin]].
  all: cbv beta; intros t' _ w2 (h2 & k' & H2 & [Ht2 Hts2] & Hk); cbn [map app length Nat.add] in *.
  all: assert (Hk' : length vs <= k' /\ (k' = length vs \/ k' = n0));
    [destruct (Nat.leb_spec (length vs) n0); [subst k'; lia|destruct Hk; lia]|].
  all: apply wp_bind, wp_get; cbn [fst snd]; apply wp_bind.
  all: assert (Hrep : repeat (@None V) k' = repeat None (length vs) ++ repeat None (k' - length vs)) by
    (rewrite <- repeat_plus; f_equal; lia).
  all: rewrite Hrep in Ht2.
  all: eapply (wp_own_relocate moved quiet C own B o t' [] vs (repeat None k) []); [exact H2|exact Ho|exact Ht2|reflexivity..|].
  all: intros w4 g4 h4 H4 Ho4 Ht4; cbn [app] in *; rewrite <- repeat_plus in Ho4.
  all: apply wp_bind; apply wp_snd; cbn [fst snd]; eapply wp_set_size; [exact B|exact Ht4|rewrite length_cells; lia|].
  all: intros t5 Ht5 _ Hts5; apply wp_bind; apply wp_fst; cbn [fst snd]; eapply wp_set_size; [exact B|exact Ho4|lia|].
  all: intros o5 Ho5 _ Hs5.
  all: (eapply wp_conseq; [eapply (rl_move _ RL) with (vs := []) (o := o5); [exact H4|exact Ht5|split; [exact Ho5|exact Hs5]|right; eauto]| |]); [|contradiction].
  all: cbv beta; intros [o6 t6] _ w6 (g6 & h6 & H6 & Ho6 & Hs6 & Hd6); cbn [fst snd] in *.
  all: eapply leave; eauto; intros w7 H7; eexists _, _; split; [exact H7|]; split; [split; [exact Ho6|congruence]|lia].
Qed.

End Realloc.
End Generic.
