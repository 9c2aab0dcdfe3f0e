(** * Moving and swapping the elements of static_vectors *)

From Coq Require Import List Arith Bool Lia.
From Verif Require Import Mem MemLemmas Vec VecLemmas VecLemmas2 VecLemmas3 VecInst SpecVec VecProofs VecProofs2 VecProofs3.
Import ListNotations.

Section Proofs.
Context {V : Type} (moved : V -> V) (quiet : Prop).
Local Notation world := (world V).
Local Notation contents := (@contents V).
Local Notation memory := (@memory V).
Local Notation M := (M V).
Local Notation at_ := (at_ quiet).

(** [*p++ = std::move( *q++ )] while both last. *)
Lemma wp_truncate_moves {O} b b' vs us dn l1 l2 r1 r2 h (o : O) w (Q : O -> nat -> world -> Prop) (E : O -> world -> Prop) :
  at_ w h -> b <> b' -> h b = Some (l1 ++ map Some vs ++ l2) -> h b' = Some (r1 ++ map Some us ++ r2) ->
  (forall w' m, m = Nat.min (length vs) (length us) ->
     at_ w' (upd (upd h b (Some (l1 ++ map Some (firstn m us ++ skipn m vs) ++ l2)))
                 b' (Some (r1 ++ map Some (map moved (firstn m us) ++ skipn m us) ++ r2))) -> Q o (dn + m) w') ->
  wp (copy_truncate moved (Some b) (length l1) (length vs) (map (MoveOf (Some b')) (seq (length r1) (length us))) dn) o w Q E.
Proof.
  intros H Hne Hb Hb'. revert us dn l1 r1 h w H Hb Hb'.
  induction vs as [|v vs IH]; intros us dn l1 r1 h w H Hb Hb' HQ.
  - cbn [length copy_truncate]. replace dn with (dn + 0) by lia. apply wp_ret. apply HQ; auto. cbn.
    eapply at_ext; eauto. apply eqh_sym. eapply eqh_trans; [|apply upd_id; exact Hb']. apply upd_eqh, upd_id. exact Hb.
  - destruct us as [|u us]; cbn [length seq map copy_truncate].
    { replace dn with (dn + 0) by lia. apply wp_ret. apply HQ; auto. cbn.
      eapply at_ext; eauto. apply eqh_sym. eapply eqh_trans; [|apply upd_id; exact Hb']. apply upd_eqh, upd_id. exact Hb. }
    apply wp_bind. unfold assign_at. apply wp_bind. cbn [make]. apply wp_bind.
    eapply wp_load; [exact H|exact Hb'|apply nth_error_mid; reflexivity|].
    apply wp_bind. eapply wp_store; [exact H|exact Hb'|reflexivity|]. intros w1 H1. apply wp_ret.
    eapply wp_store; [exact H1|rewrite upd_other by auto; exact Hb|reflexivity|]. intros w2 H2.
    replace (S (length l1)) with (length (l1 ++ [Some u])) by (rewrite app_length; cbn; lia).
    replace (S (length r1)) with (length (r1 ++ [Some (moved u)])) by (rewrite app_length; cbn; lia).
    eapply IH; [exact H2| | |].
    { rewrite upd_same. now rewrite app_cons_assoc. }
    { rewrite upd_other by auto. rewrite upd_same. now rewrite app_cons_assoc. }
    intros w3 m Hm H3. replace (S dn + m) with (dn + S m) by lia. apply HQ. { cbn. lia. }
    eapply at_ext; [exact H3|]. cbn [firstn skipn map app]. rewrite <- !app_assoc. cbn [app].
    intros x. unfold upd. destruct (x =? b'); auto. destruct (x =? b); auto.
Qed.

(** Constructing from moved elements. *)
Lemma wp_construct_moves {X} b b' us from dn ds l1 l2 r1 r2 h (x : X) w (Q : X -> unit -> world -> Prop) (E : X -> world -> Prop) :
  at_ w h -> b <> b' -> h b = Some (l1 ++ map Some ds ++ repeat None (length us) ++ l2) -> h b' = Some (r1 ++ map Some us ++ r2) ->
  from = length l1 -> dn = length ds ->
  (forall w', at_ w' (upd (upd h b (Some (l1 ++ map Some (ds ++ us) ++ l2))) b' (Some (r1 ++ map Some (map moved us) ++ r2))) -> Q x tt w') ->
  wp (copy_loop moved (Some b) from dn (map (MoveOf (Some b')) (seq (length r1) (length us)))) x w Q E.
Proof.
  intros H Hne Hb Hb' -> ->. revert ds r1 h w H Hb Hb'.
  induction us as [|u us IH]; intros ds r1 h w H Hb Hb' HQ; cbn [length seq map copy_loop].
  - apply wp_ret. apply HQ. rewrite app_nil_r. cbn in *.
    eapply at_ext; eauto. apply eqh_sym. eapply eqh_trans; [|apply upd_id; exact Hb']. apply upd_eqh, upd_id. exact Hb.
  - cbn [length repeat] in Hb.
    assert (Hb2 : h b = Some ((l1 ++ map Some ds) ++ None :: (repeat None (length us) ++ l2))) by (rewrite Hb; now rewrite <- app_assoc).
    apply wp_bind. apply wp_rethrow. unfold construct_at. apply wp_bind.
    eapply wp_require_raw; [exact H|exact Hb2|rewrite app_length, map_length; reflexivity|]. apply wp_bind. cbn [make]. apply wp_bind.
    eapply wp_load; [exact H|exact Hb'|apply nth_error_mid; reflexivity|].
    apply wp_bind. eapply wp_store; [exact H|exact Hb'|reflexivity|]. intros w1 H1. apply wp_ret.
    eapply wp_begin_life; [exact H1|rewrite upd_other by auto; exact Hb2|rewrite app_length, map_length; reflexivity|]. intros w2 H2.
    replace (S (length r1)) with (length (r1 ++ [Some (moved u)])) by (rewrite app_length; cbn; lia).
    replace (S (length ds)) with (length (ds ++ [u])) by (rewrite app_length; cbn; lia).
    eapply IH; [exact H2| | |].
    { rewrite upd_same, map_app. cbn [map]. now rewrite <- !app_assoc. }
    { rewrite upd_other by auto. rewrite upd_same. now rewrite app_cons_assoc. }
    intros w3 H3. apply HQ. eapply at_ext; [exact H3|]. cbn [map app]. rewrite <- !app_assoc. cbn [app].
    intros y. unfold upd. destruct (y =? b'); auto. destruct (y =? b); auto.
Qed.

(** std::swap_ranges *)
Lemma wp_swap_ranges {X} b b' vs us l1 l2 r1 r2 h (x : X) w (Q : X -> unit -> world -> Prop) (E : X -> world -> Prop) n i j :
  at_ w h -> b <> b' -> length vs = length us -> n = length vs -> i = length l1 -> j = length r1 ->
  h b = Some (l1 ++ map Some vs ++ l2) -> h b' = Some (r1 ++ map Some us ++ r2) ->
  (forall w', at_ w' (upd (upd h b (Some (l1 ++ map Some us ++ l2))) b' (Some (r1 ++ map Some vs ++ r2))) -> Q x tt w') ->
  wp (swap_ranges (Some b) i n (Some b') j) x w Q E.
Proof.
  intros H Hne Hl -> -> ->. revert us Hl l1 r1 h w H.
  induction vs as [|v vs IH]; intros [|u us] Hl l1 r1 h w H Hb Hb' HQ; try discriminate; cbn [length swap_ranges].
  - apply wp_ret. apply HQ. eapply at_ext; eauto. apply eqh_sym. eapply eqh_trans; [|apply upd_id; exact Hb']. apply upd_eqh, upd_id. exact Hb.
  - apply wp_bind. unfold swap_elements. apply wp_bind. eapply wp_load; [exact H|exact Hb|apply nth_error_mid; reflexivity|].
    apply wp_bind. eapply wp_load; [exact H|exact Hb'|apply nth_error_mid; reflexivity|].
    apply wp_bind. eapply wp_store; [exact H|exact Hb|reflexivity|]. intros w1 H1.
    eapply wp_store; [exact H1|rewrite upd_other by auto; exact Hb'|reflexivity|]. intros w2 H2.
    replace (S (length l1)) with (length (l1 ++ [Some u])) by (rewrite app_length; cbn; lia).
    replace (S (length r1)) with (length (r1 ++ [Some v])) by (rewrite app_length; cbn; lia).
    cbn in Hl. eapply (IH us ltac:(lia)); [exact H2| | |].
    { rewrite upd_other by auto. rewrite upd_same. now rewrite app_cons_assoc. }
    { rewrite upd_same. now rewrite app_cons_assoc. }
    intros w3 H3. apply HQ. eapply at_ext; [exact H3|]. cbn [map app]. rewrite <- !app_assoc. cbn [app].
    intros y. unfold upd. destruct (y =? b'); auto. destruct (y =? b); auto.
Qed.
End Proofs.

Section Static.
Context {V : Type} (moved : V -> V) (capacity : nat).
Local Notation world := (world V).
Local Notation memory := (@memory V).
Local Notation C := (static_vector (V := V) capacity).

Lemma two_static_intro o t (vs us : list V) ko kt (others : memory) (w : world) :
  v_place o <> v_place t -> others (v_place o) = None -> others (v_place t) = None ->
  v_size o = length vs -> v_size t = length us -> length vs + ko = capacity -> length us + kt = capacity ->
  heap w (v_place o) = Some (map Some vs ++ repeat None ko) -> heap w (v_place t) = Some (map Some us ++ repeat None kt) ->
  (forall b, b <> v_place o -> b <> v_place t -> heap w b = others b) -> unused_names w ->
  two_static_vectors capacity o vs t us others w.
Proof.
  intros Hne Ho Ht Hso Hst Hko Hkt Hbo Hbt Hrest Hu.
  exists (upd others (v_place o) (heap w (v_place o))). split; [|split; auto].
  - split; auto. split; auto. split. { exists ko. rewrite upd_same. auto. } intros b Hb. now apply upd_other.
  - split; auto. split. { now rewrite upd_other by auto. } split. { exists kt. auto. }
    intros b Hb. unfold upd. destruct (Nat.eqb_spec b (v_place o)) as [->|]; auto.
Qed.

Lemma two_static_elim o t (vs us : list V) (others : memory) (w : world) :
  two_static_vectors capacity o vs t us others w ->
  v_place o <> v_place t /\ others (v_place o) = None /\ others (v_place t) = None /\
  v_size o = length vs /\ v_size t = length us /\
  (exists ko, length vs + ko = capacity /\ heap w (v_place o) = Some (map Some vs ++ repeat None ko)) /\
  (exists kt, length us + kt = capacity /\ heap w (v_place t) = Some (map Some us ++ repeat None kt)) /\
  (forall b, b <> v_place o -> b <> v_place t -> heap w b = others b) /\ unused_names w.
Proof.
  intros (mid & (Hso & Hgo & (ko & Hmo & Hko) & Heo) & (Hst & Hgt & (kt & Hmt & Hkt) & Het) & Hu).
  assert (Hne : v_place o <> v_place t) by congruence.
  split; auto. split; auto. split. { rewrite <- Heo; auto. } split; auto. split; auto.
  split. { exists ko. split; auto. rewrite Het; auto. } split. { exists kt. auto. } split; auto.
  intros b H1 H2. rewrite Het, Heo; auto.
Qed.

Lemma swap_svec o vs t us others w :
  two_static_vectors capacity o vs t us others w ->
  ends (sv_swap moved (o, t) w)
    (fun p _ w' => two_static_vectors capacity (fst p) us (snd p) vs others w' /\
       v_place (fst p) = v_place o /\ v_place (snd p) = v_place t)
    (fun _ _ => False).
Proof.
  intros H. destruct (two_static_elim _ _ _ _ _ _ H) as (Hne & Ho & Ht & Hso & Hst & (ko & Hko & Hbo) & (kt & Hkt & Hbt) & Hrest & Hu).
  pose proof (at_start w Hu) as Hat.
  match goal with |- ends (?m ?x ?w) ?Q ?E => change (wp m x w Q E) end.
  unfold sv_swap. apply wp_bind, wp_get. cbn [fst snd].
  (* the longer one, the shorter one *)
  assert (Hgen : forall (l s : svector) (ls ss : list V) kl ks (Q : svector * svector -> unit -> world -> Prop) E,
     v_place l <> v_place s -> v_size l = length ls -> v_size s = length ss -> length ss <= length ls ->
     length ls + kl = capacity -> length ss + ks = capacity ->
     heap w (v_place l) = Some (map Some ls ++ repeat None kl) -> heap w (v_place s) = Some (map Some ss ++ repeat None ks) ->
     (forall w', at_ (calm w) w' (upd (upd (heap w) (v_place l) (Some (map Some ss ++ repeat None ks))) (v_place s) (Some (map Some ls ++ repeat None kl))) -> Q (o, t) tt w') ->
     wp (swap_ranges (sv_data s) 0 (v_size s) (sv_data l) 0 ;;;
         uninitialized_relocate moved (sv_data l) (v_size s) (v_size l - v_size s) (sv_data s) (v_size s)) (o, t) w Q E).
  { clear - Hat. intros l s ls ss kl ks Q E Hne Hl Hs Hle Hkl Hks Hbl Hbs HQ. rewrite Hl, Hs.
    assert (Hsplit : ls = firstn (length ss) ls ++ skipn (length ss) ls) by (symmetry; apply firstn_skipn).
    assert (Hf : length (firstn (length ss) ls) = length ss) by (rewrite firstn_length; lia).
    apply wp_bind. unfold sv_data.
    eapply (wp_swap_ranges (calm w) (v_place s) (v_place l) ss (firstn (length ss) ls) [] (repeat None ks) [] (map Some (skipn (length ss) ls) ++ repeat None kl));
      [exact Hat|auto|auto|reflexivity|reflexivity|reflexivity|exact Hbs| |].
    { cbn [app]. rewrite app_assoc, <- map_app, firstn_skipn. exact Hbl. }
    intros w1 H1. cbn [app] in H1.
    eapply (wp_uninitialized_relocate moved (calm w) (v_place l) (length ss) (v_place s) (length ss) (skipn (length ss) ls) (map Some ss) (repeat None kl)
        (map Some (firstn (length ss) ls)) (repeat None kl)); [exact H1|auto| | | | | |].
    { rewrite upd_same. reflexivity. }
    { now rewrite map_length. } { rewrite skipn_length. lia. }
    { rewrite upd_other by auto. rewrite upd_same. rewrite <- repeat_plus. do 3 f_equal. lia. }
    { rewrite map_length. lia. }
    intros w2 H2. apply HQ. eapply at_ext; [exact H2|]. intros b. unfold upd.
    destruct (Nat.eqb_spec b (v_place s)) as [->|].
    - rewrite app_assoc, <- map_app, firstn_skipn. reflexivity.
    - destruct (Nat.eqb_spec b (v_place l)); auto. rewrite <- repeat_plus. do 3 f_equal. lia. }
  apply wp_bind. destruct (Nat.leb_spec (v_size t) (v_size o)) as [Hle|Hgt].
  - eapply (Hgen o t vs us ko kt); auto; [lia|]. intros w' H'. apply wp_put. cbn [fst snd v_place].
    destruct (at_here _ _ _ H') as [He' Hu']. split; auto.
    eapply (two_static_intro _ _ us vs kt ko); cbn [v_place v_size]; auto.
    + rewrite <- He', upd_other by auto. now rewrite upd_same.
    + rewrite <- He'. now rewrite upd_same.
    + intros b H1 H2. rewrite <- He'. rewrite !upd_other by auto. auto.
  - eapply (Hgen t o us vs kt ko); auto; [lia|]. intros w' H'. apply wp_put. cbn [fst snd v_place].
    destruct (at_here _ _ _ H') as [He' Hu']. split; auto.
    eapply (two_static_intro _ _ us vs kt ko); cbn [v_place v_size]; auto.
    + rewrite <- He'. now rewrite upd_same.
    + rewrite <- He', upd_other by auto. now rewrite upd_same.
    + intros b H1 H2. rewrite <- He'. rewrite !upd_other by auto. auto.
Qed.

Lemma skipn_seq a n m : skipn a (seq n m) = seq (n + a) (m - a).
Proof.
  revert n m. induction a as [|a IH]; intros n m; [now rewrite Nat.add_0_r, Nat.sub_0_r|].
  destruct m; cbn [seq skipn]; auto. rewrite IH. f_equal; lia.
Qed.

Lemma move_assign_svec o vs t us others w :
  two_static_vectors capacity o vs t us others w ->
  ends (sv_move_assign moved capacity t o w)
    (fun o' _ w' => two_static_vectors capacity o' us t (map moved us) others w')
    (fun _ _ => False).
Proof.
  intros H. destruct (two_static_elim _ _ _ _ _ _ H) as (Hne & Ho & Ht & Hso & Hst & (ko & Hko & Hbo) & (kt & Hkt & Hbt) & Hrest & Hu).
  pose proof (at_start w Hu) as Hat.
  match goal with |- ends (?m ?x ?w) ?Q ?E => change (wp m x w Q E) end.
  unfold sv_move_assign, assign. apply wp_bind, wp_get. cbn [s_elements s_sized static_vector c_data c_size]. rewrite Hso, Hst. apply wp_bind.
  unfold sv_data.
  eapply (wp_truncate_moves moved (calm w) (v_place o) (v_place t) vs us 0 [] (repeat None ko) [] (repeat None kt)); [exact Hat|auto|exact Hbo|exact Hbt|].
  intros w1 m Hm H1. cbn [app Nat.add] in *. fold C. apply wp_bind.
  set (h1 := upd (upd (heap w) (v_place o) _) (v_place t) _) in H1.
  set (g1 := upd h1 (v_place o) None).
  assert (Hcells : holds_cells C (sv_own capacity) o (firstn m us ++ skipn m vs) ko g1 h1).
  { split; [|cbn; rewrite app_length, firstn_length, skipn_length; lia]. split. { unfold g1. apply upd_same. } split.
    - intros b. unfold g1, upd. destruct (Nat.eqb_spec b (v_place o)) as [->|]; auto. unfold h1.
      rewrite upd_other by auto. now rewrite upd_same.
    - rewrite length_cells, app_length, firstn_length, skipn_length. lia. }
  eapply wp_conseq. { eapply (erase_to_end_ok (calm w) C (sv_own capacity) (sv_base capacity)); [exact H1|exact Hcells|]. rewrite firstn_length. lia. }
  2:{ contradiction. }
  cbv beta. intros o2 _ w2 (h2 & H2 & [(Hg2 & Hh2 & Hl2) Hs2]). cbn [static_vector c_size] in Hs2.
  rewrite skipn_length in *. unfold append. cbn [static_vector c_reserve s_sized s_elements]. apply wp_bind, wp_get. apply wp_bind, wp_ret.
  unfold checked_uninitialized_copy. cbn [s_sized s_elements static_vector c_data c_size].
  rewrite skipn_map, skipn_seq. cbn [Nat.add]. rewrite map_length, seq_length.
  rewrite length_cells, firstn_length in Hl2. rewrite firstn_length in Hs2.
  assert (Ht2 : v_place o2 <> v_place t).
  { intros He. rewrite He in Hg2. unfold g1 in Hg2. rewrite upd_other in Hg2 by auto. unfold h1 in Hg2. rewrite upd_same in Hg2. discriminate. }
  assert (Hrest1 : forall b, b <> v_place o -> b <> v_place t -> g1 b = others b).
  { intros b Hx Hy. unfold g1, h1. rewrite !upd_other by auto. auto. }
  assert (Ho2 : others (v_place o2) = None).
  { destruct (Nat.eq_dec (v_place o2) (v_place o)) as [->|]; auto. rewrite <- Hrest1; auto. }
  assert (Hg1t : g1 (v_place t) = Some (map Some (map moved (firstn m us) ++ skipn m us) ++ repeat None kt)).
  { unfold g1. rewrite upd_other by auto. unfold h1. apply upd_same. }
  assert (Hsz : v_size o2 = m) by lia.
  assert (Hfl : length (firstn m us) = m) by (rewrite firstn_length; lia).
  apply wp_bind. apply wp_bind. destruct (Nat.ltb_spec capacity (length us - m)); [lia|]. apply wp_ret.
  unfold sv_data, uninitialized_copy. rewrite Hsz.
  replace (seq m (length us - m)) with (seq (length (map (@Some V) (map moved (firstn m us)))) (length (skipn m us)))
    by (rewrite !map_length, skipn_length, Hfl; reflexivity).
  eapply (wp_construct_moves moved (calm w) (v_place o2) (v_place t) (skipn m us) m 0 []
    (map Some (firstn m us)) (repeat None kt) (map Some (map moved (firstn m us))) (repeat None kt)); [exact H2|auto| | |now rewrite map_length|reflexivity|].
  { rewrite Hh2, upd_same. rewrite skipn_length. cbn [map app]. rewrite <- repeat_plus. do 3 f_equal. lia. }
  { rewrite Hh2, upd_other by auto. rewrite Hg1t. rewrite map_app, <- app_assoc. reflexivity. }
  intros w3 H3. cbn [static_vector c_set_size]. unfold sv_set_size. apply wp_bind, wp_require. { apply Nat.leb_le. lia. }
  apply wp_bind, wp_get. apply wp_put. cbn [app] in H3. rewrite !app_assoc, <- !map_app, firstn_skipn in H3.
  destruct (at_here _ _ _ H3) as [He3 Hu3].
  eapply (two_static_intro _ _ us (map moved us) kt kt); cbn [v_place v_size]; auto; try (rewrite ?map_length; lia).
  - rewrite <- He3, upd_other by auto. apply upd_same.
  - rewrite <- He3. apply upd_same.
  - intros b Hx Hy. rewrite <- He3. rewrite !upd_other by auto. rewrite Hh2, upd_other by auto.
    destruct (Nat.eq_dec b (v_place o)) as [->|]; auto. unfold g1. rewrite upd_same. auto.
Qed.
End Static.
