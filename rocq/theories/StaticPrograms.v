(** * Proofs about programs with several static_vectors *)

From Coq Require Import List Arith Bool Lia.
From Verif Require Import Mem MemLemmas Vec VecLemmas VecCost SpecVec SpecHistory VecProofs VecProofs2 VecProofs3 VecProofs4 VecHistory SpecSeveral Several
  SboCalm SpecStaticPrograms.
Import ListNotations.

Section Proofs.
Context {V : Type} (moved : V -> V) (capacity : nat).
Local Notation world := (world V).
Local Notation memory := (@memory V).
Local Notation C := (static_vector (V := V) capacity).
Local Notation is_vec := (is_static_vector (V := V) capacity).
Local Notation vector_in := (is_static_vector_in (V := V) capacity).
Local Notation vectors := (vectors (V := V) capacity).
Local Notation EV := (@later_evolution V).

Lemma in_same o l (r m m' : memory) : same m m' -> vector_in o l r m -> vector_in o l r m'.
Proof.
  intros Hs (H1 & H2 & (k & H3 & H4) & H5). split; auto. split; auto. split. { exists k. rewrite <- Hs. auto. } intros b Hb. rewrite <- Hs. auto.
Qed.
Lemma in_swap o l t u (others mid m : memory) :
  vector_in o l mid m -> vector_in t u others mid -> exists mid', vector_in t u mid' m /\ vector_in o l others mid'.
Proof.
  intros (A1 & A2 & (ka & A3 & A4) & A5) (B1 & B2 & (kb & B3 & B4) & B5).
  assert (Hne : v_place o <> v_place t) by congruence.
  exists (upd others (v_place o) (m (v_place o))). split.
  - split; auto. split. { now rewrite upd_other by auto. } split. { exists kb. split; auto. rewrite A5; auto. }
    intros b Hb. unfold upd. destruct (Nat.eqb_spec b (v_place o)) as [->|Hb']; auto. rewrite A5; auto.
  - split; auto. split. { rewrite <- B5; auto. } split. { exists ka. rewrite upd_same. auto. } intros b Hb. now apply upd_other.
Qed.
Lemma in_size o l (r m : memory) : vector_in o l r m -> v_size o = length l. Proof. intros [H _]. exact H. Qed.
Lemma in_fits o l (r m : memory) : vector_in o l r m -> length l <= capacity. Proof. intros (_ & _ & (k & _ & H) & _). lia. Qed.
Lemma all_fit os : forall ls (others m : memory), several_in vector_in os ls others m -> fits capacity ls = true.
Proof.
  induction os as [|o os IH]; intros [|l ls] others m; cbn; try contradiction; auto. intros (r & H1 & H2).
  rewrite (proj2 (Nat.leb_le _ _) (in_fits _ _ _ _ H1)). cbn. eauto.
Qed.

(** ** Exceptions come from the script, names are not reused *)
Local Opaque with_local.
Ltac ev := repeat first
  [ apply calm_new_block | apply calm_allocate
  | apply (evolves_construct_at moved _ EV) | apply (evolves_assign_at moved _ EV) | apply (evolves_destroy_range _ EV) | apply (evolves_copy moved _ EV)
  | apply (evolves_relocate moved _ EV) | apply (evolves_relocate_reversed moved _ EV)
  | apply (evolves_deallocate _ EV) | apply (evolves_destroy _ EV) | apply (evolves_load _ EV) | apply (evolves_store _ EV) | apply (evolves_may_throw _ EV)
  | apply calm_bind; [|intros ?] | apply calm_local | apply (evolves_rethrow _ EV) | apply (evolves_ret _ EV) | apply (evolves_get _ EV) | apply (evolves_put _ EV)
  | apply (evolves_throw _ EV) | apply (evolves_require _ EV) | apply evolves_bad
  | apply (evolves_fst _ 0) | apply (evolves_snd _ 0) | apply (evolves_unit _ 0) ].
Lemma calm_set_size n : calm_m (sv_set_size (V := V) capacity n).
Proof. unfold sv_set_size. ev. Qed.
Local Opaque sv_set_size.
Lemma calm_default : calm_m (sv_default (V := V) capacity).
Proof. unfold sv_default. ev. Qed.
Local Opaque sv_default.
Lemma calm_destroy : calm_m (sv_destroy (V := V) capacity).
Proof. unfold sv_destroy. ev. Qed.
Local Opaque sv_destroy.
Ltac ev2 := cbn [static_vector c_capacity c_set_size c_data c_size c_default c_destroy c_move_assign c_reserve c_replace];
  repeat first [ apply calm_set_size | apply calm_default | apply calm_destroy | progress ev ].
Lemma calm_push_back mk : calm_m (push_back moved C mk).
Proof.
  unfold push_back, lazy_push_back. destruct (_ =? 0); [ev2|]. ev2. destruct (_ <? _).
  { unfold lazy_push_back_into_capacity. ev2. }
  unfold assume_capacity. ev2.
Qed.
Lemma calm_pop_back : calm_m (pop_back C).
Proof. unfold pop_back. ev2. destruct (_ =? _); ev2. Qed.
Lemma calm_clear : calm_m (clear C). Proof. unfold clear. ev2. Qed.
Lemma calm_erase_to_end n : calm_m (erase_to_end C n). Proof. unfold erase_to_end. ev2. Qed.
Local Opaque erase_to_end.
Lemma calm_erase_loop p t n s l : calm_m (erase_loop (V := V) (O := svector) moved p t n s l).
Proof. revert t s. induction n as [|n IH]; intros; cbn; ev. destruct (_ =? _); ev. apply IH. Qed.
Local Opaque erase_loop.
Lemma calm_erase i j : calm_m (erase moved C i j).
Proof. unfold erase. destruct (i =? j); ev2. { apply calm_erase_loop. } destruct (negb _); ev2. Qed.
Lemma calm_find_if p i n q : calm_m (find_if (V := V) (O := svector) p i n q).
Proof. revert i. induction n as [|n IH]; intros; cbn; ev. destruct (q _); ev. apply IH. Qed.
Lemma calm_erase_if_loop p i n l r q : calm_m (erase_if_loop (V := V) (O := svector) moved p i n l r q).
Proof. revert i l r. induction n as [|n IH]; intros; cbn; ev. destruct (q _); ev; apply IH. Qed.
Lemma calm_erase_if q : calm_m (erase_if moved C q).
Proof.
  unfold erase_if. apply calm_bind; [ev2|intros o]. apply calm_bind; [apply calm_find_if|intros n]. destruct (_ =? _); [ev2|].
  apply calm_bind; [apply calm_erase_if_loop|intros nr]. apply calm_bind; [apply calm_erase_to_end|intros _; ev2].
Qed.
Lemma calm_append mks : calm_m (append moved C (Source mks true)).
Proof. unfold append, checked_uninitialized_copy. cbn [static_vector c_reserve s_sized]. ev2. cbn [s_elements]. destruct (_ <? _); ev2. Qed.
Lemma calm_resize n mk : calm_m (resize moved C n mk).
Proof. unfold resize. apply calm_bind; [ev2|intros o]. destruct (_ <=? _); [apply calm_erase_to_end|apply calm_append]. Qed.
Lemma calm_insert i mks : calm_m (insert moved C i mks).
Proof.
  unfold insert. ev2. destruct (_ <=? _). { unfold insert_without_reallocation. ev2. }
  unfold insert_with_reallocation. ev2.
Qed.
Lemma calm_truncate p i n mks k : calm_m (copy_truncate (V := V) (O := svector) moved p i n mks k).
Proof. revert i mks k. induction n as [|n IH]; intros i [|mk mks] k; cbn; ev. apply IH. Qed.
Lemma calm_assign fits mks : calm_m (assign moved C false fits (Source mks true)).
Proof.
  unfold assign. apply calm_bind; [ev2|intros o]. apply calm_bind; [apply calm_truncate|intros n].
  apply calm_bind; [apply calm_erase_to_end|intros _]. apply calm_append.
Qed.
Lemma calm_constructor body : calm_m body -> calm_m (sv_constructor (V := V) capacity body).
Proof.
  intros Hb x w. unfold sv_constructor. pose proof (calm_default x w) as H1. destruct (sv_default capacity x w) as [x1 o w1|x1 w1|]; auto.
  specialize (Hb o w1). destruct (body o w1) as [o2 [] w2|o2 w2|]; auto.
  - eapply (ev_trans _ EV 0 0); eauto.
  - pose proof (evolves_deallocate _ EV (sv_data o2) capacity x1 w2) as H3. destruct (deallocate (sv_data o2) capacity x1 w2); auto.
    eapply (ev_trans _ EV 0 0); [exact H1|]. eapply (ev_trans _ EV 0 0); eauto.
Qed.
Lemma calm_into mks : calm_m (assign_to_empty_into_capacity moved C (Source mks true)).
Proof. unfold assign_to_empty_into_capacity. ev2. Qed.
Lemma calm_from mks : calm_m (sv_from moved capacity false (Source mks true)).
Proof.
  apply calm_constructor. unfold assign_to_empty, assign_to_empty_into_capacity, checked_uninitialized_copy, do_reserve. cbn [static_vector c_reserve s_sized].
  ev2; repeat (destruct (_ <=? _) || destruct (_ <? _) || destruct (_ =? _)); ev2.
Qed.
Lemma calm_copy o : calm_m (sv_copy moved capacity o).
Proof. apply calm_constructor, calm_into. Qed.
Lemma calm_move : calm_m (sv_move moved capacity).
Proof. unfold sv_move. ev2. Qed.
Lemma calm_swap_ranges {X} p i n q j : calm_m (swap_ranges (V := V) (X := X) p i n q j).
Proof. revert i j. induction n as [|n IH]; intros; cbn; ev. apply IH. Qed.
Lemma calm_swap : calm_m (sv_swap moved).
Proof. unfold sv_swap. ev2. destruct (_ <=? _); ev2; apply calm_swap_ranges. Qed.
Lemma calm_perform c : calm_m (perform moved capacity c).
Proof.
  destruct c; cbn [perform].
  - apply calm_push_back. - apply calm_pop_back. - apply calm_clear.
  - apply calm_bind; [apply calm_erase|intros ?; ev].
  - apply calm_bind; [apply calm_erase_if|intros ?; ev].
  - apply calm_append.
  - apply calm_bind; [apply calm_insert|intros ?; ev].
  - apply calm_resize. - ev. - ev. - apply calm_assign.
Qed.
Lemma calm_one {A} i (m : M V svector A) : calm_m m -> calm_m (one_of i m).
Proof. intros H os w. unfold one_of. destruct (nth_error os i) as [o|]; [|exact I]. specialize (H o w). destruct (m o w); auto. Qed.
Lemma calm_two {A} i j (m : M V (svector * svector) A) : calm_m m -> calm_m (two_of i j m).
Proof.
  intros H os w. unfold two_of. destruct (nth_error os i) as [o|]; [|exact I]. destruct (nth_error os j) as [t|]; [|exact I].
  specialize (H (o, t) w). destruct (m (o, t) w); auto.
Qed.
Lemma calm_another (m : M V unit svector) : calm_m m -> calm_m (another m).
Proof. intros H. unfold another. ev. exact H. Qed.
Lemma calm_looking {A} j (k : svector -> M V (list svector) A) : (forall o, calm_m (k o)) -> calm_m (looking_at j k).
Proof. intros H. unfold looking_at. ev. destruct (nth_error a j); auto. apply evolves_bad. Qed.
Lemma calm_step s : calm_m (do_step moved capacity s).
Proof.
  destruct s as [|vs|j|j|i|i c|i j k|i j|i p j|i j|i j|i j]; cbn [do_step].
  - apply calm_another, calm_default.
  - apply calm_another, calm_from.
  - apply calm_looking. intros o. apply calm_another, calm_copy.
  - apply calm_bind; [apply calm_one, calm_move|intros o; ev].
  - apply calm_bind; [apply calm_one, calm_destroy|intros _; ev].
  - apply calm_one, calm_perform.
  - apply calm_looking. intros o. apply calm_one, calm_push_back.
  - apply calm_looking. intros o. apply calm_one, calm_append.
  - apply calm_looking. intros o. apply calm_bind; [apply calm_one, calm_insert|intros; ev].
  - destruct (i =? j); [ev|]. apply calm_looking. intros o. apply calm_one, calm_assign.
  - apply calm_looking. intros o. apply calm_one, calm_assign.
  - destruct (i =? j); [ev|]. apply calm_two, calm_swap.
Qed.
Lemma later_unused (w w' : world) : later 0 w w' -> unused_names w -> same (heap w') (heap w) -> unused_names w'.
Proof. intros [_ Hn] Hu Hs b Hb. rewrite Hs. apply Hu. lia. Qed.
Lemma later_rest o l (rest : memory) (w w' : world) : vector_in o l rest (heap w) -> later 0 w w' -> unused_names w -> same (heap w') rest -> unused_names w'.
Proof.
  intros (_ & H1 & _ & H2) [_ Hn] Hu Hs b Hb. rewrite Hs. pose proof (Hu b ltac:(lia)) as Hnone.
  destruct (Nat.eq_dec b (v_place o)) as [->|Hne]; auto. now rewrite H2 in Hnone.
Qed.

(** ** The calls on one of them *)
Lemma untouched_in o o' l (rest : memory) (w w' : world) :
  vector_in o l rest (heap w) -> untouched o o' w w' -> vector_in o' l rest (heap w') /\ unused_names w'.
Proof. intros H (-> & Hs & Hu). split; auto. eapply in_same; [|exact H]. intros b. symmetry. apply Hs. Qed.

Lemma perform_ok c o vs others w :
  is_vec o vs others w -> may_call capacity c (length vs) = true ->
  ends (perform moved capacity c o w)
    (fun o' _ w' => is_vec o' (after c vs) others w')
    (fun o' w' => exists vs', interrupted c vs vs' /\ (someone_throws w \/ capacity < length (after c vs) /\ vs' = vs) /\ is_vec o' vs' others w').
Proof.
  intros Hv Hc. destruct c as [v| | |first last|p|us|i us|n v|n| |us]; cbn [may_call perform after interrupted] in *; try discriminate.
  - eapply ends_weaken. { apply (push_back_svec moved capacity (Supply v) v o vs others w Hv). reflexivity. }
    + cbv beta. tauto.
    + cbv beta. intros o' w' (Hun & Ht). exists vs. split; auto. split; [|exact (untouched_in _ _ _ _ _ _ (proj1 Hv) Hun)].
      destruct Ht as [|Ht]; auto. right. rewrite app_length. cbn. split; [lia|auto].
  - apply Nat.leb_le in Hc. destruct (@exists_last _ vs) as (l & v & ->). { destruct vs; cbn in *; [lia|discriminate]. }
    eapply ends_weaken. { eapply (pop_back_svec capacity). exact Hv. }
    + cbv beta. intros o' _ w' H. rewrite app_length. cbn. replace (length l + 1 - 1) with (length l) by lia.
      now rewrite firstn_app, Nat.sub_diag, firstn_all, app_nil_r.
    + contradiction.
  - eapply ends_weaken. { eapply (clear_svec capacity). exact Hv. } { cbv beta. tauto. } contradiction.
  - apply andb_prop in Hc. destruct Hc as [H1 H2]. apply Nat.leb_le in H1, H2. apply ends_bind_ret.
    assert (Hsplit : vs = firstn first vs ++ firstn (last - first) (skipn first vs) ++ skipn last vs).
    { replace last with (last - first + first) at 2 by lia. rewrite <- skipn_add, firstn_skipn. now rewrite firstn_skipn. }
    assert (Hf : length (firstn first vs) = first) by (rewrite firstn_length; lia).
    assert (Hl : length (firstn (last - first) (skipn first vs)) = last - first) by (rewrite firstn_length, skipn_length; lia).
    pose proof (erase_svec moved capacity o (firstn first vs) (firstn (last - first) (skipn first vs)) (skipn last vs) others w) as He.
    rewrite <- Hsplit, Hf, Hl in He. replace (first + (last - first)) with last in He by lia.
    eapply ends_weaken. { apply He. exact Hv. } { cbv beta. tauto. } { contradiction. }
  - apply ends_bind_ret. eapply ends_weaken. { apply (erase_if_svec moved capacity). exact Hv. }
    + cbv beta. intros o' r w' [H _]. exact H.
    + cbv beta. intros o' w' [Ht (us & Hl & Hus)]. eauto.
  - apply orb_prop in Hc. destruct Hc as [Hc|Hc].
    + apply Nat.leb_le in Hc. eapply ends_weaken. { apply (append_svec moved capacity (map Supply us) us o vs others w Hv (makes_supply _ _) Hc). }
      * cbv beta. tauto.
      * cbv beta. intros o' w' [Hun Ht]. exists vs. split; auto. split; auto. exact (untouched_in _ _ _ _ _ _ (proj1 Hv) Hun).
    + apply Nat.ltb_lt in Hc. rewrite (append_too_long_svec moved capacity _ o vs others w Hv) by now rewrite map_length.
      cbn. exists vs. split; auto. split; auto. right. rewrite app_length. split; [lia|auto].
  - apply andb_prop in Hc. destruct Hc as [H1 H2]. apply Nat.leb_le in H1. apply ends_bind_ret.
    assert (Hf : length (firstn i vs) = i) by (rewrite firstn_length; lia).
    assert (Hne : map Supply us <> [] \/ skipn i vs = []).
    { apply orb_prop in H2. destruct H2 as [H2|H2]; [left|right].
      - apply negb_true_iff, Nat.eqb_neq in H2. destruct us; [now elim H2|discriminate].
      - apply Nat.eqb_eq in H2. apply skipn_all2. lia. }
    pose proof (insert_svec moved capacity (map Supply us) us o (firstn i vs) (skipn i vs) others w) as Hi.
    rewrite firstn_skipn, Hf in Hi. specialize (Hi Hv (makes_supply _ _) Hne).
    eapply ends_weaken. { exact Hi. }
    + cbv beta. tauto.
    + cbv beta. intros o' w' [Hun Ht]. exists vs. split; auto. split; [|exact (untouched_in _ _ _ _ _ _ (proj1 Hv) Hun)]. destruct Ht; auto.
  - apply Nat.leb_le in Hc. eapply ends_weaken. { apply (resize_svec moved capacity (Supply v) v n o vs others w Hv); auto. reflexivity. }
    + cbv beta. tauto.
    + cbv beta. intros o' w' [Hun Ht]. exists vs. split; auto. split; auto. exact (untouched_in _ _ _ _ _ _ (proj1 Hv) Hun).
  - apply Nat.leb_le in Hc. eapply ends_weaken. { apply (assign_svec moved capacity (map Supply us) us o vs others w Hv (makes_supply _ _) Hc). }
    + cbv beta. tauto.
    + cbv beta. intros o' w' [Ht (n & Hn1 & Hn2 & H)]. exists (firstn n us ++ skipn n vs). split; eauto.
Qed.

(** ** The steps *)
Lemma sizes_nth j (ls : list (list V)) : nth j (sizes_of ls) 0 = length (elements j ls).
Proof. unfold sizes_of, elements. exact (map_nth (@length V) ls [] j). Qed.
Lemma sizes_length (ls : list (list V)) : length (sizes_of ls) = length ls.
Proof. apply map_length. Qed.
Lemma elements_nth j (ls : list (list V)) l : nth_error ls j = Some l -> elements j ls = l.
Proof. intros H. unfold elements. now apply nth_error_nth. Qed.
Lemma replace_elements i (ls : list (list V)) : i < length ls -> replace_at i (elements i ls) ls = ls.
Proof. intros H. apply replace_same. unfold elements. now apply nth_error_nth'. Qed.
Lemma look_ok {A} j os (o : svector) (k : svector -> M V (list svector) A) w : nth_error os j = Some o -> looking_at j k os w = k o os w.
Proof. intros H. unfold looking_at, bind, get. now rewrite H. Qed.
Lemma In_fits l ls : In l ls -> capacity < length l -> fits (V := V) capacity ls = false.
Proof.
  intros H Hl. destruct (fits capacity ls) eqn:E; auto. unfold fits in E. rewrite forallb_forall in E. specialize (E _ H). apply Nat.leb_le in E. lia.
Qed.
Lemma in_elements o l (r m : memory) : vector_in o l r m -> Forall2 (makes m) (elements_of o) l.
Proof. intros H. eapply copies_of_static; eauto. Qed.
Lemma element_make o l k (m : memory) : Forall2 (makes m) (elements_of o) l -> k < length l ->
  exists v, firstn 1 (skipn k l) = [v] /\ makes m (CopyOf (sv_data o) k) v.
Proof.
  intros Hmk Hk. destruct (nth_error l k) as [v|] eqn:E. 2:{ apply nth_error_None in E. lia. }
  exists v. split.
  - clear - E. revert k E. induction l as [|a l IH]; intros [|k]; cbn; intros; try discriminate. { congruence. } now apply IH.
  - pose proof (Forall2_len _ _ _ Hmk) as HL. unfold elements_of in HL, Hmk. rewrite map_length, seq_length in HL.
    assert (Hnk : nth_error (map (CopyOf (V := V) (sv_data o)) (seq 0 (v_size o))) k = Some (CopyOf (sv_data o) k)).
    { rewrite nth_error_map. rewrite (nth_error_nth' _ 0) by (rewrite seq_length; lia). rewrite seq_nth by lia. reflexivity. }
    clear - Hmk Hnk E. revert k Hnk E. generalize (map (CopyOf (V := V) (sv_data o)) (seq 0 (v_size o))), l, Hmk.
    intros a b Hf. generalize (CopyOf (V := V) (sv_data o)). induction Hf as [|x y a b Hxy Hf IH]; intros f [|k]; cbn; try discriminate.
    + intros H1 H2. congruence.
    + intros H1 H2. assert (H3 : nth_error a k = Some ((fun n => f (S n)) k)) by exact H1. exact (IH (fun n => f (S n)) k H3 H2).
Qed.

Lemma step_ok s os ls others w :
  vectors os ls others w -> possible capacity s (sizes_of ls) = true ->
  ends (do_step moved capacity s os w)
    (fun os' _ w' => vectors os' (then_ moved s ls) others w')
    (fun os' w' => exists ls', or_else s ls ls' /\ (someone_throws w \/ fits capacity (then_ moved s ls) = false /\ ls' = ls) /\ vectors os' ls' others w').
Proof.
  intros Ha Hp. pose proof Ha as [Hin Hu]. pose proof (several_lengths vector_in _ _ _ _ Hin) as Hlen.
  destruct s as [|vs|j|j|i|i c|i j k|i j|i p j|i j|i j|i j]; cbn [possible do_step then_ or_else] in *;
    rewrite ?sizes_nth, ?sizes_length, <- ?Hlen in Hp;
    repeat match goal with H : _ && _ = true |- _ => apply andb_prop in H; destruct H end;
    repeat match goal with
           | H : (_ <? _) = true |- _ => apply Nat.ltb_lt in H
           | H : (_ <=? _) = true |- _ => apply Nat.leb_le in H
           | H : negb (_ =? _) = true |- _ => apply negb_true_iff, Nat.eqb_neq in H
           end.
  - (* New *) pose proof (default_svec capacity w Hu) as H.
    eapply ends_weaken. { eapply (another_ok vector_in in_same in_swap _ os ls others w [] False Ha). unfold ends in *.
      destruct (sv_default capacity tt w) as [x o w1|x w1|]; try contradiction. exact H. }
    + cbv beta. auto.
    + cbv beta. tauto.
  - (* NewFrom *) pose proof (from_svec moved capacity false (map Supply vs) vs w Hu (makes_supply _ _) (or_intror eq_refl)) as H.
    pose proof (calm_from (map Supply vs) tt w) as Hc.
    eapply ends_weaken. { eapply (another_ok vector_in in_same in_swap _ os ls others w vs (someone_throws w \/ capacity < length vs) Ha). unfold ends in *.
      destruct (sv_from moved capacity false (Source (map Supply vs) true) tt w) as [x o w1|x w1|]; try contradiction; auto.
      destruct H as [H1 H2]. split; auto. split; auto. eapply later_unused; eauto. }
    + cbv beta. auto.
    + cbv beta. intros os' w' [H1 H2]. exists ls. split; auto. split; auto. destruct H1 as [|H1]; auto. right. split; auto.
      apply (In_fits vs); auto. apply in_or_app. right. now left.
  - (* NewCopy *) destruct (focus_one vector_in in_swap j _ _ _ _ Hp Hin) as (o & l & rest & Hno & Hnl & Ho & _).
    rewrite (look_ok _ _ _ _ _ Hno), (elements_nth _ _ _ Hnl). pose proof (copy_svec moved capacity o l rest w (conj Ho Hu)) as H. pose proof (calm_copy o tt w) as Hc.
    eapply ends_weaken. { eapply (another_ok vector_in in_same in_swap _ os ls others w l (someone_throws w) Ha). unfold ends in *.
      destruct (sv_copy moved capacity o tt w) as [x o1 w1|x w1|]; try contradiction; auto.
      destruct H as [H1 H2]. split; auto. split; auto. eapply later_unused; eauto. }
    + cbv beta. auto.
    + cbv beta. intros os1 w' [H1 H2]. exists ls. auto.
  - (* NewMove *) destruct (focus_one vector_in in_swap j _ _ _ _ Hp Hin) as (o & l & rest & Hno & Hnl & Ho & Hr & Hback).
    rewrite (elements_nth _ _ _ Hnl). pose proof (move_svec moved capacity o l rest w (conj Ho Hu)) as H.
    unfold one_of, bind, get, put. rewrite Hno. unfold ends in *. destruct (sv_move moved capacity o w) as [o1 c w1|o1 w1|]; try contradiction.
    destruct H as (mid & H1 & H2 & H3). split; auto. eapply (several_end vector_in in_swap); [exact H2|]. now apply Hback.
  - (* End *) destruct (focus_one vector_in in_swap i _ _ _ _ Hp Hin) as (o & l & rest & Hno & Hnl & Ho & Hr & _).
    pose proof (destroy_svec capacity o l rest w (conj Ho Hu)) as H. pose proof (calm_destroy o w) as Hc.
    unfold one_of, bind, get, put. rewrite Hno. unfold ends in *.
    destruct (sv_destroy capacity o w) as [o1 [] w1|o1 w1|]; try contradiction.
    assert (Hrm : remove_at i (replace_at i o1 os) = remove_at i os).
    { clear - Hp. revert os Hp. induction i as [|i IH]; intros [|x os] Hp; cbn [length] in *; try lia; [reflexivity|].
      rewrite replace_S, !remove_S. f_equal. apply IH. lia. }
    rewrite Hrm. split; [|eapply later_rest; eauto]. eapply (several_same vector_in in_same); [|exact Hr]. intros b. symmetry. apply H.
  - (* Use *) eapply ends_weaken.
    { apply (one_of_ok vector_in in_swap i (perform moved capacity c) os ls others w (fun _ l' => l' = after c (elements i ls))
               (fun l' => interrupted c (elements i ls) l' /\ (someone_throws w \/ capacity < length (after c (elements i ls)) /\ l' = elements i ls)) True); auto.
      intros o l0 rest _ Hnl Hi _. rewrite <- (elements_nth _ _ _ Hnl) in Hi.
      eapply ends_weaken. { apply (perform_ok c o (elements i ls) rest w (conj Hi Hu)). assumption. }
      - cbv beta. intros o' _ w' [H1 H2]. eauto.
      - cbv beta. intros o' w' (vs' & H2 & H3 & H4 & H5). split; auto. exists vs'. auto. }
    + cbv beta. intros os' _ w' (l' & -> & H'). exact H'.
    + cbv beta. intros os' w' (_ & l' & [HE HT] & H'). exists (replace_at i l' ls). split; eauto. split; auto.
      destruct HT as [|[HT ->]]; auto. right. split; [|apply replace_elements; lia]. eapply In_fits; [|exact HT]. apply In_replace. lia.
  - (* PushElement *) assert (Hi0 : i < length os) by assumption. assert (Hj : j < length os) by assumption.
    destruct (focus_one vector_in in_swap j _ _ _ _ Hj Hin) as (t & u & rt & Hnt & Hnu & Ht & _).
    rewrite (look_ok _ _ _ _ _ Hnt). pose proof (in_elements _ _ _ _ Ht) as Hmk. rewrite <- (elements_nth _ _ _ Hnu) in Hmk.
    destruct (element_make t (elements j ls) k (heap w) Hmk ltac:(assumption)) as (v & Hcut & Hmv). rewrite Hcut.
    eapply ends_weaken.
    { apply (one_of_ok vector_in in_swap i (push_back moved C (CopyOf (sv_data t) k)) os ls others w (fun _ l' => l' = elements i ls ++ [v])
               (fun l' => l' = elements i ls) (someone_throws w \/ length (elements i ls) = capacity)); auto.
      intros o l0 rest _ Hnl Hi _. rewrite <- (elements_nth _ _ _ Hnl) in Hi.
      eapply ends_weaken. { apply (push_back_svec moved capacity _ v o (elements i ls) rest w (conj Hi Hu) Hmv). }
      - cbv beta. intros o' _ w' [_ [Y1 Y2]]. eauto.
      - cbv beta. intros o' w' [Hun HT]. split; auto. exists (elements i ls). split; auto. eapply untouched_in; eauto. }
    + cbv beta. intros os' _ w' (l' & -> & H'). exact H'.
    + cbv beta. intros os' w' (HT & l' & -> & H'). exists ls. split; auto. rewrite replace_elements in H' by lia. split; auto.
      destruct HT as [|HT]; auto. right. split; auto. eapply In_fits; [apply In_replace; lia|]. rewrite app_length. cbn. lia.
  - (* AppendAll *) assert (Hi0 : i < length os) by assumption. assert (Hj : j < length os) by assumption.
    destruct (focus_one vector_in in_swap j _ _ _ _ Hj Hin) as (t & u & rt & Hnt & Hnu & Ht & _).
    rewrite (look_ok _ _ _ _ _ Hnt). pose proof (in_elements _ _ _ _ Ht) as Hmk. rewrite <- (elements_nth _ _ _ Hnu) in Hmk.
    eapply ends_weaken.
    { apply (one_of_ok vector_in in_swap i (append moved C (Source (elements_of t) true)) os ls others w (fun _ l' => l' = elements i ls ++ elements j ls)
               (fun l' => l' = elements i ls) (someone_throws w)); auto.
      intros o l0 rest _ Hnl Hi _. rewrite <- (elements_nth _ _ _ Hnl) in Hi.
      eapply ends_weaken. { apply (append_svec moved capacity _ _ o (elements i ls) rest w (conj Hi Hu) Hmk). assumption. }
      - cbv beta. intros o' _ w' [Y1 Y2]. eauto.
      - cbv beta. intros o' w' [Hun HT]. split; auto. exists (elements i ls). split; auto. eapply untouched_in; eauto. }
    + cbv beta. intros os' _ w' (l' & -> & H'). exact H'.
    + cbv beta. intros os' w' (HT & l' & -> & H'). exists ls. split; auto. rewrite replace_elements in H' by lia. auto.
  - (* InsertAll *) assert (Hj : j < length os) by assumption. assert (Hi0 : i < length os) by assumption.
    destruct (focus_two vector_in in_swap i j _ _ _ _ Hi0 Hj ltac:(auto) Hin) as (o & l0 & t & u & mid & rest & Hno & Hnl & Hnt & Hnu & Ho & Ht & Hback & _).
    rewrite (look_ok _ _ _ _ _ Hnt). pose proof (in_elements _ _ _ _ Ht) as Hmk. rewrite <- (elements_nth _ _ _ Hnu) in Hmk.
    rewrite <- (elements_nth _ _ _ Hnl) in Ho.
    apply ends_bind_ret. unfold one_of. rewrite Hno.
    pose proof (insert_svec moved capacity (elements_of t) (elements j ls) o (firstn p (elements i ls)) (skipn p (elements i ls)) mid w) as H'.
    rewrite firstn_skipn in H'. assert (Hfp : length (firstn p (elements i ls)) = p) by (rewrite firstn_length; lia). rewrite Hfp in H'.
    assert (Hne : elements_of (V := V) t <> [] \/ skipn p (elements i ls) = []).
    { match goal with H : _ || _ = true |- _ => apply orb_prop in H; destruct H as [Hz|Hz] end.
      - left. apply negb_true_iff, Nat.eqb_neq in Hz. intros Hnil. pose proof (Forall2_len _ _ _ Hmk) as HL. rewrite Hnil in HL. cbn in HL. lia.
      - right. apply Nat.eqb_eq in Hz. apply skipn_all2. lia. }
    specialize (H' (conj Ho Hu) Hmk Hne). unfold ends in *. destruct (insert moved C p (elements_of t) o w) as [o1 r w1|o1 w1|]; try contradiction.
    + destruct H' as (_ & [Z1 Z2]). split; auto. eapply Hback; [exact Z1|]. exact Ht.
    + destruct H' as [Hun HT]. exists ls. split; auto. destruct (untouched_in _ _ _ _ _ _ Ho Hun) as [Z1 Z2].
      pose proof (Hback _ _ _ _ Z1 Ht) as Z3. rewrite replace_elements in Z3 by lia. split; [|split; auto].
      destruct HT as [|HT]; auto. right. split; auto. eapply In_fits; [apply In_replace; lia|exact HT].
  - (* CopyAssign *) assert (Hj : j < length os) by assumption. assert (Hi0 : i < length os) by assumption.
    destruct (Nat.eqb_spec i j) as [->|Hij]. { rewrite replace_elements by lia. exact Ha. }
    destruct (focus_two vector_in in_swap i j _ _ _ _ Hi0 Hj ltac:(auto) Hin) as (o & l & t & u & mid & rest & Hno & Hnl & Hnt & Hnu & Ho & Ht & Hback & _).
    rewrite (look_ok _ _ _ _ _ Hnt). pose proof (in_elements _ _ _ _ Ht) as Hmk. pose proof (in_fits _ _ _ _ Ht) as Hf.
    rewrite <- (elements_nth _ _ _ Hnu) in Hmk, Hf. rewrite <- (elements_nth _ _ _ Hnl) in Ho. unfold one_of. rewrite Hno. unfold sv_copy_assign. fold (elements_of (V := V) t).
    pose proof (assign_svec moved capacity (elements_of t) (elements j ls) o (elements i ls) mid w (conj Ho Hu) Hmk Hf true) as H'. unfold ends in *.
    destruct (assign moved C false true (Source (elements_of t) true) o w) as [o1 [] w1|o1 w1|]; try contradiction.
    + destruct H' as [Z1 Z2]. split; auto. eapply Hback; eauto.
    + destruct H' as [HT (n & Hn1 & Hn2 & Z1 & Z2)]. eexists. split. { split; auto. exists n. split; [exact Hn1|]. split; [exact Hn2|]. reflexivity. }
      split; auto. split; auto. eapply Hback; eauto.
  - (* MoveAssign *) assert (Hj : j < length os) by assumption. assert (Hi0 : i < length os) by assumption.
    destruct (focus_two vector_in in_swap i j _ _ _ _ Hi0 Hj ltac:(auto) Hin) as (o & l & t & u & mid & rest & Hno & Hnl & Hnt & Hnu & Ho & Ht & _ & Hback).
    rewrite (look_ok _ _ _ _ _ Hnt), (elements_nth _ _ _ Hnu). unfold one_of. rewrite Hno.
    assert (H2 : two_static_vectors capacity o l t u rest w).
    { apply two_static_vectors_sym. exists mid. auto. }
    pose proof (move_assign_svec moved capacity o l t u rest w H2) as H'. unfold ends in *.
    destruct (sv_move_assign moved capacity t o w) as [o1 [] w1|o1 w1|]; try contradiction.
    apply two_static_vectors_sym in H'. destruct H' as (mid' & Z1 & Z2 & Z3). split; auto.
    pose proof (Hback _ _ _ _ _ _ Z2 Z1) as Z4. rewrite (replace_same j t) in Z4 by (rewrite nth_replace_other by auto; exact Hnt). exact Z4.
  - (* Swap *) assert (Hj : j < length os) by assumption. assert (Hi0 : i < length os) by assumption.
    destruct (Nat.eqb_spec i j) as [->|Hij]. { rewrite !replace_elements by (rewrite ?length_replace; lia). exact Ha. }
    destruct (focus_two vector_in in_swap i j _ _ _ _ Hi0 Hj ltac:(auto) Hin) as (o & l & t & u & mid & rest & Hno & Hnl & Hnt & Hnu & Ho & Ht & _ & Hback).
    rewrite (elements_nth _ _ _ Hnu), (elements_nth _ _ _ Hnl). unfold two_of. rewrite Hno, Hnt.
    assert (H2 : two_static_vectors capacity o l t u rest w).
    { apply two_static_vectors_sym. exists mid. auto. }
    pose proof (swap_svec moved capacity o l t u rest w H2) as H'. unfold ends in *.
    destruct (sv_swap moved (o, t) w) as [[o1 t1] [] w1|o1 w1|]; try contradiction. destruct H' as [H' _]. cbn [fst snd] in *.
    apply two_static_vectors_sym in H'. destruct H' as (mid' & Z1 & Z2 & Z3). split; auto. eapply Hback; eauto.
Qed.

(** ** Programs *)
Lemma vectors_sizes os ls others w : vectors os ls others w -> map v_size os = sizes_of ls.
Proof. intros [H _]. eapply (several_map vector_in); [|exact H]. apply in_size. Qed.

Lemma program_ok ss : forall os ls others w,
  vectors os ls others w ->
  ends (program moved capacity ss os w)
    (fun os' _ w' => exists ls', accounts moved capacity ss ls ls' /\ vectors os' ls' others w') (fun _ _ => False).
Proof.
  induction ss as [|s ss IH]; intros os ls others w Ha; cbn [program].
  - cbn. exists ls. split; auto. constructor.
  - unfold bind at 1. unfold get. rewrite (vectors_sizes _ _ _ _ Ha). destruct (possible capacity s (sizes_of ls)) eqn:Hp.
    + unfold bind, attempt. pose proof (step_ok s os ls others w Ha Hp) as Hs. unfold ends in Hs.
      destruct (do_step moved capacity s os w) as [os1 [] w1|os1 w1|]; [| |contradiction].
      * eapply ends_weaken. { apply (IH _ _ _ _ Hs). } 2: auto.
        cbv beta. intros o' _ w' (ls' & He & H'). exists ls'. split; auto. now apply accounts_returns.
      * destruct Hs as (ls1 & Hi & _ & Hv1). eapply ends_weaken. { apply (IH _ _ _ _ Hv1). } 2: auto.
        cbv beta. intros o' _ w' (ls' & He & H'). exists ls'. split; auto. eapply accounts_throws; eauto.
    + eapply ends_weaken. { apply (IH _ _ _ _ Ha). } 2: auto. cbv beta. intros o' _ w' (ls' & He & H'). exists ls'. split; auto. now apply accounts_skips.
Qed.

Lemma program_plain ss : forall os ls others w,
  vectors os ls others w -> ~ someone_throws w ->
  ends (program moved capacity ss os w)
    (fun os' _ w' => vectors os' (plainly moved capacity ss ls) others w') (fun _ _ => False).
Proof.
  induction ss as [|s ss IH]; intros os ls others w Ha Hq; cbn [program plainly] in *.
  - exact Ha.
  - unfold bind at 1. unfold get. rewrite (vectors_sizes _ _ _ _ Ha).
    destruct (possible capacity s (sizes_of ls)) eqn:Hp; cbn [andb].
    + unfold bind, attempt. pose proof (step_ok s os ls others w Ha Hp) as Hs. unfold ends in Hs.
      pose proof (calm_step s os w) as Hc.
      destruct (do_step moved capacity s os w) as [os1 [] w1|os1 w1|]; [| |contradiction].
      * rewrite (all_fit _ _ _ _ (proj1 Hs)). apply IH; auto. intros Ht. apply Hq. destruct Hc as [Hc _]. apply Hc. exact Ht.
      * destruct Hs as (ls' & _ & [Ht|[Hf ->]] & Hv1); [contradiction|]. rewrite Hf. apply IH; auto.
        intros Ht. apply Hq. destruct Hc as [Hc _]. apply Hc. exact Ht.
    + apply IH; auto.
Qed.

Lemma ends_program n : forall os ls others w, length os = n ->
  vectors os ls others w ->
  ends (program moved capacity (repeat (End 0) n) os w) (fun os' _ w' => os' = [] /\ same (heap w') others) (fun _ _ => False).
Proof.
  induction n as [|n IH]; intros os ls others w Hn Ha.
  - destruct os; [|discriminate]. destruct ls; [|destruct Ha as [[] _]]. cbn. split; auto. apply Ha.
  - cbn [repeat program]. unfold bind at 1. unfold get. destruct os as [|o os]; [discriminate|].
    destruct ls as [|l ls]; [destruct Ha as [[] _]|].
    change (possible capacity (End (V := V) 0) (map v_size (o :: os))) with true. cbn [andb].
    pose proof (step_ok (End 0) (o :: os) (l :: ls) others w Ha eq_refl) as Hs. unfold bind, attempt.
    assert (Hd : match do_step moved capacity (End 0) (o :: os) w with Ret os' _ _ => os' = os | _ => True end).
    { cbn [do_step]. unfold one_of, bind, get, put. cbn [nth_error]. destruct (sv_destroy capacity o w) as [o1 [] w1|o1 w1|]; auto. }
    unfold ends in Hs. destruct (do_step moved capacity (End 0) (o :: os) w) as [os1 [] w1|os1 w1|]; [| |contradiction].
    + subst os1. change (then_ moved (End 0) (l :: ls)) with ls in Hs. eapply IH; eauto.
    + destruct Hs as (ls' & [] & _).
Qed.

Lemma whole_ok ss w :
  unused_names w ->
  ends (whole moved capacity ss tt w) (fun _ _ w' => same (heap w') (heap w)) (fun _ _ => False).
Proof.
  intros Hu. unfold whole. assert (Ha : vectors [] [] (heap w) w). { split; auto. intros b. reflexivity. }
  pose proof (program_ok ss [] [] (heap w) w Ha) as H. unfold ends in *.
  destruct (program moved capacity ss [] w) as [os [] w1|os w1|]; try contradiction.
  destruct H as (ls & _ & Ha1). pose proof (ends_program (length os) os ls (heap w) w1 eq_refl Ha1) as H. unfold ends in H.
  destruct (program moved capacity (repeat (End 0) (length os)) os w1); try contradiction. tauto.
Qed.
End Proofs.
