(** * Proofs about programs with several sbo_vectors *)

From Coq Require Import List Arith Bool NArith Lia.
From Verif Require Import Mem MemLemmas Vec VecLemmas VecCost SpecVec SpecHistory VecProofs VecHistory Sbo SboLemmas SpecSbo SboProofs SpecPrograms SboCalm.
Import ListNotations.

(** ** Positions *)
Section Positions.
Context {A : Type}.
Definition ins (i : nat) (x : A) (l : list A) : list A := firstn i l ++ x :: skipn i l.
Definition pre (i j : nat) : nat := if j <? i then j else j - 1.

Lemma ins_S i x a l : ins (S i) x (a :: l) = a :: ins i x l. Proof. reflexivity. Qed.
Lemma ins_end x l : ins (length l) x l = l ++ [x].
Proof. unfold ins. now rewrite firstn_all, skipn_all. Qed.
Lemma ins_length i x l : length (ins i x l) = S (length l).
Proof. unfold ins. rewrite app_length. cbn [length]. rewrite firstn_length, skipn_length. lia. Qed.
Lemma ins_nth i x l : i <= length l -> nth_error (ins i x l) i = Some x.
Proof. revert l. induction i as [|i IH]; intros [|a l] H; cbn in *; try lia; auto. apply IH. lia. Qed.
Lemma ins_nth_default i x l d : i <= length l -> nth i (ins i x l) d = x.
Proof. intros H. now apply nth_error_nth, ins_nth. Qed.
Lemma ins_set i x y l : i <= length l -> set_nth (ins i x l) i y = ins i y l.
Proof. revert l. induction i as [|i IH]; intros [|a l] H; cbn in *; try lia; auto. f_equal. apply IH. lia. Qed.
Lemma ins_nth_other i j x l : i <= length l -> j <> i -> nth_error (ins i x l) j = nth_error l (pre i j).
Proof.
  revert j l. induction i as [|i IH]; intros j l H Hj.
  - destruct j as [|j]; [lia|]. cbn. now rewrite Nat.sub_0_r.
  - destruct l as [|a l]; cbn in H; [lia|]. rewrite ins_S. destruct j as [|j]; [reflexivity|]. cbn [nth_error]. rewrite IH by lia.
    unfold pre. change (S j <? S i) with (j <? i). destruct (Nat.ltb_spec j i); cbn; [reflexivity|]. destruct j; [lia|]. cbn. now rewrite Nat.sub_0_r.
Qed.
Lemma ins_set_other i j x y l : i <= length l -> j <> i -> set_nth (ins i x l) j y = ins i x (set_nth l (pre i j) y).
Proof.
  revert j l. induction i as [|i IH]; intros j l H Hj.
  - destruct j as [|j]; [lia|]. cbn. now rewrite Nat.sub_0_r.
  - destruct l as [|a l]; cbn in H; [lia|]. rewrite ins_S. destruct j as [|j]; [reflexivity|]. cbn [set_nth]. rewrite IH by lia.
    unfold pre. change (S j <? S i) with (j <? i). destruct (Nat.ltb_spec j i); cbn [set_nth].
    + reflexivity.
    + destruct j; [lia|]. cbn. now rewrite Nat.sub_0_r.
Qed.
Lemma ins_without i x l : i <= length l -> firstn i (ins i x l) ++ skipn (S i) (ins i x l) = l.
Proof. revert l. induction i as [|i IH]; intros [|a l] H; cbn in *; try lia; auto. f_equal. apply IH. lia. Qed.
Lemma set_cut i x (l : list A) : i < length l -> firstn i l ++ [x] ++ skipn (S i) l = set_nth l i x.
Proof. revert l. induction i as [|i IH]; intros [|a l] H; cbn in *; try lia; auto. f_equal. apply (IH l). lia. Qed.
End Positions.

Section Proofs.
Context {V : Type} (moved : V -> V) (small max : nat).
Context (Hsm : small < max) (Hmax : (N.of_nat max < 2 ^ 63)%N).
Local Notation world := (world V).
Local Notation memory := (@memory V).
Local Notation C := (sbo_vector (V := V) moved small max).
Local Notation is_sbo := (is_sbo (V := V) small max).
Local Notation is_sbo_in := (is_sbo_in (V := V) small max).
Local Notation are_in := (are_in (V := V) small max).
Local Notation are := (are_sbos (V := V) small max).

Lemma is_in_same o l (r m m' : memory) : same m m' -> is_sbo_in o l r m -> is_sbo_in o l r m'.
Proof.
  intros Hs (Hl & H). split; auto. destruct H as [(H1 & H2 & H3 & (k & H4 & H4') & H5)|(c & H1 & b & f & H2 & H3 & H4 & H5 & H6 & H7 & (k & H8 & H8') & H9)].
  - left. split; auto. split; auto. split; auto. split. { exists k. rewrite <- Hs. auto. } intros x Hx. rewrite <- Hs. auto.
  - right. exists c. split; auto. exists b, f. split; auto. split; auto. split; auto. split; auto. split; auto.
    split. { now rewrite <- Hs. } split. { exists k. rewrite <- Hs. auto. } intros x Hx Hx'. rewrite <- Hs. auto.
Qed.
Lemma is_in_same_rest o l (r r' m : memory) : same r r' -> is_sbo_in o l r m -> is_sbo_in o l r' m.
Proof.
  intros Hs (Hl & H). split; auto. destruct H as [(H1 & H2 & H3 & (k & H4 & H4') & H5)|(c & H1 & b & f & H2 & H3 & H4 & H5 & H6 & H7 & (k & H8 & H8') & H9)].
  - left. split; auto. split; auto. split. { now rewrite <- Hs. } split. { exists k. auto. } intros x Hx. rewrite <- Hs. auto.
  - right. exists c. split; auto. exists b, f. split; auto. split; auto. split; auto. split. { now rewrite <- Hs. } split. { now rewrite <- Hs. }
    split; auto. split. { exists k. auto. } intros x Hx Hx'. rewrite <- Hs. auto.
Qed.
Lemma are_in_same os ls (others m m' : memory) : same m m' -> are_in os ls others m -> are_in os ls others m'.
Proof.
  intros Hs. destruct os as [|o os], ls as [|l ls]; cbn; auto.
  - intros H b. now rewrite <- Hs.
  - intros (r & H1 & H2). exists r. split; auto. eapply is_in_same; eauto.
Qed.
Lemma is_in_swap o vs t us (others mid m : memory) :
  is_sbo_in o vs mid m -> is_sbo_in t us others mid -> exists mid', is_sbo_in t us mid' m /\ is_sbo_in o vs others mid'.
Proof.
  intros Ho Ht. apply (sbo_cells_in moved) in Ho, Ht. destruct Ho as (k & Ho & Hk), Ht as (j & Ht & Hj).
  destruct (cells_swap moved small max _ _ _ _ _ _ _ _ _ Ht Ho) as (m' & H1 & H2). exists m'. split; apply (sbo_cells_in moved); eauto.
Qed.

Lemma are_lengths os : forall ls others m, are_in os ls others m -> length os = length ls.
Proof. induction os as [|o os IH]; intros [|l ls] others m; cbn; try contradiction; auto. intros (r & _ & H). f_equal. eauto. Qed.
Lemma are_sizes os : forall ls others m, are_in os ls others m -> map sb_size os = map (@length V) ls.
Proof. induction os as [|o os IH]; intros [|l ls] others m; cbn; try contradiction; auto. intros (r & [H1 _] & H2). f_equal; eauto. Qed.

Lemma focus i : forall os ls others m, i < length os -> are_in os ls others m ->
  exists o os' l ls' rest, os = ins i o os' /\ ls = ins i l ls' /\ i <= length os' /\ i <= length ls' /\
    is_sbo_in o l rest m /\ are_in os' ls' others rest.
Proof.
  induction i as [|i IH]; intros [|o os] [|l ls] others m Hi H; cbn in Hi, H; try lia; try contradiction.
  - destruct H as (rest & H1 & H2). exists o, os, l, ls, rest. repeat split; auto using Nat.le_0_l; apply H1.
  - destruct H as (rest & H1 & H2). destruct (IH _ _ _ _ (proj2 (Nat.succ_lt_mono _ _) Hi) H2) as (t & os' & u & ls' & rest' & -> & -> & Ho & Hl & Ht & Hr).
    destruct (is_in_swap _ _ _ _ _ _ _ H1 Ht) as (mid & H3 & H4).
    exists t, (o :: os'), u, (l :: ls'), mid. split; [reflexivity|]. split; [reflexivity|]. cbn [length]. split; [lia|]. split; [lia|]. split; auto.
    cbn. eauto.
Qed.
Lemma unfocus i : forall o os' l ls' others rest m, i <= length os' -> i <= length ls' ->
  is_sbo_in o l rest m -> are_in os' ls' others rest -> are_in (ins i o os') (ins i l ls') others m.
Proof.
  induction i as [|i IH]; intros o os' l ls' others rest m Ho Hl H1 H2.
  - cbn. eauto.
  - destruct os' as [|t os], ls' as [|u ls]; cbn in Ho, Hl, H2; try lia. destruct H2 as (r & H3 & H4).
    destruct (is_in_swap _ _ _ _ _ _ _ H1 H3) as (mid & H5 & H6). rewrite !ins_S. cbn. exists mid. split; auto. eapply IH; eauto; lia.
Qed.
Lemma unfocus_end o os l ls others rest m :
  is_sbo_in o l rest m -> are_in os ls others rest -> are_in (os ++ [o]) (ls ++ [l]) others m.
Proof.
  intros H1 H2. pose proof (are_lengths _ _ _ _ H2) as He. rewrite <- (ins_end o os), <- (ins_end l ls), <- He.
  eapply unfocus; eauto. lia.
Qed.

Lemma put_at_set i (l : list V) ls : i < length ls -> put_at i l ls = set_nth ls i l.
Proof. apply set_cut. Qed.

(** The elements of one of them, in the memory. *)
Lemma elements_make j os ls others m : j < length os -> are_in os ls others m ->
  exists o, nth_error os j = Some o /\ Forall2 (makes m) (elements_of o) (of j ls).
Proof.
  intros Hj H. destruct (focus j _ _ _ _ Hj H) as (o & os' & l & ls' & rest & -> & -> & Ho & Hl & Hi & _).
  exists o. rewrite ins_nth by assumption. split; auto. unfold of. rewrite ins_nth_default by assumption. eapply (copies_of_sbo small max); eauto.
Qed.

(** ** One call on one object *)
Lemma grown_max o n : sbo_capacity small o < n -> max < sbo_grown small o n -> max < 2 * n.
Proof. unfold sbo_grown. destruct (Nat.leb_spec n (sbo_capacity small o)); lia. Qed.
Lemma untouched_is o o' l (others : memory) (w w' : world) : is_sbo o l others w -> untouched o o' w w' -> is_sbo o' l others w'.
Proof. intros [H _] (-> & Hs & Hu). split; auto. eapply is_in_same; eauto. intros b. symmetry. apply Hs. Qed.

Lemma do_call_ok c o vs others w :
  is_sbo o vs others w -> may_call max c (length vs) = true ->
  ends (do_call moved small max c o w)
    (fun o' _ w' => is_sbo o' (after c vs) others w')
    (fun o' w' => (someone_throws w \/ max < 2 * length (after c vs)) /\
       exists vs', interrupted c vs vs' /\ is_sbo o' vs' others w').
Proof.
  intros Hv Hc. destruct c as [v| | |first last|p|us|i us|n v|n| |us]; cbn [may_call do_call after interrupted] in *.
  - apply Nat.leb_le in Hc. eapply ends_weaken. { apply (push_back_sbo moved small max Hsm Hmax); [exact Hv|reflexivity|]. right. lia. }
    + cbv beta. tauto.
    + cbv beta. intros o' w' (Hun & Ht). split; auto. exists vs. split; auto. eapply untouched_is; eauto.
  - apply Nat.leb_le in Hc. destruct (@exists_last _ vs) as (l & v & ->). { destruct vs; cbn in *; [lia|discriminate]. }
    eapply ends_weaken. { eapply (pop_back_sbo moved small max Hsm Hmax). exact Hv. }
    + cbv beta. intros o' _ w' [H _]. rewrite app_length. cbn. replace (length l + 1 - 1) with (length l) by lia.
      now rewrite firstn_app, Nat.sub_diag, firstn_all, app_nil_r.
    + contradiction.
  - eapply ends_weaken. { eapply (clear_sbo moved small max Hsm Hmax). exact Hv. }
    + cbv beta. tauto.
    + contradiction.
  - apply andb_prop in Hc. destruct Hc as [H1 H2]. apply Nat.leb_le in H1, H2. apply ends_bind_ret.
    assert (Hsplit : vs = firstn first vs ++ firstn (last - first) (skipn first vs) ++ skipn last vs).
    { replace last with (last - first + first) at 2 by lia. rewrite <- skipn_add, firstn_skipn. now rewrite firstn_skipn. }
    assert (Hf : length (firstn first vs) = first) by (rewrite firstn_length; lia).
    assert (Hl : length (firstn (last - first) (skipn first vs)) = last - first) by (rewrite firstn_length, skipn_length; lia).
    pose proof (erase_sbo moved small max Hsm Hmax o (firstn first vs) (firstn (last - first) (skipn first vs)) (skipn last vs) others w) as He.
    rewrite <- Hsplit, Hf, Hl in He. replace (first + (last - first)) with last in He by lia.
    eapply ends_weaken. { apply He. exact Hv. } { cbv beta. tauto. } { contradiction. }
  - apply ends_bind_ret. eapply ends_weaken. { apply (erase_if_sbo moved small max Hsm Hmax). exact Hv. }
    + cbv beta. intros o' r w' H. exact H.
    + cbv beta. intros o' w' [Ht (us & Hl & Hus)]. split; eauto.
  - eapply ends_weaken. { apply (append_sbo moved small max Hsm Hmax (map Supply us) us o vs others w Hv (makes_supply _ _)). }
    + cbv beta. tauto.
    + cbv beta. intros o' w' [Hun Ht]. split. { destruct Ht as [|[H1 H2]]; auto. right. eapply grown_max; eauto. }
      exists vs. split; auto. eapply untouched_is; eauto.
  - apply andb_prop in Hc. destruct Hc as [H1 H2]. apply Nat.leb_le in H1. apply ends_bind_ret.
    assert (Hf : length (firstn i vs) = i) by (rewrite firstn_length; lia).
    assert (Hne : map Supply us <> [] \/ skipn i vs = []).
    { apply orb_prop in H2. destruct H2 as [H2|H2]; [left|right].
      - apply negb_true_iff, Nat.eqb_neq in H2. destruct us; [now elim H2|discriminate].
      - apply Nat.eqb_eq in H2. apply skipn_all2. lia. }
    pose proof (insert_sbo moved small max Hsm Hmax (map Supply us) us o (firstn i vs) (skipn i vs) others w) as Hi.
    rewrite firstn_skipn, Hf in Hi. specialize (Hi Hv (makes_supply _ _) Hne).
    eapply ends_weaken. { exact Hi. }
    + cbv beta. tauto.
    + cbv beta. intros o' w' [Hun Ht]. split. { destruct Ht as [|[H3 H4]]; auto. right. eapply grown_max; eauto. }
      exists vs. split; auto. eapply untouched_is; eauto.
  - eapply ends_weaken. { apply (resize_sbo moved small max Hsm Hmax (Supply v) v n o vs others w Hv). reflexivity. }
    + cbv beta. tauto.
    + cbv beta. intros o' w' [Hun Ht]. split.
      { destruct Ht as [|[H3 H4]]; auto. right. pose proof (grown_max _ _ H3 H4). rewrite app_length, firstn_length, repeat_length. lia. }
      exists vs. split; auto. eapply untouched_is; eauto.
  - apply Nat.leb_le in Hc. eapply ends_weaken. { apply (reserve_sbo moved small max Hsm Hmax); eauto. }
    + cbv beta. tauto.
    + cbv beta. intros o' w' [Hun Ht]. split; auto. exists vs. split; auto. eapply untouched_is; eauto.
  - eapply ends_weaken. { apply (shrink_sbo moved small max Hsm Hmax); eauto. }
    + cbv beta. tauto.
    + cbv beta. intros o' w' [Hun Ht]. split; auto. exists vs. split; auto. eapply untouched_is; eauto.
  - eapply ends_weaken. { apply (assign_sbo moved small max Hsm Hmax (map Supply us) us o vs others w Hv (makes_supply _ _)). }
    + cbv beta. tauto.
    + cbv beta. intros o' w' [Ht (n & Hn1 & Hn2 & H)]. split. { destruct Ht as [|[H3 H4]]; auto. right. eapply grown_max; eauto. }
      exists (firstn n us ++ skipn n vs). split; eauto.
Qed.

(** ** Steps *)
Lemma among_ok {A} i (m : M V sbo A) os ls others w (Q : A -> list V -> Prop) (E : list V -> Prop) (T : Prop) :
  i < length os -> are os ls others w ->
  (forall o rest, nth_error os i = Some o -> is_sbo o (of i ls) rest w ->
     ends (m o w) (fun o' a w' => exists l', Q a l' /\ is_sbo o' l' rest w') (fun o' w' => T /\ exists l', E l' /\ is_sbo o' l' rest w')) ->
  ends (among i m os w)
    (fun os' a w' => exists l', Q a l' /\ are os' (put_at i l' ls) others w')
    (fun os' w' => T /\ exists l', E l' /\ are os' (put_at i l' ls) others w').
Proof.
  intros Hi [Ha Hu] Hm. destruct (focus i _ _ _ _ Hi Ha) as (o & os' & l & ls' & rest & -> & -> & Ho & Hl & Hin & Hr).
  unfold among. rewrite ins_nth by assumption. specialize (Hm o rest (ins_nth _ _ _ Ho)). unfold of in Hm. rewrite ins_nth_default in Hm by assumption.
  specialize (Hm (conj Hin Hu)). unfold ends in *.
  assert (Hput : forall l0, put_at i l0 (ins i l ls') = ins i l0 ls').
  { intros l0. unfold put_at. rewrite set_cut by (rewrite ins_length; lia). now apply ins_set. }
  destruct (m o w) as [o1 a w1|o1 w1|]; try contradiction.
  - destruct Hm as (l1 & HQ & H1 & H2). exists l1. split; auto. rewrite ins_set, Hput by assumption. split; auto. eapply unfocus; eauto.
  - destruct Hm as (HT & l1 & HE & H1 & H2). split; auto. exists l1. split; auto. rewrite ins_set, Hput by assumption. split; auto. eapply unfocus; eauto.
Qed.

Lemma among_two_ok {A} i j (m : M V (sbo * sbo) A) os ls others w f g :
  i < length os -> j < length os -> i <> j -> are os ls others w ->
  (forall o t rest, two_sbos small max o (of i ls) t (of j ls) rest w ->
     ends (m (o, t) w) (fun p _ w' => two_sbos small max (fst p) f (snd p) g rest w') (fun _ _ => False)) ->
  ends (among_two i j m os w)
    (fun os' _ w' => are os' (put_at j g (put_at i f ls)) others w') (fun _ _ => False).
Proof.
  intros Hi Hj Hij [Ha Hu] Hm. destruct (focus i _ _ _ _ Hi Ha) as (o & os1 & l & ls1 & rest & -> & -> & Ho & Hl & Hin & Hr).
  rewrite ins_length in Hi, Hj. pose proof (are_lengths _ _ _ _ Hr) as Hlen.
  assert (Hp : pre i j < length os1). { unfold pre. destruct (Nat.ltb_spec j i); lia. }
  destruct (focus (pre i j) _ _ _ _ Hp Hr) as (t & os2 & u & ls2 & rest2 & -> & -> & Ho2 & Hl2 & Hin2 & Hr2).
  unfold among_two. rewrite ins_nth by assumption. rewrite ins_nth_other by auto. rewrite ins_nth by assumption.
  unfold of in Hm. rewrite ins_nth_default in Hm by assumption.
  assert (Hu' : nth j (ins i l (ins (pre i j) u ls2)) [] = u).
  { apply nth_error_nth. rewrite ins_nth_other by auto. now apply ins_nth. }
  rewrite Hu' in Hm. specialize (Hm o t rest2).
  assert (Htwo : two_sbos small max o l t u rest2 w).
  { apply (two_sbos_sym moved). exists rest. auto. }
  specialize (Hm Htwo). unfold ends in *. destruct (m (o, t) w) as [[o1 t1] a w1|p1 w1|]; try contradiction. cbn [fst snd] in *.
  apply (two_sbos_sym moved) in Hm. destruct Hm as (mid & H1 & H2 & H3).
  rewrite (put_at_set i), put_at_set by (rewrite ?length_set_nth, !ins_length in *; lia). rewrite (ins_set i o), (ins_set i l) by assumption.
  rewrite (ins_set_other i j o1), (ins_set_other i j f) by auto. rewrite (ins_set (pre i j) t), (ins_set (pre i j) u) by assumption.
  split; auto. eapply unfocus; [| |exact H2|]. { rewrite ins_length in *. lia. } { rewrite ins_length in *. lia. }
  eapply unfocus; eauto.
Qed.

Lemma born_ok (m : M V unit sbo) os ls others w l (T : Prop) :
  are os ls others w ->
  ends (m tt w) (fun _ o w' => is_sbo o l (heap w) w') (fun _ w' => same (heap w') (heap w) /\ unused_names w' /\ T) ->
  ends (born m os w) (fun os' _ w' => are os' (ls ++ [l]) others w') (fun os' w' => T /\ are os' ls others w').
Proof.
  intros [Ha Hu] Hm. unfold born, on_unit, bind, get, put. unfold ends in *. destruct (m tt w) as [x o w1|x w1|]; try contradiction.
  - destruct Hm as [H1 H2]. split; auto. eapply unfocus_end; eauto.
  - destruct Hm as (H1 & H2 & H3). split; auto. split; auto. eapply are_in_same; [|exact Ha]. intros b. symmetry. apply H1.
Qed.

(** A step makes of the elements what it says; when it leaves by an exception, someone threw or a vector
    would have to be larger than half of the largest size. *)
Lemma later_unused (w w' : world) : later 0 w w' -> unused_names w -> same (heap w') (heap w) -> unused_names w'.
Proof. intros [_ Hn] Hu Hs b Hb. rewrite Hs. apply Hu. lia. Qed.

Lemma In_put i (l : list V) ls : i < length ls -> In l (put_at i l ls).
Proof. intros H. unfold put_at. apply in_or_app. right. now left. Qed.

Lemma of_size j (ls : list (list V)) : nth j (map (@length V) ls) 0 = length (of j ls).
Proof. unfold of. change 0 with (length (@nil V)). apply map_nth. Qed.

Lemma put_at_id i (ls : list (list V)) : i < length ls -> put_at i (of i ls) ls = ls.
Proof.
  intros H. rewrite put_at_set by assumption. unfold of. revert ls H. induction i as [|i IH]; intros [|l ls] H; cbn in *; try lia; auto.
  f_equal. apply IH. lia.
Qed.

Lemma nth_as_error {A} i (l : list A) d : nth i l d = match nth_error l i with Some x => x | None => d end.
Proof. revert l. induction i as [|i IH]; intros [|a l]; cbn; auto. Qed.
Lemma same_makes (m m' : memory) mks vs : same m m' -> Forall2 (makes m) mks vs -> Forall2 (makes m') mks vs.
Proof.
  intros Hs H. induction H as [|mk v mks vs Hmk H IH]; constructor; auto. destruct mk as [u|[b|] k|[b|] k|[b|] k]; cbn in *; auto.
  destruct Hmk as (cs & H1 & H2). exists cs. rewrite <- Hs. auto.
Qed.
Lemma is_in_rest o l (r r' m : memory) : is_sbo_in o l r m -> is_sbo_in o l r' m -> same r r'.
Proof.
  intros (_ & H) (_ & H') b.
  destruct H as [(H1 & (f0 & H2) & H3 & _ & H5)|(c & H1 & b1 & f & H2 & _ & _ & H5 & H6 & _ & _ & H9)];
  destruct H' as [(K1 & (g0 & K2) & K3 & _ & K5)|(c' & K1 & b2 & f' & K2 & _ & _ & K5 & K6 & _ & _ & K9)]; try congruence.
  - destruct (Nat.eq_dec b (s_place o)) as [->|Hb]; [congruence|]. rewrite <- H5, <- K5; auto.
  - assert (b2 = b1) by congruence. subst b2. destruct (Nat.eq_dec b (s_place o)) as [->|Hb]; [congruence|].
    destruct (Nat.eq_dec b b1) as [->|Hb1]; [congruence|]. rewrite <- H9, <- K9; auto.
Qed.

Lemma step_ok s os ls others w :
  are os ls others w -> possible max s (map (@length V) ls) = true ->
  ends (do_step moved small max s os w)
    (fun os' _ w' => are os' (then_ s ls) others w')
    (fun os' w' => (someone_throws w \/ exists l, In l (then_ s ls) /\ max < 2 * length l) /\
       exists ls', or_else s ls ls' /\ are os' ls' others w').
Proof.
  intros Ha Hp. pose proof (are_lengths _ _ _ _ (proj1 Ha)) as Hlen.
  destruct s as [|vs|j|j|i|i c|i j k|i j|i p j|i j|i j|i j]; cbn [possible do_step then_ or_else] in *;
    rewrite ?map_length, ?of_size, <- ?Hlen in Hp;
    repeat match goal with H : _ && _ = true |- _ => apply andb_prop in H; destruct H end;
    repeat match goal with
           | H : (_ <? _) = true |- _ => apply Nat.ltb_lt in H
           | H : (_ <=? _) = true |- _ => apply Nat.leb_le in H
           | H : negb (_ =? _) = true |- _ => apply negb_true_iff, Nat.eqb_neq in H
           end.
  - (* New *) eapply ends_weaken. { eapply (born_ok _ os ls others w [] False Ha). pose proof (default_sbo moved small max Hsm Hmax w (proj2 Ha)) as H.
      eapply ends_weaken; [exact H| |]; cbv beta; [tauto|contradiction]. }
    + cbv beta. auto.
    + cbv beta. tauto.
  - (* NewFrom *) pose proof (from_sbo moved small max Hsm Hmax (map Supply vs) vs w (proj2 Ha) (makes_supply _ _) Hp) as H.
    pose proof (calm_from moved small max (map Supply vs) tt w) as Hc.
    eapply ends_weaken. { eapply (born_ok _ os ls others w vs (someone_throws w) Ha). unfold ends in *.
      destruct (sb_from moved small max (Source (map Supply vs) true) tt w) as [x o w1|x w1|]; try contradiction.
      - tauto.
      - destruct H as [H1 H2]. split; auto. split; auto. eapply later_unused; eauto. apply Ha. }
    + cbv beta. auto.
    + cbv beta. intros os' w' [H1 H2]. split; auto. exists ls. auto.
  - (* NewCopy *) destruct (focus j _ _ _ _ Hp (proj1 Ha)) as (o & os' & l & ls' & rest & Eo & El & Ho & Hl & Hin & Hr).
    assert (Hof : of j ls = l). { rewrite El. now apply ins_nth_default. }
    assert (Hno : nth_error os j = Some o). { rewrite Eo. now apply ins_nth. }
    pose proof (copy_sbo moved small max Hsm Hmax o l rest w (conj Hin (proj2 Ha))) as H.
    pose proof (calm_from moved small max (map (CopyOf (sb_data o)) (seq 0 (sb_size o))) tt w) as Hc. fold (sb_copy moved small max o) in Hc.
    unfold look. unfold bind at 1. unfold get at 1. cbv beta iota. rewrite Hno, Hof.
    eapply ends_weaken. { eapply (born_ok _ os ls others w l (someone_throws w) Ha). unfold ends in *.
      destruct (sb_copy moved small max o tt w) as [x o1 w1|x w1|]; try contradiction.
      - tauto.
      - destruct H as [H1 H2]. split; auto. split; auto. eapply later_unused; eauto. apply Ha. }
    + cbv beta. auto.
    + cbv beta. intros os1 w' [H1 H2]. split; auto. exists ls. auto.
  - (* NewMove *) destruct (focus j _ _ _ _ Hp (proj1 Ha)) as (o & os' & l & ls' & rest & Eo & El & Ho & Hl & Hin & Hr).
    assert (Hof : of j ls = l). { rewrite El. now apply ins_nth_default. }
    assert (Hno : nth_error os j = Some o). { rewrite Eo. now apply ins_nth. }
    pose proof (move_sbo moved small max Hsm Hmax o l rest w (conj Hin (proj2 Ha))) as H.
    unfold among, bind, get, put. rewrite Hno, Hof. unfold ends in *.
    destruct (sb_move moved small o w) as [o1 n w1|o1 w1|]; try contradiction. destruct H as (Htwo & _).
    destruct Htwo as (mid & H1 & H2 & H3). destruct (is_in_swap _ _ _ _ _ _ _ H2 H1) as (mid' & H4 & H5). split; auto. eapply unfocus_end; [exact H4|].
    rewrite put_at_set by lia. rewrite Eo, El, !ins_set by assumption. eapply unfocus; eauto.
  - (* End *) destruct (focus i _ _ _ _ Hp (proj1 Ha)) as (o & os' & l & ls' & rest & Eo & El & Ho & Hl & Hin & Hr).
    assert (Hno : nth_error os i = Some o). { rewrite Eo. now apply ins_nth. }
    pose proof (destroy_sbo moved small max Hsm Hmax o l rest w (conj Hin (proj2 Ha))) as H.
    pose proof (calm_destroy small o w) as Hc. unfold among, bind, get, put. rewrite Hno. unfold ends in *.
    destruct (sb_destroy small o w) as [o1 [] w1|o1 w1|]; try contradiction.
    rewrite Eo, El, ins_set by assumption. rewrite !ins_without by assumption. split.
    + eapply are_in_same; [|exact Hr]. intros b. symmetry. apply H.
    + intros b Hb. rewrite H. destruct Hc as [_ Hc]. pose proof (proj2 Ha b ltac:(lia)) as Hnone.
      destruct (rest b) eqn:E; auto. exfalso.
      destruct Hin as (_ & [(_ & _ & Hx & _ & Hy)|(c & _ & b' & f & _ & _ & _ & Hx & Hx' & _ & _ & Hy)]).
      * assert (b <> s_place o) by congruence. rewrite Hy in Hnone by assumption. congruence.
      * assert (b <> s_place o) by congruence. assert (b <> b') by congruence. rewrite Hy in Hnone by assumption. congruence.
  - (* Use *) eapply ends_weaken.
    { apply (among_ok i (do_call moved small max c) os ls others w (fun _ l' => l' = after c (of i ls)) (interrupted c (of i ls))
               (someone_throws w \/ max < 2 * length (after c (of i ls)))); auto.
      intros o rest _ Hi. eapply ends_weaken. { apply (do_call_ok c o (of i ls) rest w Hi). assumption. }
      - cbv beta. eauto.
      - cbv beta. auto. }
    + cbv beta. intros os' _ w' (l' & -> & H'). exact H'.
    + cbv beta. intros os' w' (HT & l' & HE & H'). split; [|eauto]. destruct HT as [|HT]; auto. right. eexists. split; [|exact HT]. apply In_put. lia.
  - (* PushElement *) destruct (elements_make j os ls others (heap w) ltac:(assumption) (proj1 Ha)) as (t & Ht & Hmk).
    unfold look. unfold bind at 1. unfold get at 1. cbv beta iota. rewrite Ht.
    assert (Hk : exists v, nth_error (of j ls) k = Some v /\ makes (heap w) (CopyOf (sb_data t) k) v).
    { destruct (nth_error (of j ls) k) as [v|] eqn:E. 2:{ apply nth_error_None in E. lia. }
      exists v. split; auto. pose proof (Forall2_len _ _ _ Hmk) as HL. unfold elements_of in HL, Hmk. rewrite map_length, seq_length in HL.
      assert (Hnk : nth_error (map (CopyOf (V := V) (sb_data t)) (seq 0 (sb_size t))) k = Some (CopyOf (sb_data t) k)).
      { rewrite nth_error_map. rewrite (nth_error_nth' _ 0) by (rewrite seq_length; lia). rewrite seq_nth by lia. reflexivity. }
      clear - Hmk Hnk E. revert k Hnk E. generalize (map (CopyOf (V := V) (sb_data t)) (seq 0 (sb_size t))), (of j ls), Hmk.
      intros a b Hf. generalize (CopyOf (V := V) (sb_data t)). induction Hf as [|x y a b Hxy Hf IH]; intros f [|k]; cbn; try discriminate.
      - intros H1 H2. congruence.
      - intros H1 H2. assert (H3 : nth_error a k = Some ((fun n => f (S n)) k)) by exact H1. exact (IH (fun n => f (S n)) k H3 H2). }
    destruct Hk as (v & Hv & Hmv).
    assert (Hcut : firstn 1 (skipn k (of j ls)) = [v]).
    { clear - Hv. revert k Hv. generalize (of j ls). intros l. induction l as [|a l IH]; intros [|k]; cbn; intros; try discriminate.
      - congruence. - now apply IH. }
    rewrite Hcut. eapply ends_weaken.
    { apply (among_ok i (push_back moved C (CopyOf (sb_data t) k)) os ls others w (fun _ l' => l' = of i ls ++ [v]) (fun l' => l' = of i ls) (someone_throws w)); auto.
      intros o rest _ Hi. eapply ends_weaken. { apply (push_back_sbo moved small max Hsm Hmax _ v o (of i ls) rest w Hi Hmv). right. lia. }
      - cbv beta. intros o' _ w' [H' _]. eauto.
      - cbv beta. intros o' w' [Hun HT]. split; auto. exists (of i ls). split; auto. eapply untouched_is; eauto. }
    + cbv beta. intros os' _ w' (l' & -> & H'). exact H'.
    + cbv beta. intros os' w' (HT & l' & -> & H'). split; auto. exists ls. split; auto. rewrite put_at_id in H' by lia. exact H'.
  - (* AppendAll *) destruct (elements_make j os ls others (heap w) ltac:(assumption) (proj1 Ha)) as (t & Ht & Hmk).
    unfold look. unfold bind at 1. unfold get at 1. cbv beta iota. rewrite Ht. eapply ends_weaken.
    { apply (among_ok i (append moved C (Source (elements_of t) true)) os ls others w (fun _ l' => l' = of i ls ++ of j ls) (fun l' => l' = of i ls)
               (someone_throws w \/ max < 2 * length (of i ls ++ of j ls))); auto.
      intros o rest _ Hi. eapply ends_weaken. { apply (append_sbo moved small max Hsm Hmax _ _ o (of i ls) rest w Hi Hmk). }
      - cbv beta. intros o' _ w' [H' _]. eauto.
      - cbv beta. intros o' w' [Hun HT]. split. { destruct HT as [|[HT1 HT2]]; auto. right. eapply grown_max; eauto. }
        exists (of i ls). split; auto. eapply untouched_is; eauto. }
    + cbv beta. intros os' _ w' (l' & -> & H'). exact H'.
    + cbv beta. intros os' w' (HT & l' & -> & H'). split. { destruct HT as [|HT]; auto. right. eexists. split; [|exact HT]. apply In_put. lia. }
      exists ls. split; auto. rewrite put_at_id in H' by lia. exact H'.
  - (* InsertAll *)
    destruct (nth_error os j) as [t|] eqn:Ht. 2:{ apply nth_error_None in Ht. lia. }
    unfold look. unfold bind at 1. unfold get at 1. cbv beta iota. rewrite Ht. apply ends_bind_ret. eapply ends_weaken.
    { apply (among_ok i (insert moved C p (elements_of t)) os ls others w
               (fun _ l' => l' = firstn p (of i ls) ++ of j ls ++ skipn p (of i ls)) (fun l' => l' = of i ls)
               (someone_throws w \/ max < 2 * length (firstn p (of i ls) ++ of j ls ++ skipn p (of i ls)))); auto.
      intros o rest Hno Hi0.
      destruct (focus i _ _ _ _ ltac:(eassumption) (proj1 Ha)) as (o2 & os1 & l & ls1 & rest2 & Eo & El & Ho & Hl & Hin & Hr).
      assert (o2 = o). { rewrite Eo, ins_nth in Hno by assumption. congruence. } subst o2.
      assert (Hof : of i ls = l). { rewrite El. now apply ins_nth_default. }
      assert (Hmk : Forall2 (makes rest) (elements_of t) (of j ls)).
      { assert (Hp1 : pre i j < length os1). { rewrite Eo, ins_length in *. unfold pre. destruct (Nat.ltb_spec j i); lia. }
        destruct (elements_make (pre i j) os1 ls1 others rest2 Hp1 Hr) as (t' & Ht' & Hm').
        assert (t' = t). { rewrite Eo, ins_nth_other in Ht by auto. congruence. } subst t'.
        assert (Hofj : of j ls = of (pre i j) ls1).
        { unfold of. rewrite El. rewrite !nth_as_error. rewrite ins_nth_other by auto. reflexivity. }
        rewrite Hofj. eapply (same_makes rest2); [|exact Hm']. eapply is_in_rest; [exact Hin|]. rewrite <- Hof. apply Hi0. }
      pose proof (insert_sbo moved small max Hsm Hmax (elements_of t) (of j ls) o (firstn p (of i ls)) (skipn p (of i ls)) rest w) as H'.
      rewrite firstn_skipn in H'. assert (Hfp : length (firstn p (of i ls)) = p) by (rewrite firstn_length; lia). rewrite Hfp in H'.
      assert (Hne : elements_of (V := V) t <> [] \/ skipn p (of i ls) = []).
      { match goal with H : _ || _ = true |- _ => apply orb_prop in H; destruct H as [Hz|Hz] end.
        - left. apply negb_true_iff, Nat.eqb_neq in Hz. intros Hnil. pose proof (Forall2_len _ _ _ Hmk) as HL. rewrite Hnil in HL. cbn in HL. lia.
        - right. apply Nat.eqb_eq in Hz. apply skipn_all2. lia. }
      specialize (H' Hi0 Hmk Hne). eapply ends_weaken. { exact H'. }
      - cbv beta. intros o' r w' (_ & Z1 & _). eauto.
      - cbv beta. intros o' w' [Hun HT]. split. { destruct HT as [|[HT1 HT2]]; auto. right. eapply grown_max; eauto. }
        exists (of i ls). split; auto. eapply untouched_is; eauto. }
    + cbv beta. intros os' _ w' (l' & -> & H'). exact H'.
    + cbv beta. intros os' w' (HT & l' & -> & H'). split. { destruct HT as [|HT]; auto. right. eexists. split; [|exact HT]. apply In_put. lia. }
      exists ls. split; auto. rewrite put_at_id in H' by lia. exact H'.
  - (* CopyAssign *)
    destruct (focus i _ _ _ _ ltac:(eassumption) (proj1 Ha)) as (o & os1 & l & ls1 & rest & Eo & El & Ho & Hl & Hin & Hr).
    assert (Hp1 : pre i j < length os1). { rewrite Eo, ins_length in *. unfold pre. destruct (Nat.ltb_spec j i); lia. }
    destruct (focus (pre i j) _ _ _ _ Hp1 Hr) as (t & os2 & u & ls2 & rest2 & Eo2 & El2 & Ho2 & Hl2 & Hin2 & Hr2).
    assert (Hno : nth_error os i = Some o). { rewrite Eo. now apply ins_nth. }
    assert (Hnt : nth_error os j = Some t). { rewrite Eo, ins_nth_other by auto. rewrite Eo2. now apply ins_nth. }
    assert (Hof : of i ls = l). { rewrite El. now apply ins_nth_default. }
    assert (Hofj : of j ls = u). { unfold of. rewrite nth_as_error, El, ins_nth_other by auto. rewrite El2, ins_nth by assumption. reflexivity. }
    assert (Htwo : two_sbos small max o l t u rest2 w). { apply (two_sbos_sym moved). exists rest. split; auto. split; auto. apply Ha. }
    assert (Hback : forall o' l' w', two_sbos small max o' l' t u rest2 w' -> are (set_nth os i o') (put_at i l' ls) others w').
    { intros o' l' w' H'. apply (two_sbos_sym moved) in H'. destruct H' as (mid & Z1 & Z2 & Z3). split; auto.
      rewrite put_at_set by lia. rewrite Eo, El, !ins_set by assumption. eapply unfocus; eauto. rewrite Eo2, El2. eapply unfocus; eauto. }
    pose proof (copy_assign_sbo moved small max Hsm Hmax o l t u rest2 w Htwo) as H'.
    unfold look. unfold bind at 1. unfold get at 1. cbv beta iota. rewrite Hnt. unfold among. rewrite Hno, Hof, Hofj. unfold ends in *.
    destruct (sb_copy_assign moved small max false t o w) as [o1 [] w1|o1 w1|]; try contradiction.
    + now apply Hback.
    + destruct H' as [HT (n & Hn1 & Hn2 & Z1)]. split.
      { destruct HT as [|[HT1 HT2]]; auto. right. exists u. split; [|eapply grown_max; eauto]. apply In_put. lia. }
      eexists. split; [|apply Hback; exact Z1]. exists n. auto.
  - (* MoveAssign *) eapply (ends_weaken _ _ _ (fun _ _ => False)); [|intros ? ? ? X; exact X|contradiction]. apply (among_two_ok i j _ os ls others w (of j ls) []); auto.
    intros o t rest Ht. eapply ends_weaken. { apply (move_assign_sbo moved small max Hsm Hmax _ _ _ _ _ _ Ht). } { cbv beta. tauto. } { auto. }
  - (* Swap *) eapply (ends_weaken _ _ _ (fun _ _ => False)); [|intros ? ? ? X; exact X|contradiction]. apply (among_two_ok i j _ os ls others w (of j ls) (of i ls)); auto.
    intros o t rest Ht. eapply ends_weaken. { apply (swap_sbo moved small max Hsm Hmax _ _ _ _ _ _ Ht). } { cbv beta. tauto. } { auto. }
Qed.

Lemma program_ok ss : forall os ls others w,
  are os ls others w ->
  ends (program moved small max ss os w)
    (fun os' _ w' => exists ls', accounts max ss ls ls' /\ are os' ls' others w') (fun _ _ => False).
Proof.
  induction ss as [|s ss IH]; intros os ls others w Ha; cbn [program].
  - cbn. exists ls. split; auto. constructor.
  - unfold bind, get. rewrite (are_sizes _ _ _ _ (proj1 Ha)). destruct (possible max s (map (@length V) ls)) eqn:Hp.
    + unfold catch. pose proof (step_ok s os ls others w Ha Hp) as Hs. unfold ends in Hs.
      destruct (do_step moved small max s os w) as [os1 [] w1|os1 w1|]; [| |contradiction].
      * eapply ends_weaken. { apply (IH _ _ _ _ Hs). } 2: auto. cbv beta. intros o' _ w' (ls' & He & H'). exists ls'. split; auto. now apply accounts_returns.
      * destruct Hs as [_ (ls1 & Hi & Hv1)]. eapply ends_weaken. { apply (IH _ _ _ _ Hv1). } 2: auto.
        cbv beta. intros o' _ w' (ls' & He & H'). exists ls'. split; auto. eapply accounts_throws; eauto.
    + unfold ret. eapply ends_weaken. { apply (IH _ _ _ _ Ha). } 2: auto. cbv beta. intros o' _ w' (ls' & He & H'). exists ls'. split; auto. now apply accounts_skips.
Qed.

Lemma program_plain ss : forall os ls others w,
  are os ls others w -> ~ someone_throws w -> Forall (fun l => 2 * length l <= max) (passing max ss ls) ->
  ends (program moved small max ss os w)
    (fun os' _ w' => are os' (plainly max ss ls) others w') (fun _ _ => False).
Proof.
  induction ss as [|s ss IH]; intros os ls others w Ha Hq Hd; cbn [program plainly passing] in *.
  - exact Ha.
  - unfold bind, get. rewrite (are_sizes _ _ _ _ (proj1 Ha)). apply Forall_app in Hd. destruct Hd as [_ Hd].
    destruct (possible max s (map (@length V) ls)) eqn:Hp.
    + unfold catch. pose proof (step_ok s os ls others w Ha Hp) as Hs. unfold ends in Hs.
      pose proof (calm_step moved small max s os w) as Hc.
      destruct (do_step moved small max s os w) as [os1 [] w1|os1 w1|]; [| |contradiction].
      * apply IH; auto. intros Ht. apply Hq. destruct Hc as [Hc _]. apply Hc. exact Ht.
      * destruct Hs as [[Ht|(l & Hl & Hbig)] _]; [contradiction|]. exfalso.
        assert (Hin : In l (passing max ss (then_ s ls))). { destruct ss; cbn; auto. apply in_or_app. auto. }
        rewrite Forall_forall in Hd. specialize (Hd l Hin). lia.
    + unfold ret. apply IH; auto.
Qed.

Lemma ends_program n : forall os ls others w, length os = n ->
  are os ls others w ->
  ends (program moved small max (repeat (End 0) n) os w) (fun os' _ w' => os' = [] /\ same (heap w') others) (fun _ _ => False).
Proof.
  induction n as [|n IH]; intros os ls others w Hn Ha.
  - destruct os; [|discriminate]. destruct ls; [|destruct Ha as [[] _]]. cbn. split; auto. apply Ha.
  - cbn [repeat program]. unfold bind, get. destruct os as [|o os]; [discriminate|].
    pose proof (are_sizes _ _ _ _ (proj1 Ha)) as Hsz. destruct ls as [|l ls]; [destruct Ha as [[] _]|].
    assert (Hp : possible max (End (V := V) 0) (map sb_size (o :: os)) = true) by reflexivity. rewrite Hp. rewrite Hsz in Hp.
    pose proof (step_ok (End 0) (o :: os) (l :: ls) others w Ha Hp) as Hs. unfold catch.
    assert (Hd : match do_step moved small max (End 0) (o :: os) w with Ret os' _ _ => os' = os | _ => True end).
    { cbn [do_step]. unfold among, bind, get, put. cbn [nth_error]. destruct (sb_destroy small o w) as [o1 [] w1|o1 w1|]; auto. }
    unfold ends in Hs. destruct (do_step moved small max (End 0) (o :: os) w) as [os1 [] w1|os1 w1|]; [| |contradiction].
    + subst os1. cbn [then_ firstn skipn app] in Hs. eapply IH; eauto.
    + destruct Hs as [_ (ls' & [] & _)].
Qed.

Lemma whole_ok ss w :
  unused_names w ->
  ends (whole moved small max ss tt w) (fun _ _ w' => same (heap w') (heap w)) (fun _ _ => False).
Proof.
  intros Hu. unfold whole. assert (Ha : are [] [] (heap w) w). { split; auto. intros b. reflexivity. }
  pose proof (program_ok ss [] [] (heap w) w Ha) as H. unfold ends in *. destruct (program moved small max ss [] w) as [os [] w1|os w1|]; try contradiction.
  destruct H as (ls & _ & Ha1). pose proof (ends_program (length os) os ls (heap w) w1 eq_refl Ha1) as H. unfold ends in H.
  destruct (program moved small max (repeat (End 0) (length os)) os w1); try contradiction. tauto.
Qed.
End Proofs.
