(** * Proofs about programs with several dynamic_arrays *)

From Coq Require Import List Arith Bool Lia.
From Verif Require Import Mem MemLemmas Vec VecLemmas SpecVec VecProofs VecHistory SpecSeveral Several DynArray SpecDyn DynProofs SpecDynPrograms.
Import ListNotations.

Section Proofs.
Context {V : Type} (moved : V -> V) (min max : nat).
Local Notation world := (world V).
Local Notation memory := (@memory V).
Local Notation array_in := (array_in (V := V) min max).
Local Notation arrays := (arrays (V := V) min max).
Local Notation state := (state (V := V)).

Definition els (l : state) : list V := match l with Some l => l | None => [] end.
Lemma in_owns o l (r m : memory) : array_in o l r m -> owns o (els l) r m.
Proof. destruct l as [l|]; cbn; [apply arr_owns|]. intros [Hg Hs]. unfold owns. rewrite Hg. auto. Qed.
Lemma owns_in o l (r m r' m' : memory) : array_in o l r m -> owns o (els l) r' m' -> array_in o l r' m'.
Proof.
  destruct l as [l|]; cbn. { intros H Ho. eapply owns_arr; eauto. } intros [Hg Hs] Ho. unfold owns in Ho. rewrite Hg in Ho. split; tauto.
Qed.
Lemma owns_same o vs (r m m' : memory) : same m m' -> owns o vs r m -> owns o vs r m'.
Proof.
  unfold owns. intros Hs. destruct (u_pointer o) as [b|].
  - intros (H1 & H2 & H3 & H4). repeat (split; auto). { now rewrite <- Hs. } intros x Hx. rewrite <- Hs. auto.
  - intros [H1 H2]. split; auto. intros x. rewrite <- Hs. apply H2.
Qed.
Lemma in_same o l (r m m' : memory) : same m m' -> array_in o l r m -> array_in o l r m'.
Proof. intros Hs H. eapply owns_in; [exact H|]. eapply owns_same; [exact Hs|]. now apply in_owns. Qed.
Lemma in_swap o l t u (others mid m : memory) :
  array_in o l mid m -> array_in t u others mid -> exists mid', array_in t u mid' m /\ array_in o l others mid'.
Proof.
  intros Ho Ht. destruct (owns_swap _ _ _ _ _ _ _ (in_owns _ _ _ _ Ht) (in_owns _ _ _ _ Ho)) as (mid' & H1 & H2).
  exists mid'. split; eapply owns_in; eauto.
Qed.
Lemma in_size o l (r m : memory) : array_in o l r m -> size_now o = match l with Some l => length l | None => 0 end.
Proof.
  unfold size_now. destruct l as [l|]; cbn.
  - intros (H1 & _ & H). destruct (u_pointer o); auto. destruct H as [-> _]. reflexivity.
  - intros [Hg _]. now rewrite Hg.
Qed.

Definition here (q : Prop) (os : list storage) (ls : list state) (others : memory) (w : world) : Prop :=
  exists h, at_ q w h /\ several_in array_in os ls others h.
Lemma here_arrays q os ls others w : here q os ls others w -> arrays os ls others w.
Proof.
  intros (h & H & Hs). destruct (at_here _ _ _ H) as [He Hu]. split; auto. eapply (several_same array_in in_same); [|exact Hs].
  intros b. apply He.
Qed.
Lemma arrays_here os ls others w : arrays os ls others w -> here (calm w) os ls others w.
Proof. intros [Hs Hu]. exists (heap w). split; auto. now apply at_start. Qed.

(** ** Positions *)
Lemma sizes_nth j (ls : list state) : nth j (sizes_of ls) 0 = length (elements j ls).
Proof.
  unfold sizes_of, elements, at_index. pose proof (map_nth (fun l : state => match l with Some l => length l | None => 0 end) ls None j) as H.
  etransitivity; [exact H|]. destruct (nth j ls None); reflexivity.
Qed.
Lemma sizes_length (ls : list state) : length (sizes_of ls) = length ls.
Proof. apply map_length. Qed.
Lemma gone_nth j (ls : list state) : nth j (gone_of ls) true = match at_index j ls with Some _ => false | None => true end.
Proof. unfold gone_of, at_index. exact (map_nth (fun l : state => match l with Some _ => false | None => true end) ls None j). Qed.
Lemma at_nth j (ls : list state) l : nth_error ls j = Some l -> at_index j ls = l.
Proof. intros H. unfold at_index. now apply nth_error_nth. Qed.
Lemma elements_nth j (ls : list state) l : nth_error ls j = Some l -> elements j ls = els l.
Proof. intros H. unfold elements. now rewrite (at_nth _ _ _ H). Qed.
Lemma at_replace i (ls : list state) l : at_index i ls = Some l -> replace_at i (Some l) ls = ls.
Proof.
  intros H. apply replace_same. unfold at_index in H. rewrite <- H. apply nth_error_nth'. destruct (Nat.lt_ge_cases i (length ls)); auto.
  rewrite nth_overflow in H by assumption. discriminate.
Qed.
Lemma usable_some i (ls : list state) : negb (nth i (gone_of ls) true) = true -> exists l, at_index i ls = Some l /\ elements i ls = l.
Proof. rewrite gone_nth. unfold elements. destruct (at_index i ls) as [l|]; [eauto|discriminate]. Qed.
Lemma look_ok {A} j os (o : storage) (k : storage -> M V (list storage) A) w : nth_error os j = Some o -> looking_at j k os w = k o os w.
Proof. intros H. unfold looking_at, bind, get. now rewrite H. Qed.
Lemma yields_supply (h : memory) vs : Forall2 (yields h) (map Supply vs) vs.
Proof. induction vs; constructor; auto. reflexivity. Qed.

Lemma wp_another q (m : M V unit storage) os ls others w h l (P T : Prop) :
  several_in array_in os ls others h ->
  wp m tt w (fun _ o w' => P /\ exists h', at_ q w' h' /\ array_in o l h h') (fun _ w' => at_ q w' h /\ T) ->
  wp (another m) os w (fun os' _ w' => P /\ here q os' (ls ++ [l]) others w') (fun os' w' => T /\ here q os' ls others w').
Proof.
  intros Hs Hm. unfold another. apply wp_bind, wp_unit. eapply wp_conseq; [exact Hm| |].
  - cbv beta. intros _ o w' (HP & h' & H' & Ho). apply wp_bind, wp_get, wp_put. split; auto. exists h'. split; auto. eapply (several_end array_in in_swap); eauto.
  - cbv beta. intros _ w' [H' HT]. split; auto. exists h. auto.
Qed.
Lemma wp_one {A} i (m : M V storage A) os w (o : storage) Q E : nth_error os i = Some o ->
  wp m o w (fun o' a w' => Q (replace_at i o' os) a w') (fun o' w' => E (replace_at i o' os) w') -> wp (one_of i m) os w Q E.
Proof. intros Ho. unfold wp, one_of. rewrite Ho. destruct (m o w); auto. Qed.
Lemma wp_two {A} i j (m : M V (storage * storage) A) os w (o t : storage) Q E : nth_error os i = Some o -> nth_error os j = Some t ->
  wp m (o, t) w (fun p a w' => Q (replace_at j (snd p) (replace_at i (fst p) os)) a w')
    (fun p w' => E (replace_at j (snd p) (replace_at i (fst p) os)) w') -> wp (two_of i j m) os w Q E.
Proof. intros Ho Ht. unfold wp, two_of. rewrite Ho, Ht. destruct (m (o, t) w); auto. Qed.
Lemma wp_look {A} j os (o : storage) (k : storage -> M V (list storage) A) w Q E : nth_error os j = Some o ->
  wp (k o) os w Q E -> wp (looking_at j k) os w Q E.
Proof. intros Ho. unfold wp. now rewrite (look_ok _ _ _ _ _ Ho). Qed.

(** ** Assignment *)
Lemma wp_assign q mks us o l (rest h : memory) w : at_ q w h -> array_in o l rest h -> Forall2 (yields rest) mks us ->
  wp (da_assign moved min max mks) o w
    (fun o' _ w' => (min <= length us <= max) /\ exists h', at_ q w' h' /\ array_in o' (Some us) rest h')
    (fun o' w' => (~ q \/ ~ (min <= length us <= max)) /\ exists l' h', at_ q w' h' /\ array_in o' l' rest h' /\
       match l with
       | None => l' = None
       | Some l => if length us =? length l then exists n, n <= length us /\ l' = Some (firstn n us ++ skipn n l)
                   else l' = if min =? 0 then Some [] else Some l
       end).
Proof.
  intros H Hin Hy. eapply wp_conseq; [eapply (assign_ok moved min max q mks us o (els l) rest h w H)| |].
  - destruct l as [l|]; [left; exact Hin|right]. destruct Hin as [Hg Hs]. split; [exact Hg|]. split; [reflexivity|exact Hs].
  - exact Hy.
  - cbv beta. intros o' _ w' (h' & H' & Ha). split; [apply Ha|eauto].
  - cbv beta. intros o' w' [HT Hc]. split; auto. destruct Hc as [(-> & H' & Hd)|[(Hg & Hz & H' & Hne & H0)|(-> & Hq & He & n & h' & Hn & H' & Ha)]].
    + exists l, h. split; auto. split; auto. destruct l as [l|]; auto. cbn [els] in Hd. cbn in Hin.
      destruct (Nat.eqb_spec (length us) (length l)) as [He|He].
      * exists 0. split; [lia|reflexivity].
      * destruct (Nat.eqb_spec min 0) as [H0|H0]; auto. destruct Hd as [Hd|[_ Hd]]; [|lia].
        destruct Hin as (_ & _ & Hin). unfold gone in Hd. rewrite Hd in Hin. destruct Hin as [-> _]. reflexivity.
    + exists (match l with Some _ => Some [] | None => None end), rest. split; auto. destruct l as [l|]; cbn [els] in Hne.
      * split. { cbn. split; [auto|]. split; [cbn; lia|]. unfold gone in Hg. rewrite Hg. split; auto. now intros x. }
        destruct (Nat.eqb_spec (length us) (length l)); [contradiction|]. destruct (Nat.eqb_spec min 0); [reflexivity|contradiction].
      * split; auto. split; auto. now intros x.
    + destruct l as [l|]; cbn [els] in *.
      * exists (Some (firstn n us ++ skipn n l)), h'. split; auto. split; auto. rewrite (proj2 (Nat.eqb_eq _ _) He). exists n. split; auto. lia.
      * cbn in He. rewrite He in Hn. lia.
Qed.
(** An element is written. *)
Lemma wp_write q mk v o l k (rest h : memory) w : at_ q w h -> array_in o (Some l) rest h -> k < length l -> yields h mk v ->
  wp (bind get (fun o : storage => assign_at moved (da_data o) k mk)) o w
    (fun o' _ w' => exists h', at_ q w' h' /\ array_in o' (Some (replace_at k v l)) rest h')
    (fun o' w' => ~ q /\ exists h', at_ q w' h' /\ array_in o' (Some l) rest h').
Proof.
  intros H Hin Hk Hy. pose proof Hin as (Hs & Hr & Hp). apply wp_bind, wp_get. unfold da_data.
  destruct (u_pointer o) as [b|] eqn:E. 2:{ destruct Hp as [-> _]. cbn in Hk. lia. }
  destruct Hp as (P1 & P2 & P3). unfold assign_at. apply wp_bind. eapply (wp_make moved q); [exact H|exact Hy| |].
  - intros w1 H1. assert (Hl : exists x, l = firstn k l ++ x :: skipn (S k) l).
    { clear - Hk. revert k Hk. induction l as [|a l IH]; intros [|k] Hk; cbn in *; try lia. { eauto. }
      destruct (IH k) as [x Hx]; [lia|]. exists x. now f_equal. }
    destruct Hl as [x Hl]. eapply (wp_store q) with (l1 := map Some (firstn k l)) (l2 := map Some (skipn (S k) l)) (v' := x); [exact H1| | |].
    + rewrite P2. rewrite Hl at 1. now rewrite map_app.
    + rewrite map_length, firstn_length. lia.
    + intros w2 H2. eexists. split; [exact H2|]. cbn.
      assert (Hlen : length (replace_at k v l) = length l) by now apply length_replace.
      split; [congruence|]. split; [rewrite Hlen; auto|]. rewrite E. split; auto. split. { rewrite upd_same. unfold replace_at. now rewrite !map_app. }
      intros b' Hb. rewrite upd_other; auto.
  - intros w1 Hq H1. split; auto. exists h. auto.
Qed.
Lemma copies_in o l (rest h : memory) : array_in o (Some l) rest h -> Forall2 (yields h) (map (CopyOf (u_pointer o)) (seq 0 (length l))) l.
Proof. intros H. eapply (copies min max); eauto. Qed.
Lemma element_yields o l k (rest h : memory) : array_in o (Some l) rest h -> k < length l ->
  exists v, firstn 1 (skipn k l) = [v] /\ yields h (CopyOf (da_data o) k) v.
Proof.
  intros (Hs & Hr & Hp) Hk. destruct (nth_error l k) as [v|] eqn:E. 2:{ apply nth_error_None in E. lia. }
  exists v. split.
  - clear - E. revert k E. induction l as [|a l IH]; intros [|k]; cbn; intros; try discriminate. { congruence. } now apply IH.
  - unfold da_data. destruct (u_pointer o) as [b|]. 2:{ destruct Hp as [-> _]. cbn in Hk. lia. }
    destruct Hp as (_ & P2 & _). exists (map Some l). split; auto. rewrite nth_error_map, E. reflexivity.
Qed.

Lemma step_ok q s os ls others w h :
  at_ q w h -> several_in array_in os ls others h -> possible min s (sizes_of ls) (gone_of ls) = true ->
  wp (do_step moved min max s) os w
    (fun os' _ w' => fits min max s = true /\ here q os' (then_ s ls) others w')
    (fun os' w' => (~ q \/ fits min max s = false) /\ exists ls', or_else min s ls ls' /\ here q os' ls' others w').
Proof.
  intros H Hin Hp. pose proof (several_lengths array_in _ _ _ _ Hin) as Hlen.
  assert (Hfit : forall n, (min <=? n) && (n <=? max) = true <-> min <= n <= max).
  { intros n. rewrite andb_true_iff, !Nat.leb_le. tauto. }
  assert (Hfit' : forall n, ~ (min <= n <= max) -> (min <=? n) && (n <=? max) = false).
  { intros n Hn. apply not_true_iff_false. now rewrite Hfit. }
  destruct s as [|vs|j|j|i|i vs|i k v|i k j n|i|i j|i j|i j]; cbn [possible do_step then_ or_else fits] in *;
    rewrite ?sizes_nth, ?sizes_length, <- ?Hlen in Hp;
    repeat match goal with H : _ && _ = true |- _ => apply andb_prop in H; destruct H end;
    repeat match goal with
           | H : (_ <? _) = true |- _ => apply Nat.ltb_lt in H
           | H : (_ <=? _) = true |- _ => apply Nat.leb_le in H
           | H : (_ =? _) = true |- _ => apply Nat.eqb_eq in H
           | H : negb (_ =? _) = true |- _ => apply negb_true_iff, Nat.eqb_neq in H
           end.
  - (* New *) eapply wp_conseq; [eapply (wp_another q _ os ls others w h (Some []) True False Hin)| |].
    + apply wp_ret. split; auto. exists h. split; auto. cbn. split; auto. split; [cbn; lia|]. split; auto. now intros x.
    + cbv beta. tauto.
    + cbv beta. tauto.
  - (* NewFrom *) eapply wp_conseq; [eapply (wp_another q _ os ls others w h (Some vs) (min <= length vs <= max) (~ q \/ ~ (min <= length vs <= max)) Hin)| |].
    + eapply wp_conseq; [apply (from_ok moved min max q _ vs _ _ H (yields_supply _ _))| |]; cbv beta.
      * intros _ o w' (h' & H' & Ha & _). split; [apply Ha|]. exists h'. auto.
      * auto.
    + cbv beta. intros os' _ w' [Hf Hh]. split; auto. now apply Hfit.
    + cbv beta. intros os' w' [HT Hh]. split; [destruct HT; auto|]. eauto.
  - (* NewCopy *) destruct (focus_one array_in in_swap j _ _ _ _ ltac:(eassumption) Hin) as (o & l & rest & Hno & Hnl & Ho & _).
    match goal with Hg : negb _ = true |- _ => destruct (usable_some _ _ Hg) as (l0 & Hl & He) end.
    rewrite (at_nth _ _ _ Hnl) in Hl. subst l. rewrite He. eapply wp_look; [exact Hno|].
    eapply wp_conseq; [eapply (wp_another q _ os ls others w h (Some l0) True (~ q) Hin)| |].
    + unfold da_copy. apply wp_bind. eapply wp_size; [exact Ho|].
      eapply wp_conseq; [apply (from_ok moved min max q _ l0 h w H)| |]; cbv beta.
      * apply (copies_in _ _ _ _ Ho).
      * intros _ t w' (h' & H' & Ha & _). split; auto. exists h'. auto.
      * intros _ w' [H' HT]. split; auto. destruct HT as [|HT]; auto. destruct HT. apply Ho.
    + cbv beta. tauto.
    + cbv beta. intros os' w' [HT Hh]. split; eauto.
  - (* NewMove *) destruct (focus_one array_in in_swap j _ _ _ _ Hp Hin) as (o & l & rest & Hno & Hnl & Ho & Hr & Hback).
    eapply wp_look; [exact Hno|]. apply wp_bind, wp_get, wp_put. split; auto. exists h. split; auto. rewrite (at_nth _ _ _ Hnl).
    eapply (several_end array_in in_swap); [destruct o; exact Ho|]. apply Hback. split; [reflexivity|now intros b].
  - (* End *) destruct (focus_one array_in in_swap i _ _ _ _ Hp Hin) as (o & l & rest & Hno & Hnl & Ho & Hr & _).
    apply wp_bind. eapply wp_one; [exact Hno|]. eapply wp_conseq; [apply (destroy_ok q o (els l) rest h w H (in_owns _ _ _ _ Ho))| |]; cbv beta; [|contradiction].
    intros o' _ w' H'. apply wp_bind, wp_get, wp_put. split; auto. exists rest. split; auto.
    assert (Hrm : remove_at i (replace_at i o' os) = remove_at i os).
    { clear - Hp. revert os Hp. induction i as [|i IH]; intros [|x os] Hp; cbn [length] in *; try lia; [reflexivity|].
      rewrite replace_S, !remove_S. f_equal. apply IH. lia. }
    rewrite Hrm. exact Hr.
  - (* Assign *) destruct (focus_one array_in in_swap i _ _ _ _ Hp Hin) as (o & l & rest & Hno & Hnl & Ho & Hr & Hback).
    eapply wp_one; [exact Hno|]. eapply wp_conseq; [apply (wp_assign q _ vs o l rest h w H Ho (yields_supply _ _))| |]; cbv beta.
    + intros o' _ w' (Hf & h' & H' & Ha). split; [now apply Hfit|]. exists h'. split; auto.
    + intros o' w' (HT & l' & h' & H' & Ha & Hl'). split; [destruct HT; auto|]. exists (replace_at i l' ls). split; [|exists h'; split; auto].
      unfold assignment_fails. rewrite (at_nth _ _ _ Hnl). destruct l as [l|]; [|subst l'; now apply replace_same].
      destruct (length vs =? length l). { destruct Hl' as (n & Hn & ->). eauto. }
      destruct (min =? 0); subst l'; auto. now apply replace_same.
  - (* Write *) destruct (focus_one array_in in_swap i _ _ _ _ ltac:(eassumption) Hin) as (o & l & rest & Hno & Hnl & Ho & Hr & Hback).
    match goal with Hg : negb _ = true |- _ => destruct (usable_some _ _ Hg) as (l0 & Hl & He) end.
    rewrite (at_nth _ _ _ Hnl) in Hl. subst l. rewrite He in *. eapply wp_one; [exact Hno|].
    eapply wp_conseq; [eapply (wp_write q (Supply v) v o l0 k rest h w H Ho)| |]; cbv beta; auto.
    + reflexivity.
    + intros o' _ w' (h' & H' & Ha). split; auto. exists h'. split; auto.
    + intros o' w' (HT & h' & H' & Ha). split; auto. exists ls. split; auto. exists h'. split; auto.
      rewrite <- (replace_same i (Some l0) ls Hnl). auto.
  - (* WriteElement *) destruct (focus_one array_in in_swap i _ _ _ _ ltac:(eassumption) Hin) as (o & l & rest & Hno & Hnl & Ho & Hr & Hback).
    assert (Hj : j < length os) by assumption.
    destruct (focus_one array_in in_swap j _ _ _ _ Hj Hin) as (t & u & rt & Hnt & Hnu & Ht & _).
    repeat match goal with Hg : negb (nth ?x _ _) = true |- _ =>
             let a := fresh "l" in let A := fresh "Hl" in let B := fresh "He" in destruct (usable_some _ _ Hg) as (a & A & B); clear Hg end.
    rewrite (at_nth _ _ _ Hnl) in *. rewrite (at_nth _ _ _ Hnu) in *. subst. eapply wp_look; [exact Hnt|].
    rewrite (elements_nth _ _ _ Hnl), (elements_nth _ _ _ Hnu) in *. cbn [els] in *.
    match goal with Hn : n < length ?a |- _ => destruct (element_yields t a n rt h Ht Hn) as (v & Hcut & Hy) end.
    rewrite Hcut. eapply wp_one; [exact Hno|].
    eapply wp_conseq; [eapply (wp_write q (CopyOf (da_data t) n) v o _ k rest h w H Ho)| |]; cbv beta; auto.
    + intros o' _ w' (h' & H' & Ha). split; auto. exists h'. split; auto.
    + intros o' w' (HT & h' & H' & Ha). split; auto. exists ls. split; auto. exists h'. split; auto.
      rewrite <- (replace_same i _ ls Hnl). auto.
  - (* Clear *) destruct (focus_one array_in in_swap i _ _ _ _ ltac:(eassumption) Hin) as (o & l & rest & Hno & Hnl & Ho & Hr & Hback).
    eapply wp_one; [exact Hno|]. eapply wp_conseq; [apply (clear_ok q o (els l) rest h w H (in_owns _ _ _ _ Ho))| |]; cbv beta; [|contradiction].
    intros o' _ w' (-> & H'). split; auto. exists rest. split; auto. apply Hback. cbn. split; auto. split; [cbn; lia|]. split; auto. now intros b.
  - (* CopyAssign *) match goal with Hg : negb _ = true |- _ => destruct (usable_some _ _ Hg) as (l0 & Hl & He) end.
    destruct (Nat.eqb_spec i j) as [->|Hij].
    + apply wp_ret. split; auto. rewrite He, at_replace by assumption. exists h. auto.
    + destruct (focus_two array_in in_swap i j _ _ _ _ ltac:(eassumption) ltac:(eassumption) ltac:(auto) Hin) as (o & l & t & u & mid & rest & Hno & Hnl & Hnt & Hnu & Ho & Ht & Hback & _).
      rewrite (at_nth _ _ _ Hnu) in Hl. subst u. eapply wp_look; [exact Hnt|]. eapply wp_one; [exact Hno|].
      unfold da_copy_assign. apply wp_bind. eapply wp_size; [exact Ht|].
      eapply wp_conseq; [apply (wp_assign q _ l0 o l mid h w H Ho)| |]; cbv beta.
      * apply (copies_in _ _ _ _ Ht).
      * intros o' _ w' (Hf & h' & H' & Ha). split; auto. rewrite He. exists h'. split; auto. eapply Hback; eauto.
      * intros o' w' (HT & l' & h' & H' & Ha & Hl'). split. { destruct HT as [|HT]; auto. destruct HT. apply Ht. }
        exists (replace_at i l' ls). split; [|exists h'; split; auto; eapply Hback; eauto]. split; auto.
        unfold assignment_fails. rewrite (at_nth _ _ _ Hnl), He. destruct l as [l|]; [|subst l'; now apply replace_same].
        destruct (length l0 =? length l). { destruct Hl' as (n & Hn & ->). eauto. }
        destruct (min =? 0); subst l'; auto. now apply replace_same.
  - (* MoveAssign *) assert (Hi0 : i < length os) by assumption. destruct (Nat.eqb_spec i j) as [->|Hij].
    + destruct (focus_one array_in in_swap j _ _ _ _ Hi0 Hin) as (o & l & rest & Hno & Hnl & Ho & Hr & Hback).
      eapply wp_one; [exact Hno|]. eapply wp_conseq; [apply (self_move_assign_ok q o (els l) rest h w H (in_owns _ _ _ _ Ho))| |]; cbv beta; [|contradiction].
      intros o' _ w' [Hg H']. split; auto. rewrite replace_twice by exact (eq_ind _ (fun n => j < n) Hi0 _ Hlen). exists rest. split; auto. apply Hback. split; auto. now intros b.
    + destruct (focus_two array_in in_swap i j _ _ _ _ Hi0 ltac:(eassumption) ltac:(auto) Hin) as (o & l & t & u & mid & rest & Hno & Hnl & Hnt & Hnu & Ho & Ht & _ & Hback).
      destruct (in_swap _ _ _ _ _ _ _ Ho Ht) as (mid' & Ht' & Ho').
      eapply wp_two; [exact Hno|exact Hnt|]. eapply wp_conseq; [apply (move_assign_ok q o (els l) t (els u) rest mid' h w H (in_owns _ _ _ _ Ho') (in_owns _ _ _ _ Ht'))| |]; cbv beta; [|contradiction].
      intros p _ w' (Hf & Hg & h' & H' & Hw). split; auto. exists h'. split; auto. rewrite (at_nth _ _ _ Hnu). eapply (Hback _ _ _ _ rest).
      * rewrite Hf. eapply owns_in; eauto.
      * split; auto. now intros b.
  - (* Swap *) assert (Hi0 : i < length os) by assumption.
    destruct (focus_two array_in in_swap i j _ _ _ _ Hi0 ltac:(eassumption) ltac:(auto) Hin) as (o & l & t & u & mid & rest & Hno & Hnl & Hnt & Hnu & Ho & Ht & _ & Hback).
    eapply wp_two; [exact Hno|exact Hnt|]. destruct o as [po so], t as [pt st].
    unfold wp, da_swap, da_move, storage_move. cbn [fst snd u_pointer u_size].
    unfold da_move_assign, bind, get, put, da_destroy_elements, da_data, deallocate_storage, ret. cbn [fst snd u_pointer u_size]. cbn.
    split; auto. exists h. split; auto. rewrite (at_nth _ _ _ Hnl), (at_nth _ _ _ Hnu).
    destruct (in_swap _ _ _ _ _ _ _ Ho Ht) as (mid' & Ht' & Ho'). eapply Hback; eauto.
Qed.

(** ** Programs *)
Lemma map_replace {A B} (f : A -> B) i x l : map f (replace_at i x l) = replace_at i (f x) (map f l).
Proof. unfold replace_at. rewrite !map_app, firstn_map, skipn_map. reflexivity. Qed.
Lemma map_remove {A B} (f : A -> B) i l : map f (remove_at i l) = remove_at i (map f l).
Proof. unfold remove_at. now rewrite map_app, firstn_map, skipn_map. Qed.
Lemma gone_replace i (l : state) ls : gone_of (replace_at i l ls) = replace_at i (match l with Some _ => false | None => true end) (gone_of ls).
Proof. unfold gone_of. rewrite map_replace. reflexivity. Qed.
Lemma gone_app (ls ls' : list state) : gone_of (ls ++ ls') = gone_of ls ++ gone_of ls'.
Proof. apply map_app. Qed.
Lemma gone_same i (ls : list state) l l' : at_index i ls = Some l -> gone_of (replace_at i (Some l') ls) = gone_of ls.
Proof. intros H. rewrite gone_replace. rewrite <- (at_replace i ls l H) at 2. rewrite gone_replace. reflexivity. Qed.
Lemma then_gone s (ls : list state) : possible min s (sizes_of ls) (gone_of ls) = true -> gone_of (then_ s ls) = gone_after s (gone_of ls).
Proof.
  intros Hp. destruct s as [|vs|j|j|i|i vs|i k v|i k j n|i|i j|i j|i j]; cbn [then_ gone_after possible] in *;
    rewrite ?gone_app, ?gone_replace, ?gone_nth; auto.
  - apply map_remove.
  - repeat match goal with H : _ && _ = true |- _ => apply andb_prop in H; destruct H end.
    match goal with H : negb (nth i _ _) = true |- _ => apply usable_some in H; destruct H as (l & Hli & Hle) end.
    rewrite <- (at_replace i ls l Hli) at 2. now rewrite gone_replace.
  - repeat match goal with H : _ && _ = true |- _ => apply andb_prop in H; destruct H end.
    match goal with H : negb (nth i _ _) = true |- _ => apply usable_some in H; destruct H as (l & Hli & Hle) end.
    rewrite <- (at_replace i ls l Hli) at 2. now rewrite gone_replace.
Qed.
Lemma fails_gone i vs (ls ls' : list state) : assignment_fails min i vs ls ls' -> gone_of ls' = gone_of ls.
Proof.
  unfold assignment_fails. destruct (at_index i ls) as [l|] eqn:E; [|now intros ->].
  destruct (length vs =? length l). { intros (n & _ & ->). now apply (gone_same _ _ l). }
  destruct (min =? 0); intros ->; auto. now apply (gone_same _ _ l).
Qed.
Lemma else_gone s (ls ls' : list state) : or_else min s ls ls' -> gone_of ls' = gone_of ls.
Proof.
  intros Ho. destruct s as [|vs|j|j|i|i vs|i k v|i k j n|i|i j|i j|i j]; cbn [or_else] in *; try contradiction; try (now subst).
  - eapply fails_gone; eauto.
  - eapply fails_gone; apply Ho.
Qed.
Lemma arrays_sizes os ls others h : several_in array_in os ls others h -> map size_now os = sizes_of ls.
Proof. intros H. eapply (several_map array_in); [|exact H]. apply in_size. Qed.

Lemma program_ok q ss : forall os ls others w,
  here q os ls others w ->
  wp (program moved min max ss (gone_of ls)) os w
    (fun os' _ w' => exists ls', accounts min max ss ls ls' /\ here q os' ls' others w') (fun _ _ => False).
Proof.
  induction ss as [|s ss IH]; intros os ls others w Ha; cbn [program].
  - apply wp_ret. exists ls. split; auto. constructor.
  - apply wp_bind, wp_get. pose proof Ha as (h & H & Hin). rewrite (arrays_sizes _ _ _ _ Hin). destruct (possible min s (sizes_of ls) (gone_of ls)) eqn:Hp.
    + apply wp_bind. pose proof (step_ok q s os ls others w h H Hin Hp) as Hs. unfold wp in Hs |- *. unfold attempt.
      destruct (do_step moved min max s os w) as [os1 [] w1|os1 w1|]; [| |contradiction].
      * destruct Hs as [Hf Hs]. rewrite <- (then_gone s ls Hp). eapply wp_conseq. { apply (IH _ _ _ _ Hs). } 2: auto.
        cbv beta. intros o' _ w' (ls' & He & H'). exists ls'. split; auto. now apply accounts_returns.
      * destruct Hs as [_ (ls1 & Hi & Hv1)]. rewrite <- (else_gone s ls ls1 Hi). eapply wp_conseq. { apply (IH _ _ _ _ Hv1). } 2: auto.
        cbv beta. intros o' _ w' (ls' & He & H'). exists ls'. split; auto. eapply accounts_throws; eauto.
    + eapply wp_conseq. { apply (IH _ _ _ _ Ha). } 2: auto. cbv beta. intros o' _ w' (ls' & He & H'). exists ls'. split; auto. now apply accounts_skips.
Qed.

(** An array has a size its type has. *)
Lemma in_fits i os (ls : list state) others h l : several_in array_in os ls others h -> at_index i ls = Some l -> min <= length l <= max.
Proof.
  intros Hin Hl. destruct (Nat.lt_ge_cases i (length ls)) as [Hi|Hi].
  - rewrite <- (several_lengths array_in _ _ _ _ Hin) in Hi.
    destruct (focus_one array_in in_swap i _ _ _ _ Hi Hin) as (o & l' & rest & Hno & Hnl & Ho & _). rewrite (at_nth _ _ _ Hnl) in Hl. subst l'. apply Ho.
  - unfold at_index in Hl. rewrite nth_overflow in Hl by assumption. discriminate.
Qed.
Lemma program_plain (q : Prop) (Hq : q) ss : forall os ls others w,
  here q os ls others w ->
  wp (program moved min max ss (gone_of ls)) os w
    (fun os' _ w' => here q os' (plainly min max ss ls) others w') (fun _ _ => False).
Proof.
  induction ss as [|s ss IH]; intros os ls others w Ha; cbn [program plainly] in *.
  - apply wp_ret. exact Ha.
  - apply wp_bind, wp_get. pose proof Ha as (h & H & Hin). rewrite (arrays_sizes _ _ _ _ Hin). destruct (possible min s (sizes_of ls) (gone_of ls)) eqn:Hp.
    + apply wp_bind. pose proof (step_ok q s os ls others w h H Hin Hp) as Hs. unfold wp in Hs |- *. unfold attempt.
      destruct (do_step moved min max s os w) as [os1 [] w1|os1 w1|]; [| |contradiction].
      * destruct Hs as [Hf Hs]. rewrite Hf, <- (then_gone s ls Hp). now apply IH.
      * destruct Hs as [HT (ls1 & Hi & Hv1)]. destruct HT as [HT|HT]; [contradiction|]. rewrite HT.
        assert (Hr : ls1 = refused min s ls).
        { destruct s as [|vs|j|j|i|i vs|i k v|i k j n|i|i j|i j|i j]; cbn [fits or_else refused] in *; try discriminate; auto.
          unfold assignment_fails in Hi. destruct (at_index i ls) as [l|] eqn:E; auto.
          destruct (Nat.eqb_spec (length vs) (length l)) as [He|He]; auto. exfalso. pose proof (in_fits _ _ _ _ _ _ Hin E) as Hf.
          rewrite He in HT. apply andb_false_iff in HT. rewrite !Nat.leb_gt in HT. lia. }
        rewrite <- (else_gone s ls ls1 Hi). rewrite <- Hr. now apply IH.
    + now apply IH.
Qed.

Lemma ends_program q n : forall os ls others w gone, length os = n ->
  here q os ls others w ->
  wp (program moved min max (repeat (End 0) n) gone) os w (fun os' _ w' => os' = [] /\ at_ q w' others) (fun _ _ => False).
Proof.
  induction n as [|n IH]; intros os ls others w gone Hn (h & H & Hin).
  - destruct os; [|discriminate]. destruct ls; [|destruct Hin]. apply wp_ret. split; auto. eapply at_ext; [exact H|exact Hin].
  - cbn [repeat program]. apply wp_bind, wp_get. destruct os as [|o os]; [discriminate|]. destruct ls as [|l ls]; [destruct Hin|].
    assert (Hp : forall g sz, possible min (End (V := V) 0) (map size_now (o :: os)) g = true /\ possible min (End (V := V) 0) (sizes_of (l :: ls)) sz = true) by (split; reflexivity).
    rewrite (proj1 (Hp _ gone)). apply wp_bind. pose proof (step_ok q (End 0) (o :: os) (l :: ls) others w h H Hin (proj2 (Hp gone _))) as Hs. unfold attempt, wp in Hs |- *.
    assert (Hd : match do_step moved min max (End 0) (o :: os) w with Ret os' _ _ => os' = os | _ => True end).
    { cbn [do_step]. unfold one_of, bind, get, put. cbn [nth_error]. destruct (da_destroy o w) as [o1 [] w1|o1 w1|]; auto. }
    destruct (do_step moved min max (End 0) (o :: os) w) as [os1 [] w1|os1 w1|]; [| |contradiction].
    + subst os1. change (then_ (End 0) (l :: ls)) with ls in Hs. eapply IH; [|apply Hs]. now injection Hn.
    + destruct Hs as [_ (ls' & [] & _)].
Qed.

(** ** For a world *)
Lemma program_arrays ss os ls others w :
  arrays os ls others w ->
  ends (program moved min max ss (gone_of ls) os w)
    (fun os' _ w' => exists ls', accounts min max ss ls ls' /\ arrays os' ls' others w') (fun _ _ => False).
Proof.
  intros Ha. eapply ends_weak; [apply wp_ends, program_ok, arrays_here, Ha| |]; cbv beta; auto.
  intros os' _ w' (ls' & H1 & H2). exists ls'. split; auto. eapply here_arrays; eauto.
Qed.
Lemma program_arrays_plain ss os ls others w :
  arrays os ls others w -> ~ someone_throws w ->
  ends (program moved min max ss (gone_of ls) os w)
    (fun os' _ w' => arrays os' (plainly min max ss ls) others w') (fun _ _ => False).
Proof.
  intros Ha Hq. eapply ends_weak; [apply wp_ends, (program_plain (calm w)); [exact Hq|apply arrays_here, Ha]| |]; cbv beta; auto.
  intros os' _ w' H2. eapply here_arrays; eauto.
Qed.
Lemma whole_ok ss w :
  unused_names w ->
  ends (whole moved min max ss tt w) (fun _ _ w' => same (heap w') (heap w)) (fun _ _ => False).
Proof.
  intros Hu. unfold whole. assert (Ha : arrays [] [] (heap w) w). { split; auto. intros b. reflexivity. }
  pose proof (program_ok (calm w) ss [] [] (heap w) w (arrays_here _ _ _ _ Ha)) as H. change (gone_of []) with (@nil bool) in H. unfold wp in H. unfold ends.
  destruct (program moved min max ss [] [] w) as [os [] w1|os w1|]; try contradiction.
  destruct H as (ls & _ & Ha1). pose proof (ends_program _ (length os) os ls (heap w) w1 (map (fun _ => true) os) eq_refl Ha1) as H. unfold wp in H.
  destruct (program moved min max (repeat (End 0) (length os)) (map (fun _ => true) os) os w1); try contradiction. destruct H as [_ [H _]]. exact H.
Qed.
End Proofs.
