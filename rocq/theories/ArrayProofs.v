(** * Proofs about arrays *)

From Coq Require Import List Arith Bool Lia.
From Verif Require Import Sequence SpecSequence SequenceProofs Mem MemLemmas Vec SpecVec Array SpecArray.
Import ListNotations.

Section Making.
Context {V : Type} (moved : V -> V) (q : Prop).
Local Notation M := (M V).
Local Notation world := (world V).
Local Notation contents := (@contents V).
Local Notation expression := (expression V).

(** Reading an expression in the memory [h] gives [v] and leaves [h']. *)
Definition reads (h : contents) (e : expression) (v : V) (h' : contents) : Prop :=
  match e with
  | Prvalue v' => v' = v /\ eqh h' h
  | Lvalue b i => (exists cs, h b = Some cs /\ nth_error cs i = Some (Some v)) /\ eqh h' h
  | Xvalue b i => exists l1 l2, h b = Some (l1 ++ Some v :: l2) /\ i = length l1 /\ eqh h' (upd h b (Some (l1 ++ Some (moved v) :: l2)))
  end.
Inductive reads_all : contents -> list expression -> list V -> contents -> Prop :=
| reads_none h h' : eqh h' h -> reads_all h [] [] h'
| reads_one h e v h1 es vs h' : reads h e v h1 -> reads_all h1 es vs h' -> reads_all h (e :: es) (v :: vs) h'.

Lemma wp_value {X} e v h h' (x : X) w (Q : X -> V -> world -> Prop) (E : X -> world -> Prop) :
  at_ q w h -> reads h e v h' -> (forall w', at_ q w' h' -> Q x v w') -> (forall w', ~ q -> at_ q w' h -> E x w') ->
  wp (value_of moved e) x w Q E.
Proof.
  intros H Hr HQ HE. destruct e as [v'|b i|b i]; cbn in Hr |- *; unfold seq.
  - destruct Hr as (-> & Hh). apply wp_bind. eapply wp_may_throw; eauto. intros w' H'. apply wp_ret, HQ. eapply at_ext; eauto. now apply eqh_sym.
  - destruct Hr as ((cs & Hb & Hi) & Hh). apply wp_bind. eapply wp_load; eauto. apply wp_bind. eapply wp_may_throw; eauto.
    intros w' H'. apply wp_ret, HQ. eapply at_ext; eauto. now apply eqh_sym.
  - destruct Hr as (l1 & l2 & Hb & Hi & Hh). apply wp_bind. eapply wp_load; eauto. { subst. now apply nth_error_mid. }
    apply wp_bind. eapply wp_may_throw; eauto. intros w1 H1. apply wp_bind. eapply wp_store; eauto. intros w2 H2. apply wp_ret, HQ. eapply at_ext; eauto. now apply eqh_sym.
Qed.

(** The clauses compute these expressions from the state [x], and leave [x']. *)
Inductive produce {X} : X -> list (M X expression) -> list expression -> X -> Prop :=
| produce_none x : produce x [] [] x
| produce_one x c e x1 cs es x' : (forall w, c x w = Ret x1 e w) -> produce x1 cs es x' -> produce x (c :: cs) (e :: es) x'.

Lemma produce_length {X} (x : X) cs es x' : produce x cs es x' -> length cs = length es.
Proof. induction 1; cbn; auto. Qed.
Lemma reads_length h es vs h' : reads_all h es vs h' -> length es = length vs.
Proof. induction 1; cbn; auto. Qed.

(** An expression that can be read without the new block can be read with it. *)
Lemma reads_frame h e v h' b cs : h b = None -> reads h e v h' -> reads (upd h b cs) e v (upd h' b cs) /\ h' b = None.
Proof.
  intros Hn. destruct e as [v'|c i|c i]; cbn.
  - intros (-> & H). split; [split; auto; now apply upd_eqh|]. now rewrite H.
  - intros ((l & Hc & Hi) & H). assert (c <> b) by (intros ->; congruence). split; [split|].
    + exists l. now rewrite upd_other.
    + now apply upd_eqh.
    + now rewrite H.
  - intros (l1 & l2 & Hc & Hi & H). assert (c <> b) by (intros ->; congruence). split.
    + exists l1, l2. rewrite upd_other by assumption. repeat split; auto. eapply eqh_trans. { eapply upd_eqh, H. } now apply upd_comm.
    + rewrite H, upd_other; auto.
Qed.

Lemma destroy_down_ok {X} b vs n l2 h (x : X) w (Q : X -> unit -> world -> Prop) (E : X -> world -> Prop) :
  at_ q w h -> h b = Some (map Some vs ++ l2) -> n = length vs ->
  (forall w', at_ q w' (upd h b (Some (repeat None n ++ l2))) -> Q x tt w') ->
  wp (destroy_down (Some b) n) x w Q E.
Proof.
  intros H Hb -> HQ. revert l2 h w H Hb HQ. induction vs as [|v vs IH] using rev_ind; intros l2 h w H Hb HQ.
  - cbn. apply HQ. eapply at_ext; eauto. apply eqh_sym, upd_id. exact Hb.
  - rewrite app_length in *. cbn [length] in *. rewrite Nat.add_1_r in *. cbn [destroy_down]. unfold seq. apply wp_bind.
    rewrite map_app in Hb. cbn in Hb. rewrite <- app_assoc in Hb. cbn in Hb.
    eapply wp_destroy; eauto. { now rewrite map_length. }
    intros w1 H1. eapply (IH (None :: l2)); [exact H1| |]. { now rewrite upd_same. }
    intros w2 H2. apply HQ. eapply at_ext; eauto. eapply eqh_trans; [apply upd_upd|].
    rewrite repeat_snoc, <- app_assoc. apply eqh_refl.
Qed.

Lemma aggregate_ok {X} b (x : X) cls es x' : produce x cls es x' ->
  forall ds vs h h' w (Q : X -> unit -> world -> Prop) (E : X -> world -> Prop),
  h b = None -> reads_all h es vs h' ->
  at_ q w (upd h b (Some (map Some ds ++ repeat None (length cls)))) ->
  (forall w', at_ q w' (upd h' b (Some (map Some (ds ++ vs)))) -> h' b = None -> Q x' tt w') ->
  (forall y w' es1 es2 vs1 h1, ~ q -> es = es1 ++ es2 -> es2 <> [] -> reads_all h es1 vs1 h1 -> h1 b = None ->
     at_ q w' (upd h1 b (Some (repeat None (length ds + length cls)))) -> E y w') ->
  wp (aggregate moved (Some b) (length ds) cls) x w Q E.
Proof.
  induction 1 as [x|x c e x1 cs es x' Hc Hp IH]; intros ds vs h h' w Q E Hn Hr H HQ HE.
  - inversion Hr; subst. cbn. apply HQ. 2: { now rewrite H0. } rewrite app_nil_r. cbn in H. rewrite app_nil_r in H.
    eapply at_ext; eauto. apply upd_eqh. now apply eqh_sym.
  - inversion Hr as [|? ? v h1 ? us ? Hv Hvs]; subst. cbn [aggregate]. unfold seq. apply wp_bind, wp_rethrow, wp_bind.
    unfold wp at 1. rewrite Hc. cbn [length repeat] in H.
    destruct (reads_frame _ _ _ _ b (Some (map Some ds ++ None :: repeat None (length cs))) Hn Hv) as (Hf & Hn1).
    unfold initialize, seq. apply wp_bind. eapply wp_require_raw; [exact H|now rewrite upd_same|now rewrite map_length|].
    apply wp_bind. eapply wp_value; [exact H|exact Hf| |].
    + intros w1 H1. eapply wp_begin_life; [exact H1|now rewrite upd_same|now rewrite map_length|]. intros w2 H2.
      replace (S (length ds)) with (length (ds ++ [v])) by (rewrite app_length; cbn; lia).
      eapply IH; [exact Hn1|exact Hvs| | |].
      * eapply at_ext; eauto. eapply eqh_trans; [apply upd_upd|]. rewrite map_app, <- app_assoc. apply eqh_refl.
      * intros w3 H3 Hn'. apply HQ; auto. now rewrite <- app_assoc in H3.
      * intros y w3 es1 es2 vs1 h2 Hq E1 E2 E3 E4 E5. eapply (HE y w3 (e :: es1) es2 (v :: vs1) h2); auto.
        -- cbn. now f_equal.
        -- econstructor; eauto.
        -- rewrite app_length in E5. cbn in E5 |- *. now rewrite <- Nat.add_assoc in E5.
    + intros w1 Hq H1. eapply destroy_down_ok; [exact H1|now rewrite upd_same|reflexivity|].
      intros w2 H2. eapply (HE x1 w2 [] (e :: es) [] h); auto; try discriminate.
      * constructor. apply eqh_refl.
      * eapply at_ext; eauto. eapply eqh_trans; [apply upd_upd|]. cbn [length]. change (None :: repeat None (length cs)) with (repeat (@None V) (S (length cs))).
        rewrite <- repeat_plus. apply eqh_refl.
Qed.

Lemma new_array_ok {X} (x : X) cls es x' vs h h' w (Q : X -> nat -> world -> Prop) (E : X -> world -> Prop) :
  produce x cls es x' -> reads_all h es vs h' -> at_ q w h ->
  (forall b w', h b = None -> h' b = None -> at_ q w' (upd h' b (Some (map Some vs))) -> Q x' b w') ->
  (forall y w' es1 es2 vs1 h1, ~ q -> es = es1 ++ es2 -> es2 <> [] -> reads_all h es1 vs1 h1 -> at_ q w' h1 -> E y w') ->
  wp (new_array moved cls) x w Q E.
Proof.
  intros Hp Hr H HQ HE. unfold new_array, seq. apply wp_bind. eapply wp_new_block; [exact H|]. intros w1 b Hn H1.
  apply wp_bind, wp_rethrow. change 0 with (length (@nil V)). eapply (aggregate_ok b x cls es x' Hp [] vs h h'); [exact Hn|exact Hr|exact H1| |].
  - intros w2 H2 Hn'. apply wp_ret. apply HQ; auto.
  - intros y w2 es1 es2 vs1 h1 Hq E1 E2 E3 E4 H2. cbn [length Nat.add] in H2.
    eapply wp_deallocate; [exact H2|now rewrite upd_same|]. intros w3 H3. apply (HE y w3 es1 es2 vs1 h1); auto.
    eapply at_ext; eauto. eapply eqh_trans; [apply upd_upd|]. now apply upd_id.
Qed.

(** ** The expressions of a range *)
Lemma produce_rest (s : source V) k pos : pos + k < length (elements s) ->
  produce pos (repeat (advance s ;;; read s) k)
    (map (fun e => if container s then std_move e else e) (firstn k (skipn (S pos) (elements s)))) (pos + k).
Proof.
  revert pos. induction k as [|k IH]; intros pos Hk.
  - cbn [repeat firstn map]. rewrite Nat.add_0_r. constructor.
  - destruct (skipn (S pos) (elements s)) as [|e es] eqn:Es.
    { pose proof (f_equal (@length _) Es) as L. rewrite skipn_length in L. cbn [length] in L. lia. }
    cbn [repeat firstn map]. rewrite <- Nat.add_succ_comm.
    assert (En : nth_error (elements s) (S pos) = Some e).
    { rewrite <- (firstn_skipn (S pos) (elements s)), Es. rewrite nth_error_app2; rewrite firstn_length_le by lia; [|lia]. now rewrite Nat.sub_diag. }
    assert (Es' : skipn (S (S pos)) (elements s) = es).
    { pose proof (firstn_skipn (S pos) (elements s)) as F. rewrite Es in F. rewrite <- F at 1. rewrite skipn_app, firstn_length_le by lia.
      replace (S (S pos) - S pos) with 1 by lia. rewrite skipn_all2 by (rewrite firstn_length_le; lia). reflexivity. }
    econstructor.
    + intros w. unfold seq, bind, advance, read, bind, get, put. assert (pos <? length (elements s) = true) as -> by (apply Nat.ltb_lt; lia).
      rewrite En. reflexivity.
    + rewrite <- Es'. apply IH. lia.
Qed.
Lemma produce_range (s : source V) : elements s <> [] ->
  produce 0 (read s :: repeat (advance s ;;; read s) (length (elements s) - 1)) (map (fun e => if container s then std_move e else e) (elements s)) (length (elements s) - 1).
Proof.
  intros Hs. destruct (elements s) as [|e es] eqn:Es; [easy|]. cbn [length Nat.sub map]. rewrite Nat.sub_0_r. econstructor.
  - intros w. unfold read, bind, get. rewrite Es. reflexivity.
  - pose proof (produce_rest s (length es) 0) as H. rewrite Es in H. cbn [length Nat.add skipn] in H. rewrite firstn_all in H. apply H. lia.
Qed.

Lemma to_array_ok (s : source V) p vs h h' w (Q : nat -> nat -> world -> Prop) (E : nat -> world -> Prop) :
  let es := map (fun e => if container s then std_move e else e) (elements s) in
  reads_all h es vs h' -> at_ q w h ->
  (forall b w' pos, h b = None -> h' b = None -> at_ q w' (upd h' b (Some (map Some vs))) -> (vs <> [] -> pos = length vs - 1) -> Q pos b w') ->
  (forall y w' es1 es2 vs1 h1, ~ q -> es = es1 ++ es2 -> es2 <> [] -> reads_all h es1 vs1 h1 -> at_ q w' h1 -> E y w') ->
  wp (to_array moved s) p w Q E.
Proof.
  intros es Hr H HQ HE. unfold to_array. destruct (Nat.eqb_spec (length (elements s)) 0) as [Hz|Hz].
  - destruct (elements s) eqn:Es; [|discriminate]. subst es. cbn [map] in *. eapply new_array_ok; [constructor|exact Hr|exact H| |].
    + intros b w' H1 H2 H3. apply HQ; auto. inversion Hr. now intros [].
    + intros. eapply HE; eauto.
  - unfold seq. apply wp_bind, wp_put. eapply new_array_ok; [apply produce_range|exact Hr|exact H| |].
    + intros He. now rewrite He in Hz.
    + intros b w' H1 H2 H3. apply HQ; auto. intros _. rewrite <- (reads_length _ _ _ _ Hr). subst es. now rewrite map_length.
    + intros. eapply HE; eauto.
Qed.

(** ** The three kinds of elements *)
Lemma reads_values h vs : reads_all h (map (@Prvalue V) vs) vs h.
Proof. induction vs; cbn; econstructor; eauto; try apply eqh_refl. split; auto. apply eqh_refl. Qed.
Lemma reads_values_parts h es1 es2 vs vs1 h1 : map (@Prvalue V) vs = es1 ++ es2 -> reads_all h es1 vs1 h1 -> eqh h1 h.
Proof.
  revert es1 vs1 h. induction vs as [|v vs IH]; intros es1 vs1 h He Hr.
  - destruct es1; [|discriminate]. inversion Hr; subst. assumption.
  - destruct es1 as [|e es1]. { inversion Hr; subst. assumption. } cbn in He. inversion He; subst. inversion Hr as [|? ? ? h2 ? ? ? Hv Hvs]; subst.
    destruct Hv as (_ & Hv). eapply eqh_trans; [|exact Hv]. eapply IH; eauto.
Qed.
Lemma reads_copies h b l1 vs l2 : h b = Some (l1 ++ map Some vs ++ l2) -> reads_all h (map (@Lvalue V b) (seq (length l1) (length vs))) vs h.
Proof.
  revert l1. induction vs as [|v vs IH]; intros l1 Hb; cbn; econstructor; eauto; try apply eqh_refl.
  - split; [|apply eqh_refl]. exists (l1 ++ map Some (v :: vs) ++ l2). split; auto. now apply nth_error_mid.
  - specialize (IH (l1 ++ [Some v])). rewrite app_length in IH. cbn in IH. rewrite Nat.add_1_r in IH. apply IH. now rewrite <- app_assoc.
Qed.
Lemma reads_lvalues_same es vs h h' : Forall (fun e => exists b i, e = @Lvalue V b i) es -> reads_all h es vs h' -> eqh h' h.
Proof.
  intros Hf. revert vs h. induction Hf as [|e es (b & i & ->) Hf IH]; intros vs h Hr; inversion Hr; subst; auto.
  eapply eqh_trans; [eapply IH; eauto|]. match goal with H : reads _ _ _ _ |- _ => apply H end.
Qed.
Lemma forall_lvalues b l : Forall (fun e => exists c i, e = @Lvalue V c i) (map (@Lvalue V b) l).
Proof. apply Forall_forall. intros e He. apply in_map_iff in He as (i & <- & _). eauto. Qed.
Lemma forall_front {A} (P : A -> Prop) l1 l2 : Forall P (l1 ++ l2) -> Forall P l1.
Proof. intros H. apply Forall_app in H. apply H. Qed.
Lemma reads_moves h b l1 vs l2 h' : h b = Some (l1 ++ map Some vs ++ l2) -> eqh h' (upd h b (Some (l1 ++ map Some (map moved vs) ++ l2))) ->
  reads_all h (map (@Xvalue V b) (seq (length l1) (length vs))) vs h'.
Proof.
  revert l1 h. induction vs as [|v vs IH]; intros l1 h Hb Hh; cbn.
  - constructor. eapply eqh_trans; [exact Hh|]. now apply upd_id.
  - eapply (reads_one _ _ _ (upd h b (Some (l1 ++ Some (moved v) :: map Some vs ++ l2)))).
    + exists l1, (map Some vs ++ l2). repeat split; auto. 
    + specialize (IH (l1 ++ [Some (moved v)]) (upd h b (Some (l1 ++ Some (moved v) :: map Some vs ++ l2)))).
      rewrite app_length in IH. cbn in IH. rewrite Nat.add_1_r in IH. apply IH.
      * rewrite upd_same, <- app_assoc. reflexivity.
      * eapply eqh_trans; [exact Hh|]. apply eqh_sym. eapply eqh_trans; [apply upd_upd|]. rewrite <- app_assoc. apply eqh_refl.
Qed.
Lemma reads_moves_parts h b l1 vs l2 es1 es2 vs1 h1 : h b = Some (l1 ++ map Some vs ++ l2) ->
  map (@Xvalue V b) (seq (length l1) (length vs)) = es1 ++ es2 -> es2 <> [] -> reads_all h es1 vs1 h1 ->
  exists k, k < length vs /\ eqh h1 (upd h b (Some (l1 ++ map Some (after_moves moved k vs) ++ l2))).
Proof.
  revert l1 h es1 vs1. induction vs as [|v vs IH]; intros l1 h es1 vs1 Hb He Hn Hr.
  - cbn in He. destruct es1; [|discriminate]. cbn in He. now subst.
  - destruct es1 as [|e es1].
    + inversion Hr; subst. exists 0. cbn [length]. split; [lia|]. eapply eqh_trans; eauto. apply eqh_sym, upd_id. exact Hb.
    + cbn in He. inversion He; subst. inversion Hr as [|? ? u h2 ? ? ? Hv Hvs]; subst. destruct Hv as (m1 & m2 & Hb2 & Hi & Hh).
      rewrite Hb in Hb2. injection Hb2 as Hb2. assert (m1 = l1 /\ u = v /\ m2 = map Some vs ++ l2) as (-> & -> & ->).
      { cbn in Hb2. clear -Hb2 Hi. revert m1 Hi Hb2. induction l1 as [|x l1 IH1]; intros [|y m1] Hi Hb2; cbn in *; try discriminate.
        - inversion Hb2. auto.
        - inversion Hb2. destruct (IH1 m1) as (-> & -> & ->); auto. }
      destruct (IH (l1 ++ [Some (moved v)]) h2 es1 vs0) as (k & Hk & Hk2); auto.
      * rewrite Hh, upd_same, <- app_assoc. reflexivity.
      * rewrite app_length. cbn. now rewrite Nat.add_1_r.
      * exists (S k). split; [cbn; lia|]. eapply eqh_trans; [exact Hk2|]. eapply eqh_trans; [eapply upd_eqh, Hh|]. eapply eqh_trans; [apply upd_upd|].
        unfold after_moves. cbn. rewrite <- app_assoc. apply eqh_refl.
Qed.

End Making.

(** ** Comparisons *)
Section Comparing.
Context {T : Type}.

Lemma flat_length k (a : nested T k) sizes : shaped k a sizes -> length (flat k a) = number_of_elements sizes.
Proof.
  revert a sizes. induction k as [|k IH]; intros a sizes; cbn.
  - now intros ->.
  - destruct sizes as [|n sizes]; [easy|]. intros (Hn & Ha). cbn [number_of_elements fold_right]. fold (number_of_elements sizes). subst n. cbn in a.
    induction Ha as [|x a Hx Ha IHa]; cbn; auto. rewrite app_length, IHa. now rewrite (IH x sizes Hx).
Qed.

(** The orders of lists of the same length, one element after the other. *)
Lemma memberwise_app (cmp : T -> T -> ordering) xs ys us vs : length xs = length ys ->
  memberwise cmp (xs ++ us) (ys ++ vs) = if differs (memberwise cmp xs ys) then memberwise cmp xs ys else memberwise cmp us vs.
Proof.
  revert ys. induction xs as [|x xs IH]; intros [|y ys] H; try discriminate; cbn; auto.
  destruct (differs (cmp x y)) eqn:D; [now rewrite D|]. apply IH. now injection H.
Qed.
Lemma three_way_flat cmp k (a b : nested T k) sizes : shaped k a sizes -> shaped k b sizes ->
  three_way cmp k a b = memberwise cmp (flat k a) (flat k b).
Proof.
  revert a b sizes. induction k as [|k IH]; intros a b sizes; cbn.
  - intros _ _. destruct (cmp a b); reflexivity.
  - destruct sizes as [|n sizes]; [easy|]. intros (Hn & Ha) (Hm & Hb). rewrite <- Hm in Hn. clear Hm. cbn in a, b. revert b Hn Hb.
    induction Ha as [|x a Hx Ha IHa]; intros [|y b] Hn Hb; try discriminate; cbn; auto.
    inversion Hb; subst. rewrite memberwise_app by (erewrite !flat_length by eassumption; reflexivity).
    rewrite <- (IH x y sizes) by assumption. rewrite IHa; auto.
Qed.
Lemma memberwise_lexicographic (cmp : T -> T -> ordering) xs ys : length xs = length ys -> lexicographic cmp xs ys (memberwise cmp xs ys).
Proof.
  revert ys. induction xs as [|x xs IH]; intros [|y ys] H; try discriminate.
  - exists 0. split; [|reflexivity]. split. { intros i Hi. lia. } discriminate.
  - cbn. destruct (differs (cmp x y)) eqn:D.
    + exists 0. split; [|reflexivity]. split. { intros i Hi. lia. } cbn. intros ? ? [= <-] [= <-] E. rewrite E in D. discriminate.
    + destruct (IH ys) as (k & (H1 & H2) & H3); [now injection H|]. exists (S k). split; [|exact H3]. split; [|exact H2].
      intros [|i] Hi; cbn; [|apply H1; lia]. exists x, y. repeat split. now destruct (cmp x y).
Qed.

Lemma members_equal_app (eqb : T -> T -> bool) xs ys us vs : length xs = length ys ->
  members_equal eqb (xs ++ us) (ys ++ vs) = members_equal eqb xs ys && members_equal eqb us vs.
Proof.
  revert ys. induction xs as [|x xs IH]; intros [|y ys] H; try discriminate; cbn; auto.
  destruct (eqb x y); auto.
Qed.
Lemma equal_flat eqb k (a b : nested T k) sizes : shaped k a sizes -> shaped k b sizes ->
  array_equal eqb k a b = members_equal eqb (flat k a) (flat k b).
Proof.
  revert a b sizes. induction k as [|k IH]; intros a b sizes; cbn.
  - intros _ _. now destruct (eqb a b).
  - destruct sizes as [|n sizes]; [easy|]. intros (Hn & Ha) (Hm & Hb). rewrite <- Hm in Hn. clear Hm. cbn in a, b. revert b Hn Hb.
    induction Ha as [|x a Hx Ha IHa]; intros [|y b] Hn Hb; try discriminate; cbn; auto.
    inversion Hb; subst. rewrite members_equal_app by (erewrite !flat_length by eassumption; reflexivity).
    rewrite <- (IH x y sizes) by assumption. rewrite IHa; auto.
Qed.
Lemma members_equal_iff (eqb : T -> T -> bool) xs ys : length xs = length ys ->
  (members_equal eqb xs ys = true <-> Forall2 (fun x y => eqb x y = true) xs ys).
Proof.
  revert ys. induction xs as [|x xs IH]; intros [|y ys] H; try discriminate; cbn.
  - split; auto.
  - destruct (eqb x y) eqn:E.
    + rewrite IH by now injection H. split; intros F; [now constructor|now inversion F].
    + split; [discriminate|]. intros F. inversion F; subst. congruence.
Qed.

(** ** Subscripts *)
Lemma nth_flat_map k (a : list (nested T k)) sizes i x j : Forall (fun x => shaped k x sizes) a -> nth_error a i = Some x -> j < number_of_elements sizes ->
  nth_error (flat_map (flat k) a) (i * number_of_elements sizes + j) = nth_error (flat k x) j.
Proof.
  intros Ha. revert i. induction Ha as [|y a Hy Ha IH]; intros [|i] Hi Hj; try discriminate; cbn.
  - injection Hi as ->. rewrite nth_error_app1; auto. now rewrite (flat_length k x sizes Hy).
  - rewrite nth_error_app2; rewrite (flat_length k y sizes Hy); [|apply Nat.le_trans with (number_of_elements sizes + i * number_of_elements sizes); apply Nat.le_add_r].
    rewrite <- (IH i Hi Hj). f_equal. rewrite <- Nat.add_assoc, Nat.add_comm. apply Nat.add_sub.
Qed.
Lemma place_below sizes path : Forall2 (fun i n => i < n) path sizes -> place sizes path < number_of_elements sizes.
Proof.
  induction 1 as [|i n path sizes Hi H IH]; cbn; [lia|]. fold (number_of_elements sizes).
  assert (S i * number_of_elements sizes <= n * number_of_elements sizes) by (apply Nat.mul_le_mono_r; lia). cbn in *. lia.
Qed.
Lemma subscript_step k (a : list (nested T k)) i path x : nth_error a i = Some x -> subscript (S k) a (i :: path) = subscript k x path.
Proof. intros E. change (match nth_error a i with Some b => subscript k b path | None => None end = subscript k x path). now rewrite E. Qed.
Lemma subscript_end k (a : list (nested T k)) i path : nth_error a i = None -> subscript (S k) a (i :: path) = None.
Proof. intros E. change (match nth_error a i with Some b => subscript k b path | None => None end = None). now rewrite E. Qed.
Lemma subscript_flat k (a : nested T k) sizes path : shaped k a sizes -> Forall2 (fun i n => i < n) path sizes ->
  subscript k a path = nth_error (flat k a) (place sizes path).
Proof.
  revert a sizes path. induction k as [|k IH]; intros a sizes path Hs Hp.
  - cbn in *. subst sizes. inversion Hp. reflexivity.
  - destruct sizes as [|n sizes]; [easy|]. inversion Hp as [|i ? p ? Hi Hp']; subst. destruct Hs as (Hn & Ha). subst n. cbn in a.
    destruct (nth_error a i) as [x|] eqn:E; [|apply nth_error_None in E; elim (Nat.lt_irrefl i); eapply Nat.lt_le_trans; [exact Hi|exact E]].
    rewrite (subscript_step k a i p x E). cbn [place flat]. rewrite (nth_flat_map k a sizes i x _ Ha E (place_below _ _ Hp')). apply IH; auto.
    eapply Forall_forall in Ha; eauto. eapply nth_error_In; eauto.
Qed.
Lemma subscript_refuses k (a : nested T k) sizes path : shaped k a sizes -> ~ Forall2 (fun i n => i < n) path sizes -> subscript k a path = None.
Proof.
  revert a sizes path. induction k as [|k IH]; intros a sizes path Hs Hp.
  - cbn in *. subst sizes. destruct path; auto. elim Hp. constructor.
  - destruct sizes as [|n sizes]; [easy|]. destruct path as [|i path]; auto. destruct Hs as (Hn & Ha). subst n. cbn in a.
    destruct (nth_error a i) as [x|] eqn:E; [|now apply subscript_end]. rewrite (subscript_step k a i path x E). apply (IH x sizes); auto.
    + eapply Forall_forall in Ha; eauto. eapply nth_error_In; eauto.
    + intros F. apply Hp. constructor; auto. change (i < @length (nested T k) a). apply nth_error_Some. rewrite E. discriminate.
Qed.
End Comparing.

(** ** In terms of worlds *)
Section Worlds.
Context {V : Type} (moved : V -> V).
Local Notation world := (world V).

Lemma start (w : world) : unused_names w -> at_ (~ someone_throws w) w (heap w).
Proof. intros H. split; [intros b; reflexivity|]. split; auto. Qed.
Lemma not_quiet (w : world) : ~ ~ someone_throws w -> someone_throws w.
Proof. intros H. destruct (in_dec Bool.bool_dec true (script w)) as [|N]; [assumption|]. elim H. exact N. Qed.
Lemma at_unused q (w : world) h : at_ q w h -> unused_names w.
Proof. intros (H1 & H2 & _) b Hb. rewrite H1. now apply H2. Qed.
Lemma at_heap q (w : world) h : at_ q w h -> same (heap w) h.
Proof. intros (H & _). exact H. Qed.

Lemma to_array_values c vs p (w : world) : unused_names w ->
  ends (to_array moved (Source c (map (@Prvalue V) vs)) p w)
    (fun pos b w' => new_in w w' b vs [] /\ (vs <> [] -> pos = length vs - 1))
    (fun _ w' => same (heap w') (heap w) /\ unused_names w' /\ someone_throws w).
Proof.
  intros Hu. assert (Em : map (fun e => if c then std_move e else e) (map (@Prvalue V) vs) = map (@Prvalue V) vs).
  { rewrite map_map. apply map_ext. now destruct c. }
  eapply (to_array_ok moved (~ someone_throws w) (Source c (map (@Prvalue V) vs)) p vs (heap w) (heap w)); cbn [elements container]; rewrite ?Em.
  - apply reads_values.
  - now apply start.
  - intros b w' pos Hn _ H Hpos. split; auto. split; auto. split; [|split].
    + unfold array_in. rewrite (at_heap _ _ _ H), upd_same. reflexivity.
    + intros b' Hb'. rewrite (at_heap _ _ _ H), upd_other; auto. intros ->. apply Hb'. now left.
    + eapply at_unused; eauto.
  - intros y w' es1 es2 vs1 h1 Hq He _ Hr H. split; [|split].
    + intros b. rewrite (at_heap _ _ _ H). eapply reads_values_parts; eauto.
    + eapply at_unused; eauto.
    + now apply not_quiet.
Qed.

Lemma to_array_copies vs b p (w : world) : unused_names w -> array_in (heap w) b vs ->
  ends (to_array moved (Source false (map (@Lvalue V b) (seq 0 (length vs)))) p w)
    (fun pos a w' => new_in w w' a vs [] /\ (vs <> [] -> pos = length vs - 1))
    (fun _ w' => same (heap w') (heap w) /\ unused_names w' /\ someone_throws w).
Proof.
  intros Hu Hb. eapply (to_array_ok moved (~ someone_throws w) (Source false (map (@Lvalue V b) (seq 0 (length vs)))) p vs (heap w) (heap w)); cbn [elements container]; rewrite ?map_id.
  - apply (reads_copies moved (heap w) b [] vs []). now rewrite app_nil_r.
  - now apply start.
  - intros a w' pos Hn _ H Hpos. split; auto. split; auto. split; [|split].
    + unfold array_in. rewrite (at_heap _ _ _ H), upd_same. reflexivity.
    + intros b' Hb'. rewrite (at_heap _ _ _ H), upd_other; auto. intros ->. apply Hb'. now left.
    + eapply at_unused; eauto.
  - intros y w' es1 es2 vs1 h1 Hq He _ Hr H. split; [|split].
    + intros b'. rewrite (at_heap _ _ _ H). eapply (reads_lvalues_same moved es1); eauto. eapply forall_front. rewrite <- He. apply forall_lvalues.
    + eapply at_unused; eauto.
    + now apply not_quiet.
Qed.

Lemma to_array_moves s vs b p (w : world) : unused_names w -> array_in (heap w) b vs ->
  map (fun e => if container s then std_move e else e) (elements s) = map (@Xvalue V b) (seq 0 (length vs)) ->
  ends (to_array moved s p w)
    (fun pos a w' => new_in w w' a vs [b] /\ array_in (heap w') b (map moved vs) /\ (vs <> [] -> pos = length vs - 1))
    (fun _ w' => (exists k, k < length vs /\ array_in (heap w') b (after_moves moved k vs)) /\ same_but [b] (heap w) (heap w') /\ unused_names w' /\ someone_throws w).
Proof.
  intros Hu Hb Es. assert (Hb' : heap w b = Some ([] ++ map Some vs ++ [])) by (rewrite app_nil_r; exact Hb).
  eapply (to_array_ok moved (~ someone_throws w) s p vs (heap w) (upd (heap w) b (Some (map Some (map moved vs))))).
  - rewrite Es. apply (reads_moves moved (heap w) b [] vs []); auto. rewrite app_nil_r. apply eqh_refl.
  - now apply start.
  - intros a w' pos Hn Hn' H Hpos. assert (a <> b). { intros ->. unfold array_in in Hb. congruence. } split; [|split]; auto.
    + split; auto. split; [|split].
      * unfold array_in. rewrite (at_heap _ _ _ H), upd_same. reflexivity.
      * intros c Hc. rewrite (at_heap _ _ _ H), !upd_other; auto; intros ->; apply Hc; cbn; auto.
      * eapply at_unused; eauto.
    + unfold array_in. rewrite (at_heap _ _ _ H), upd_other, upd_same by auto. reflexivity.
  - intros y w' es1 es2 vs1 h1 Hq He Hn Hr H. rewrite Es in He. destruct (reads_moves_parts moved _ _ _ _ _ _ _ _ _ Hb' He Hn Hr) as (k & Hk & Hh).
    rewrite app_nil_r in Hh. cbn [app] in Hh. split; [|split; [|split]].
    + exists k. split; auto. unfold array_in. rewrite (at_heap _ _ _ H), Hh, upd_same. reflexivity.
    + intros c Hc. rewrite (at_heap _ _ _ H), Hh, upd_other; auto. intros ->. apply Hc. now left.
    + eapply at_unused; eauto.
    + now apply not_quiet.
Qed.

Lemma reads_app h es1 vs1 h1 es2 vs2 h2 : reads_all moved h es1 vs1 h1 -> reads_all moved h1 es2 vs2 h2 -> reads_all moved h (es1 ++ es2) (vs1 ++ vs2) h2.
Proof.
  intros H. revert es2 vs2 h2. induction H as [h h' He|h e v h1 es vs h' Hr H IH]; intros es2 vs2 h2 H2; cbn.
  - inversion H2 as [|? ? ? h3 ? ? ? Hr Hs]; subst.
    + constructor. eapply eqh_trans; eauto.
    + econstructor; [|exact Hs]. destruct e as [u|c i|c i]; cbn in Hr |- *.
      * destruct Hr as (-> & Hr). split; auto. eapply eqh_trans; eauto.
      * destruct Hr as ((cs & Hc & Hi) & Hr). split; [|eapply eqh_trans; eauto]. exists cs. split; auto. now rewrite <- He.
      * destruct Hr as (l1 & l2 & Hc & Hi & Hr). exists l1, l2. rewrite <- He. repeat split; auto. eapply eqh_trans; [exact Hr|]. now apply upd_eqh.
  - econstructor; eauto.
Qed.
Lemma reads_repeat h b i cs v n : h b = Some cs -> nth_error cs i = Some (Some v) -> reads_all moved h (repeat (@Lvalue V b i) n) (repeat v n) h.
Proof. intros Hb Hi. induction n; cbn; econstructor; eauto; try apply eqh_refl. split; [eauto|apply eqh_refl]. Qed.

Lemma make_array_ok {X} n b l1 v l2 rvalue (x : X) (w : world) : unused_names w -> heap w b = Some (l1 ++ Some v :: l2) ->
  ends (make_array_n moved n b (length l1) rvalue x w)
    (fun _ a w' => new_in w w' a (repeat v n) [b] /\
       heap w' b = Some (l1 ++ Some (if rvalue && negb (n =? 0) then moved v else v) :: l2))
    (fun _ w' => same (heap w') (heap w) /\ unused_names w' /\ someone_throws w).
Proof.
  intros Hu Hb. unfold make_array_n. destruct (Nat.eqb_spec n 0) as [->|Hn].
  - cbn [negb]. rewrite andb_false_r. eapply (new_array_ok moved (~ someone_throws w) x [] [] x [] (heap w) (heap w)).
    + constructor.
    + constructor. apply eqh_refl.
    + now apply start.
    + intros a w' Ha _ H. assert (a <> b) by (intros ->; congruence). split; [split; auto; split; [|split]|].
      * unfold array_in. rewrite (at_heap _ _ _ H), upd_same. reflexivity.
      * intros c Hc. rewrite (at_heap _ _ _ H), upd_other; auto. intros ->. apply Hc. now left.
      * eapply at_unused; eauto.
      * rewrite (at_heap _ _ _ H), upd_other by auto. exact Hb.
    + intros y w' es1 es2 vs1 h1 _ He Hne. now destruct es1, es2.
  - cbn [negb]. rewrite andb_true_r. set (last := if rvalue then Xvalue b (length l1) else Lvalue b (length l1)).
    set (h' := upd (heap w) b (Some (l1 ++ Some (if rvalue then moved v else v) :: l2))).
    assert (Hl : reads moved (heap w) last v h').
    { subst last h'. destruct rvalue; cbn.
      - exists l1, l2. repeat split; auto. 
      - split; [|now apply upd_id]. exists (l1 ++ Some v :: l2). split; auto. now apply nth_error_mid. }
    assert (Hp : forall k, produce x (repeat (ret (@Lvalue V b (length l1))) k ++ [ret last]) (repeat (Lvalue b (length l1)) k ++ [last]) x).
    { induction k; cbn; repeat (econstructor; [reflexivity|]); try constructor; eauto. }
    assert (Hv : repeat v n = repeat v (n - 1) ++ [v]). { rewrite <- repeat_snoc. f_equal. lia. }
    eapply (new_array_ok moved (~ someone_throws w) x _ _ x (repeat v n) (heap w) h').
    + apply Hp.
    + rewrite Hv. eapply reads_app; [eapply reads_repeat; [exact Hb|now apply nth_error_mid]|]. econstructor; [exact Hl|]. constructor. apply eqh_refl.
    + now apply start.
    + intros a w' Ha _ H. assert (a <> b) by (intros ->; congruence). split; [split; auto; split; [|split]|].
      * unfold array_in. rewrite (at_heap _ _ _ H), upd_same. reflexivity.
      * intros c Hc. subst h'. rewrite (at_heap _ _ _ H), !upd_other; auto; intros ->; apply Hc; cbn; auto.
      * eapply at_unused; eauto.
      * subst h'. rewrite (at_heap _ _ _ H), upd_other, upd_same by auto. reflexivity.
    + intros y w' es1 es2 vs1 h1 Hq He Hne Hr H. split; [|split].
      * intros c. rewrite (at_heap _ _ _ H). eapply (reads_lvalues_same moved es1); eauto.
        destruct (exists_last Hne) as (es3 & e3 & ->). rewrite app_assoc in He. apply app_inj_tail in He as (He & _).
        eapply forall_front. rewrite <- He. apply Forall_forall. intros e Hin. apply repeat_spec in Hin. eauto.
      * eapply at_unused; eauto.
      * now apply not_quiet.
Qed.
End Worlds.
