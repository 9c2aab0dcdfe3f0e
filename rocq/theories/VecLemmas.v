(** * The generic container operations do what they do to a list *)

From Coq Require Import List Arith Bool Lia.
From Verif Require Import Mem MemLemmas Vec.
Import ListNotations.

Section Generic.
Context {V : Type} (moved : V -> V) (quiet : Prop).
Local Notation M := (M V).
Local Notation world := (world V).
Local Notation block := (block V).
Local Notation contents := (@contents V).
Local Notation at_ := (at_ quiet).
Context {O : Type} (C : container (V := V) O).
(** [own o cs g h]: the object [o] owns a block with cells [cs]; memory [h] consists of what [o] owns and
    of [g]. *)
Context (own : O -> block -> contents -> contents -> Prop).

Definition disposes (o : O) (g h : contents) : Prop :=
  forall w, at_ w h -> wp (c_destroy C) o w (fun _ _ w' => at_ w' g) (fun _ _ => False).

Record base_laws : Prop := {
  bl_ext : forall o cs g h g' h', own o cs g h -> eqh g g' -> eqh h h' -> own o cs g' h';
  bl_data : forall o cs g h, own o cs g h ->
    match c_data C o with Some b => h b = Some cs /\ g b = None | None => cs = [] end;
  bl_upd : forall o cs cs' g h b, own o cs g h -> c_data C o = Some b -> length cs' = length cs ->
    own o cs' g (upd h b (Some cs'));
  bl_rest : forall o cs g h b x, own o cs g h -> g b <> None -> own o cs (upd g b (Some x)) (upd h b (Some x));
  bl_keep : forall o cs g h b x, own o cs g h -> g b = Some x -> h b = Some x;
  bl_cap : forall o cs g h w, own o cs g h -> c_capacity C o w = Ret o (length cs) w;
  bl_set : forall o cs g h n w, own o cs g h -> n <= length cs ->
    exists o', c_set_size C n o w = Ret o' tt w /\ own o' cs g h /\ c_data C o' = c_data C o /\ c_size C o' = n;
  bl_max : forall o cs g h, own o cs g h -> length cs <= c_max C
}.

Context (B : base_laws).

Definition holds_cells (o : O) (vs : list V) (k : nat) (g h : contents) : Prop :=
  own o (map Some vs ++ repeat None k) g h /\ c_size C o = length vs.
Definition holds (o : O) (vs : list V) (g : contents) (w : world) : Prop :=
  exists h k, at_ w h /\ holds_cells o vs k g h.

Lemma length_cells (vs : list V) k : length (map Some vs ++ repeat None k) = length vs + k.
Proof. now rewrite app_length, map_length, repeat_length. Qed.

Lemma wp_capacity o cs g h (w : world) (Q : O -> nat -> world -> Prop) (E : O -> world -> Prop) :
  own o cs g h -> Q o (length cs) w -> @wp V O nat (c_capacity C) o w Q E.
Proof. intros H HQ. unfold wp. erewrite bl_cap; eauto. Qed.
Lemma wp_set_size o cs g h n (w : world) (Q : O -> unit -> world -> Prop) (E : O -> world -> Prop) :
  own o cs g h -> n <= length cs ->
  (forall o', own o' cs g h -> c_data C o' = c_data C o -> c_size C o' = n -> Q o' tt w) ->
  wp (c_set_size C n) o w Q E.
Proof.
  intros H Hn HQ. unfold wp. destruct (bl_set B _ _ _ _ n w H Hn) as (o' & -> & H1 & H2 & H3). auto.
Qed.

Lemma own_block o cs g h : own o cs g h -> 0 < length cs ->
  exists b, c_data C o = Some b /\ h b = Some cs /\ g b = None.
Proof.
  intros H Hl. pose proof (bl_data B _ _ _ _ H) as Hd. destruct (c_data C o) as [b|].
  - exists b. tauto.
  - subst cs. cbn in Hl. lia.
Qed.

(** Operations on the cells of an owned block. *)
Lemma wp_own_copy {X} o vs mks l1 l2 g h (x : X) w (Q : X -> unit -> world -> Prop) (E : X -> world -> Prop) :
  at_ w h -> own o (l1 ++ repeat None (length mks) ++ l2) g h -> Forall2 (yields h) mks vs ->
  (forall w' h', at_ w' h' -> own o (l1 ++ map Some vs ++ l2) g h' ->
     (forall b, c_data C o <> Some b -> h' b = h b) -> Q x tt w') ->
  (forall w', ~ quiet -> at_ w' h -> E x w') ->
  wp (uninitialized_copy moved (c_data C o) (length l1) mks) x w Q E.
Proof.
  intros H Ho Hy HQ HE. pose proof (Forall2_len _ _ _ Hy) as Hl.
  destruct mks as [|mk mks].
  - destruct vs; [|discriminate]. apply wp_uninitialized_copy_nil. eapply HQ; eauto.
  - destruct (own_block _ _ _ _ Ho) as (b & Hb & Hc & Hg).
    { rewrite !app_length, repeat_length. cbn. lia. }
    rewrite Hb. eapply wp_uninitialized_copy; eauto.
    intros w' H'. eapply HQ; [exact H'| |].
    + eapply bl_upd; eauto. rewrite !app_length, map_length, repeat_length. congruence.
    + intros b' Hb'. apply upd_other. congruence.
Qed.
Lemma wp_own_destroy {X} o vs l1 l2 g h n (x : X) w (Q : X -> unit -> world -> Prop) (E : X -> world -> Prop) :
  at_ w h -> own o (l1 ++ map Some vs ++ l2) g h -> n = length vs ->
  (forall w' h', at_ w' h' -> own o (l1 ++ repeat None n ++ l2) g h' -> Q x tt w') ->
  wp (destroy_range (c_data C o) (length l1) n) x w Q E.
Proof.
  intros H Ho -> HQ. destruct vs as [|v vs].
  - cbn. eapply HQ; eauto.
  - destruct (own_block _ _ _ _ Ho) as (b & Hb & Hc & Hg).
    { rewrite !app_length, map_length. cbn. lia. }
    rewrite Hb. eapply wp_destroy_range; eauto.
    intros w' H'. eapply HQ; [exact H'|].
    eapply bl_upd; eauto. rewrite !app_length, map_length, repeat_length. reflexivity.
Qed.

Lemma yields_keep o cs g h mk v : own o cs g h -> yields g mk v -> yields h mk v.
Proof.
  intros H Hy. destruct mk as [v'|[b|] i|[b|] i|[b|] i]; cbn in *; auto.
  destruct Hy as (cs' & Hb & Hi). exists cs'. split; auto. eapply bl_keep; eauto.
Qed.
Lemma Forall2_yields_keep o cs g h mks vs : own o cs g h -> Forall2 (yields g) mks vs -> Forall2 (yields h) mks vs.
Proof. intros H. apply Forall2_weaken. intros. eapply yields_keep; eauto. Qed.

(** Relocating from one object into a temporary that lives beside it. *)
Lemma wp_own_relocate {X} o t l1 vs l2 r1 r2 g g2 h n i j (x : X) w (Q : X -> unit -> world -> Prop) (E : X -> world -> Prop) :
  at_ w h -> own o (l1 ++ map Some vs ++ l2) g g2 -> own t (r1 ++ repeat None n ++ r2) g2 h -> n = length vs ->
  i = length l1 -> j = length r1 ->
  (forall w' g2' h', at_ w' h' -> own o (l1 ++ repeat None n ++ l2) g g2' ->
     own t (r1 ++ map Some vs ++ r2) g2' h' -> Q x tt w') ->
  wp (uninitialized_relocate moved (c_data C o) i n (c_data C t) j) x w Q E.
Proof.
  intros H Ho Ht -> -> -> HQ. destruct vs as [|v vs].
  - apply wp_uninitialized_relocate_0. eapply HQ; eauto.
  - destruct (own_block _ _ _ _ Ho) as (b & Hb & Hc & Hg). { rewrite !app_length, map_length. cbn. lia. }
    destruct (own_block _ _ _ _ Ht) as (b' & Hb' & Hc' & Hg'). { rewrite !app_length, repeat_length. cbn. lia. }
    assert (Hne : b <> b') by (intros ->; rewrite Hc in Hg'; discriminate).
    rewrite Hb, Hb'. eapply wp_uninitialized_relocate; eauto. { eapply bl_keep; eauto. }
    intros w' H'. eapply HQ; [exact H'| |].
    + eapply bl_upd; eauto. rewrite !app_length, map_length, repeat_length. reflexivity.
    + eapply (bl_upd B t); [eapply (bl_rest B t); [exact Ht|]|exact Hb'|].
      * rewrite Hc. discriminate.
      * rewrite !app_length, map_length, repeat_length. reflexivity.
Qed.

Lemma nil_app_eq {A} (l : list A) : l = [] ++ l. Proof. reflexivity. Qed.

(** ** Operations that do not allocate *)
Lemma into_capacity_ok mk v o vs k g h w :
  at_ w h -> holds_cells o vs (S k) g h -> yields h mk v ->
  wp (lazy_push_back_into_capacity moved C mk) o w
    (fun o' _ w' => exists h', at_ w' h' /\ holds_cells o' (vs ++ [v]) k g h')
    (fun o' w' => o' = o /\ at_ w' h /\ ~ quiet).
Proof.
  intros H [Ho Hs] Hy. unfold lazy_push_back_into_capacity.
  apply wp_bind, wp_get. apply wp_bind. eapply wp_capacity; eauto.
  rewrite length_cells. apply wp_bind. apply wp_require. { rewrite Hs. apply Nat.ltb_lt. lia. }
  apply wp_bind.
  destruct (own_block _ _ _ _ Ho) as (b & Hb & Hc & Hg). { rewrite length_cells. lia. }
  rewrite Hb. eapply wp_construct with (l1 := map Some vs) (l2 := repeat None k); eauto.
  { rewrite map_length. exact Hs. }
  intros w' H'.
  assert (Ho' : own o (map Some (vs ++ [v]) ++ repeat None k) g (upd h b (Some (map Some vs ++ Some v :: repeat None k)))).
  { rewrite map_app. cbn [map]. rewrite <- app_cons_assoc. eapply bl_upd; eauto.
    rewrite !app_length. cbn. rewrite repeat_length. lia. }
  eapply wp_set_size; eauto. { rewrite length_cells, app_length. cbn. lia. }
  intros o' Ho'' _ Hs'. eexists. split; [exact H'|]. split; [exact Ho''|].
  rewrite Hs', app_length. cbn. lia.
Qed.

Lemma pop_back_ok o vs v k g h w :
  at_ w h -> holds_cells o (vs ++ [v]) k g h ->
  wp (pop_back C) o w
    (fun o' _ w' => exists h', at_ w' h' /\ holds_cells o' vs (S k) g h') (fun _ _ => False).
Proof.
  intros H [Ho Hs]. unfold pop_back. apply wp_bind, wp_get.
  rewrite app_length in Hs. cbn in Hs.
  apply wp_bind. destruct (Nat.eqb_spec (c_size C o) 0); [lia|]. apply wp_ret.
  apply wp_bind.
  destruct (own_block _ _ _ _ Ho) as (b & Hb & Hc & Hg). { rewrite length_cells, app_length. cbn. lia. }
  rewrite Hb. eapply wp_destroy with (l1 := map Some vs) (l2 := repeat None k) (v := v); eauto.
  { rewrite Hc, map_app. cbn [map]. now rewrite <- app_assoc. }
  { rewrite map_length. lia. }
  intros w' H'.
  assert (Ho' : own o (map Some vs ++ repeat None (S k)) g (upd h b (Some (map Some vs ++ None :: repeat None k)))).
  { cbn [repeat]. eapply bl_upd; eauto. rewrite !app_length, !map_length, app_length. cbn. lia. }
  eapply wp_set_size; eauto. { rewrite length_cells. lia. }
  intros o' Ho'' _ Hs'. eexists. split; [exact H'|]. split; [exact Ho''|]. lia.
Qed.

Lemma clear_ok o vs k g h w :
  at_ w h -> holds_cells o vs k g h ->
  wp (clear C) o w
    (fun o' _ w' => exists h', at_ w' h' /\ holds_cells o' [] (length vs + k) g h') (fun _ _ => False).
Proof.
  intros H [Ho Hs]. unfold clear. apply wp_bind, wp_get. apply wp_bind.
  eapply (wp_own_destroy o vs [] (repeat None k)); eauto.
  intros w' h' H' Ho'. cbn [app] in Ho'. rewrite Hs, <- repeat_plus in Ho'.
  eapply wp_set_size; eauto. { lia. }
  intros o' Ho'' _ Hs'. eexists. split; [exact H'|]. split; [exact Ho''|]. exact Hs'.
Qed.

Lemma erase_to_end_ok o vs us k g h w position :
  at_ w h -> holds_cells o (vs ++ us) k g h -> position = length vs ->
  wp (erase_to_end C position) o w
    (fun o' _ w' => exists h', at_ w' h' /\ holds_cells o' vs (length us + k) g h') (fun _ _ => False).
Proof.
  intros H [Ho Hs] ->. unfold erase_to_end. apply wp_bind, wp_get. rewrite app_length in Hs.
  apply wp_bind. apply wp_require. { apply Nat.leb_le. lia. }
  apply wp_bind. replace (length vs) with (length (map Some vs)) at 1 by apply map_length.
  eapply (wp_own_destroy o us (map Some vs) (repeat None k)); eauto.
  { rewrite app_assoc, <- map_app. exact Ho. } { lia. }
  intros w' h' H' Ho'. replace (c_size C o - length vs) with (length us) in Ho' by lia. rewrite <- repeat_plus in Ho'.
  eapply wp_set_size; eauto. { rewrite length_cells. lia. }
  intros o' Ho'' _ Hs'. eexists. split; [exact H'|]. split; [exact Ho''|]. lia.
Qed.

(** The loop of erase: [ds] are the elements still to be overwritten, [ss] those that follow. *)
Lemma erase_loop_ok p fuel target source last l1 ds ss gap l2 h (o : O) w (Q : O -> nat * nat -> world -> Prop) (E : O -> world -> Prop) :
  at_ w h -> h p = Some (l1 ++ map Some ds ++ repeat None gap ++ map Some ss ++ l2) ->
  target = length l1 -> fuel = length ds -> source = target + fuel + gap -> last = source + length ss ->
  (forall w' n, n = Nat.min (length ds) (length ss) ->
     at_ w' (upd h p (Some (l1 ++ map Some (firstn n ss) ++ map Some (skipn n ds) ++ repeat None (gap + n) ++ map Some (skipn n ss) ++ l2))) ->
     Q o (target + n, source + n) w') ->
  wp (erase_loop moved (Some p) target fuel source last) o w Q E.
Proof.
  revert target source l1 ds ss gap h w. induction fuel as [|fuel IH]; intros target source l1 ds ss gap h w H Hb Ht Hf Hsrc Hl HQ.
  - destruct ds; [|discriminate]. cbn [erase_loop]. apply wp_ret.
    specialize (HQ w 0 eq_refl). rewrite !Nat.add_0_r in HQ. apply HQ. eapply at_ext; eauto.
    cbn [firstn skipn map app]. apply eqh_sym, upd_id. exact Hb.
  - destruct ds as [|d ds]; [discriminate|]. injection Hf as Hf.
    cbn [erase_loop]. destruct (Nat.eqb_spec source last).
    + destruct ss; [|cbn in Hl; lia]. apply wp_ret. specialize (HQ w 0 eq_refl).
      rewrite !Nat.add_0_r in HQ. apply HQ. eapply at_ext; eauto.
      cbn [firstn skipn map app]. apply eqh_sym, upd_id. exact Hb.
    + destruct ss as [|s ss]; [cbn in Hl; lia|].
      apply wp_bind. eapply wp_destroy; eauto. { rewrite Hb. reflexivity. }
      intros w1 H1. apply wp_bind.
      eapply wp_relocate_down with (l1 := l1) (l2 := map Some ds ++ repeat None gap) (l3 := map Some ss ++ l2) (v := s); eauto.
      { rewrite upd_same. rewrite <- app_assoc. reflexivity. }
      { rewrite app_length, map_length, repeat_length. lia. }
      intros w2 H2. eapply IH with (l1 := l1 ++ [Some s]) (ds := ds) (ss := ss) (gap := S gap).
      * exact H2.
      * rewrite upd_same, <- app_cons_assoc, <- app_assoc. cbn [repeat app]. rewrite repeat_app_cons. reflexivity.
      * rewrite app_length. cbn. lia.
      * assumption.
      * lia.
      * cbn in Hl. lia.
      * clear n. intros w3 n Hn H3. replace (S target + n, S source + n) with (target + S n, source + S n) by (f_equal; lia).
        apply HQ. { cbn. lia. }
        eapply at_ext; eauto. eapply eqh_trans; [apply upd_upd|]. eapply eqh_trans; [apply upd_upd|].
        cbn [firstn skipn map app]. rewrite <- app_cons_assoc.
        replace (S gap + n) with (gap + S n) by lia. apply eqh_refl.
Qed.

Lemma repeat_shift n m : repeat (@None V) n ++ repeat None m = repeat None m ++ repeat None n.
Proof. rewrite <- !repeat_plus. f_equal. lia. Qed.

Lemma erase_ok o l1 ds ss k g h w first middle :
  at_ w h -> holds_cells o (l1 ++ ds ++ ss) k g h -> first = length l1 -> middle = length l1 + length ds ->
  wp (erase moved C first middle) o w
    (fun o' r w' => r = first /\ exists h', at_ w' h' /\ holds_cells o' (l1 ++ ss) (length ds + k) g h') (fun _ _ => False).
Proof.
  intros H [Ho Hs] -> ->. unfold erase. rewrite !app_length in Hs.
  destruct (Nat.eqb_spec (length l1) (length l1 + length ds)) as [Hz|Hz].
  - destruct ds; [|cbn in *; lia]. apply wp_ret. split; [cbn; lia|]. exists h. split; auto.
    split; [exact Ho|]. rewrite app_length. cbn in *. lia.
  - apply wp_bind, wp_get. apply wp_bind. apply wp_require. { apply andb_true_intro. split; apply Nat.leb_le; lia. }
    apply wp_bind.
    destruct (own_block _ _ _ _ Ho) as (b & Hb & Hc & Hg). { rewrite length_cells, !app_length. lia. }
    rewrite Hb. eapply erase_loop_ok with (l1 := map Some l1) (ds := ds) (ss := ss) (gap := 0) (l2 := repeat None k); eauto.
    { rewrite Hc. f_equal. now rewrite !map_app, <- !app_assoc. }
    { now rewrite map_length. } { lia. } { lia. } { lia. }
    intros w1 n Hn H1. cbn [fst snd]. rewrite Nat.add_0_l in H1.
    apply wp_bind.
    assert (Hfin : forall w' h', at_ w' h' -> own o (map Some (l1 ++ ss) ++ repeat None (length ds + k)) g h' ->
      wp (c_set_size C (c_size C o - (length l1 + length ds - length l1)) ;;; ret (length l1)) o w'
        (fun o' r w' => r = length l1 /\ exists h', at_ w' h' /\ holds_cells o' (l1 ++ ss) (length ds + k) g h') (fun _ _ => False)).
    { intros w' h' H' Ho'. apply wp_bind. eapply wp_set_size; eauto. { rewrite length_cells, app_length. lia. }
      intros o' Ho'' _ Hs'. apply wp_ret. split; auto. exists h'. split; auto. split; auto.
      rewrite Hs', app_length. lia. }
    destruct (Nat.eqb_spec (length l1 + length ds + n) (c_size C o)) as [He|He]; cbn [negb].
    + assert (Hss : length ss <= length ds) by lia.
      replace (firstn n ss) with ss in H1 by (symmetry; apply firstn_all2; lia).
      replace (skipn n ss) with (@nil V) in H1 by (symmetry; apply skipn_all2; lia).
      replace (length l1 + length ds - (length l1 + n)) with (length (skipn n ds)) by (rewrite skipn_length; lia).
      eapply wp_destroy_range with (vs := skipn n ds) (l1 := map Some (l1 ++ ss)); eauto.
      { rewrite upd_same. rewrite map_app, <- app_assoc. reflexivity. }
      { rewrite map_length, app_length. lia. }
      intros w2 H2. eapply Hfin. { exact H2. }
      eapply (bl_ext B). 2: apply eqh_refl. 2:{ apply eqh_sym. apply upd_upd. }
      cbn [map app]. rewrite <- !repeat_plus. rewrite skipn_length.
      replace (length ds - n + (n + k)) with (length ds + k) by lia.
      eapply bl_upd; eauto. rewrite !length_cells, !app_length. lia.
    + assert (Hss : n = length ds) by lia.
      replace (skipn n ds) with (@nil V) in H1 by (symmetry; apply skipn_all2; lia).
      cbn [map app] in H1.
      assert (Hpos : 0 < length ds) by lia. destruct (length ds) as [|d'] eqn:Ed; [lia|]. assert (Hle : S d' <= length ss) by lia. clear Hn; subst n.
      eapply wp_shift_down with (vs := skipn (S d') ss) (k := d') (l1 := map Some (l1 ++ firstn (S d') ss)) (l2 := repeat None k); eauto.
      { rewrite upd_same, map_app, <- app_assoc. reflexivity. }
      { rewrite map_length, app_length, firstn_length. lia. }
      { rewrite map_length, app_length, firstn_length. lia. }
      { rewrite skipn_length. lia. }
      intros w2 H2. eapply Hfin. { exact H2. }
      eapply (bl_ext B). 2: apply eqh_refl. 2:{ apply eqh_sym. apply upd_upd. }
      rewrite app_assoc, <- map_app, <- app_assoc, firstn_skipn, <- repeat_plus.
      eapply bl_upd; eauto. rewrite !length_cells, !app_length. lia.
Qed.

(** ** insert without reallocation *)
Lemma insert_without_reallocation_ok o l1 l2 mks us k g h w position n :
  at_ w h -> holds_cells o (l1 ++ l2) (S n + k) g h -> position = length l1 -> length mks = S n ->
  (forall h', (forall b, c_data C o <> Some b -> h' b = h b) ->
     (forall b, c_data C o = Some b -> forall i v, i < position ->
        nth_error (l1 ++ l2) i = Some v -> exists cs, h' b = Some cs /\ nth_error cs i = Some (Some v)) ->
     Forall2 (yields h') mks us) ->
  wp (insert_without_reallocation moved C position mks (S n)) o w
    (fun o' r w' => r = position /\ exists h', at_ w' h' /\ holds_cells o' (l1 ++ us ++ l2) k g h')
    (fun o' w' => o' = o /\ at_ w' h /\ ~ quiet).
Proof.
  intros H [Ho Hs] -> Hm Hy. unfold insert_without_reallocation. rewrite app_length in Hs.
  apply wp_bind, wp_get. apply wp_bind.
  destruct (own_block _ _ _ _ Ho) as (b & Hb & Hc & Hg). { rewrite length_cells, !app_length. lia. }
  rewrite Hb.
  eapply wp_shift_up with (vs := l2) (k := n) (l1 := map Some l1) (l2 := repeat None k); eauto.
  { rewrite Hc, map_app, <- app_assoc, <- repeat_plus. reflexivity. }
  { now rewrite map_length. } { rewrite map_length. lia. } { lia. }
  intros w1 H1. apply wp_bind. apply wp_rethrow.
  set (h1 := upd h b _) in *.
  assert (Hyy : Forall2 (yields h1) mks us).
  { apply Hy.
    - intros b' Hb'. apply upd_other. congruence.
    - intros b' Hb' i v Hi Hnth. rewrite Hb in Hb'. injection Hb' as <-.
      unfold h1. rewrite upd_same. eexists. split; [reflexivity|].
      rewrite nth_error_app1 by (now rewrite map_length). rewrite nth_error_app1 in Hnth by assumption.
      erewrite map_nth_error; eauto. }
  pose proof (Forall2_len _ _ _ Hyy) as Hlen.
  eapply wp_uninitialized_copy with (l1 := map Some l1) (l2 := map Some l2 ++ repeat None k) (vs := us); eauto.
  { unfold h1. rewrite upd_same, Hm. reflexivity. } { now rewrite map_length. }
  - intros w2 H2. apply wp_bind.
    eapply wp_set_size with (cs := map Some (l1 ++ us ++ l2) ++ repeat None k) (g := g) (h := upd h1 b (Some (map Some l1 ++ map Some us ++ map Some l2 ++ repeat None k))).
    + eapply (bl_ext B). 2: apply eqh_refl. 2:{ apply eqh_sym, upd_upd. }
      rewrite !map_app, <- !app_assoc. eapply bl_upd; eauto.
      rewrite !app_length, !map_length, !app_length, !repeat_length. lia.
    + rewrite length_cells, !app_length. lia.
    + intros o' Ho' _ Hs'. apply wp_ret. split; auto. eexists. split; [exact H2|]. split; auto.
      rewrite Hs', !app_length. lia.
  - intros w2 Hq H2.
    eapply wp_shift_down with (vs := l2) (k := n) (l1 := map Some l1) (l2 := repeat None k); eauto.
    { unfold h1. rewrite upd_same. reflexivity. }
    { now rewrite map_length. } { rewrite map_length. lia. } { lia. }
    intros w3 H3. split; auto. split; auto. eapply at_ext; eauto. eapply eqh_trans; [apply upd_upd|].
    apply upd_id. rewrite Hc, map_app, <- app_assoc, <- repeat_plus. reflexivity.
Qed.

(** ** erase_if *)
Lemma find_if_ok p from n (pr : V -> bool) l1 vs l2 h (o : O) w (Q : O -> nat -> world -> Prop) (E : O -> world -> Prop) :
  at_ w h -> h p = Some (l1 ++ map Some vs ++ l2) -> from = length l1 -> n = length vs ->
  (forall w' pre suf, vs = pre ++ suf -> forallb (fun v => negb (pr v)) pre = true ->
     match suf with [] => True | v :: _ => pr v = true end -> at_ w' h -> Q o (from + length pre) w') ->
  (forall w', ~ quiet -> at_ w' h -> E o w') ->
  wp (find_if (Some p) from n pr) o w Q E.
Proof.
  intros H Hb -> -> HQ HE. revert l1 w H Hb HQ. induction vs as [|v vs IH]; intros l1 w H Hb HQ; cbn [find_if length].
  - apply wp_ret. specialize (HQ w [] [] eq_refl eq_refl I H). cbn in HQ. rewrite Nat.add_0_r in HQ. exact HQ.
  - apply wp_bind. eapply wp_load; eauto. { apply nth_error_mid. reflexivity. }
    apply wp_bind. eapply wp_may_throw; eauto. intros w1 H1.
    destruct (pr v) eqn:Ep.
    + apply wp_ret. specialize (HQ w1 [] (v :: vs) eq_refl eq_refl Ep H1). cbn in HQ. rewrite Nat.add_0_r in HQ. exact HQ.
    + replace (S (length l1)) with (length (l1 ++ [Some v])) by (rewrite app_length; cbn; lia).
      eapply IH; eauto. { rewrite <- app_cons_assoc. exact Hb. }
      intros w2 pre suf Hv Hp Hsuf H2.
      specialize (HQ w2 (v :: pre) suf). cbn in HQ. rewrite Ep in HQ. rewrite app_length. cbn.
      replace (length l1 + 1 + length pre) with (length l1 + S (length pre)) by lia.
      apply HQ; auto. now rewrite Hv.
Qed.

(** The loop moves the elements that stay towards the beginning; [junk] are the objects
    between [new_last] and [it]: at least one. *)
Lemma erase_if_loop_ok p it n new_last result (pr : V -> bool) l1 (junk : list V) vs l2 h0 h (o : O) w (Q : O -> nat * nat -> world -> Prop) (E : O -> world -> Prop) :
  at_ w h -> eqh h (upd h0 p (Some (l1 ++ map Some junk ++ map Some vs ++ l2))) -> junk <> [] ->
  new_last = length l1 -> it = length l1 + length junk -> n = length vs ->
  (forall w' junk', length junk' = length junk + length vs - length (filter (fun v => negb (pr v)) vs) ->
     at_ w' (upd h0 p (Some (l1 ++ map Some (filter (fun v => negb (pr v)) vs) ++ map Some junk' ++ l2))) ->
     Q o (new_last + length (filter (fun v => negb (pr v)) vs), result + length (filter (fun v => negb (pr v)) vs)) w') ->
  (forall w' all, ~ quiet -> length all = length junk + length vs -> at_ w' (upd h0 p (Some (l1 ++ map Some all ++ l2))) -> E o w') ->
  wp (erase_if_loop moved (Some p) it n new_last result pr) o w Q E.
Proof.
  intros H Hb Hj -> -> -> HQ HE.
  revert l1 junk result h w H Hb Hj HQ HE. induction vs as [|v vs IH]; intros l1 junk result h w H Hb Hj HQ HE; cbn [erase_if_loop length].
  - apply wp_ret. specialize (HQ w junk). cbn [filter length map app] in HQ. rewrite !Nat.add_0_r in HQ. apply HQ. { lia. }
    eapply at_ext; eauto.
  - assert (Hhp : h p = Some ((l1 ++ map Some junk) ++ Some v :: map Some vs ++ l2)).
    { rewrite Hb, upd_same. now rewrite <- app_assoc. }
    assert (Hexc : forall w', ~ quiet -> at_ w' h -> E o w').
    { intros w' Hq H'. apply (HE w' (junk ++ v :: vs)); auto. { rewrite app_length. cbn. lia. }
      eapply at_ext; eauto. rewrite map_app, <- app_assoc. exact Hb. }
    apply wp_bind. eapply wp_load; eauto. { rewrite nth_error_mid; [reflexivity|]. rewrite app_length, map_length. lia. }
    apply wp_bind. eapply wp_may_throw; eauto. intros w1 H1.
    destruct (pr v) eqn:Ep.
    + replace (S (length l1 + length junk)) with (length l1 + length (junk ++ [v])) by (rewrite app_length; cbn; lia).
      eapply IH with (junk := junk ++ [v]); eauto.
      * eapply eqh_trans; eauto. rewrite map_app, <- app_assoc. apply eqh_refl.
      * destruct junk; discriminate.
      * intros w2 junk' Hjl H2. cbn [filter] in HQ. rewrite Ep in HQ. cbn [negb] in HQ. apply (HQ w2 junk'); auto.
        rewrite Hjl, app_length. cbn. lia.
      * intros w2 all Hq Ha H2. apply (HE w2 all); auto. rewrite Ha, app_length. cbn. lia.
    + apply wp_bind. eapply wp_may_throw; eauto. intros w2 H2.
      destruct junk as [|j junk]; [contradiction|].
      apply wp_bind. unfold Mem.assign_at. apply wp_bind. cbn [make].
      apply wp_bind. eapply wp_load; eauto. { rewrite nth_error_mid; [reflexivity|]. rewrite app_length, map_length. cbn; lia. }
      apply wp_bind. eapply wp_store with (l1 := l1 ++ map Some (j :: junk)); eauto. { rewrite app_length, map_length. cbn; lia. }
      intros w3 H3. apply wp_ret.
      eapply wp_store with (l1 := l1) (l2 := map Some junk ++ Some (moved v) :: map Some vs ++ l2); eauto.
      { rewrite upd_same. rewrite <- app_assoc. reflexivity. }
      intros w4 H4. 
      replace (S (length l1 + length (j :: junk))) with (length (l1 ++ [Some v]) + length (junk ++ [moved v])) by (rewrite !app_length; cbn; lia).
      replace (S (length l1)) with (length (l1 ++ [Some v])) by (rewrite app_length; cbn; lia).
      eapply IH with (junk := junk ++ [moved v]).
      * exact H4.
      * eapply eqh_trans. { apply upd_upd. } eapply eqh_trans. { apply upd_eqh. exact Hb. }
        eapply eqh_trans. { apply upd_upd. }
        rewrite <- app_cons_assoc, map_app, <- app_assoc. apply eqh_refl.
      * destruct junk; discriminate.
      * intros w5 junk' Hjl H5. cbn [filter] in HQ. rewrite Ep in HQ. cbn [negb length] in HQ.
        replace (length (l1 ++ [Some v]) + length (filter (fun v0 => negb (pr v0)) vs))
          with (length l1 + S (length (filter (fun v0 => negb (pr v0)) vs))) by (rewrite app_length; cbn; lia).
        replace (S result + length (filter (fun v0 => negb (pr v0)) vs))
          with (result + S (length (filter (fun v0 => negb (pr v0)) vs))) by lia.
        apply (HQ w5 junk').
        -- rewrite Hjl, app_length. cbn. lia.
        -- rewrite <- app_cons_assoc in H5. exact H5.
      * intros w5 all Hq Ha H5. apply (HE w5 (v :: all)); auto. { cbn. rewrite Ha, app_length. cbn. lia. }
        rewrite <- app_cons_assoc in H5. exact H5.
Qed.

End Generic.
