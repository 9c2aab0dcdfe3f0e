(** * bounded_vector and static_vector satisfy the laws *)

From Coq Require Import List Arith Bool Lia.
From Verif Require Import Mem MemLemmas Vec VecLemmas VecLemmas2 VecLemmas3.
Import ListNotations.

Section Instances.
Context {V : Type} (moved : V -> V) (quiet : Prop).
Local Notation M := (M V).
Local Notation world := (world V).
Local Notation block := (block V).
Local Notation contents := (@contents V).
Local Notation at_ := (at_ quiet).

Lemma at_none (w : world) h b : at_ w h -> h b = None -> heap w b = None.
Proof. intros (H & _ & _) Hb. now rewrite H. Qed.
Lemma at_new (w : world) (h : contents) : at_ w h -> h (next w) = None.
Proof. intros (_ & H & _). apply H. lia. Qed.

(** Releasing the block that an object owns. *)
Lemma wp_release {X} b n g (cs : block) h (x : X) w (Q : X -> unit -> world -> Prop) (E : X -> world -> Prop) :
  at_ w h -> eqh h (upd g b (Some cs)) -> g b = None -> cs = repeat None n ->
  (forall w', at_ w' g -> Q x tt w') -> wp (deallocate (Some b) n) x w Q E.
Proof.
  intros H Hh Hg -> HQ. eapply wp_deallocate; eauto. { rewrite Hh, upd_same. reflexivity. }
  intros w' H'. apply HQ. eapply at_ext; eauto. eapply eqh_trans. { apply upd_eqh. exact Hh. }
  eapply eqh_trans. { apply upd_upd. } apply upd_id. exact Hg.
Qed.

Section BoundedVector.
Context (minc maxc : nat) (Hmm : minc <= maxc).
Local Notation C := (bounded_vector (V := V) moved minc maxc).

(** The object owns its block and nothing else. *)
Definition bv_own (o : bvector) (cs : block) (g h : contents) : Prop :=
  match bv_data o with
  | Some b => g b = None /\ eqh h (upd g b (Some cs)) /\ length cs = u_size (b_storage o) /\
              minc <= length cs <= maxc
  | None => cs = [] /\ u_size (b_storage o) = 0 /\ minc = 0 /\ eqh h g
  end.

Lemma bv_own_upd o cs g h : bv_own o cs g h ->
  forall b, bv_data o = Some b -> g b = None /\ h b = Some cs.
Proof.
  unfold bv_own. intros H b Hb. rewrite Hb in H. destruct H as (Hg & Hh & _). split; auto. now rewrite Hh, upd_same.
Qed.

Lemma bv_capacity_ok o cs g h (w : world) : bv_own o cs g h -> bv_capacity minc maxc o w = Ret o (length cs) w.
Proof.
  unfold bv_own, bv_capacity, bind, get. intros H. destruct (Nat.eqb_spec minc maxc) as [He|He].
  - unfold ret. f_equal. destruct (bv_data o) as [b|]; [|destruct H as (-> & ? & ? & ?); cbn; lia].
    destruct H as (_ & _ & _ & ?). lia.
  - unfold storage_capacity, bind, require. unfold bv_data in H.
    destruct (u_pointer (b_storage o)) as [b|].
    + destruct H as (_ & _ & -> & _). reflexivity.
    + destruct H as (-> & -> & _). reflexivity.
Qed.

Lemma bv_base : base_laws C bv_own.
Proof.
  constructor; cbn [bounded_vector c_data c_capacity c_set_size c_size c_max].
  - intros o cs g h g' h' H Hg Hh. unfold bv_own in *. destruct (bv_data o) as [b|].
    + destruct H as (H1 & H2 & H3). split; [now rewrite <- Hg|]. split; auto.
      eapply eqh_trans; [apply eqh_sym; exact Hh|]. eapply eqh_trans; [exact H2|]. apply upd_eqh. exact Hg.
    + destruct H as (H1 & H2 & H3 & H4). split; auto. split; auto. split; auto.
      exact (eqh_trans _ _ _ (eqh_sym _ _ Hh) (eqh_trans _ _ _ H4 Hg)).
  - intros o cs g h H. pose proof (bv_own_upd _ _ _ _ H) as Hu. change (bv_data o) with (bv_data o) in *.
    destruct (bv_data o) as [b|] eqn:Hb.
    + destruct (Hu b eq_refl); auto.
    + unfold bv_own in H. rewrite Hb in H. apply H.
  - intros o cs cs' g h b H Hb Hl. unfold bv_own in *. rewrite Hb in *. destruct H as (H1 & H2 & H3 & H4).
    repeat split; auto; try lia. eapply eqh_trans. { apply upd_eqh. exact H2. } apply upd_upd.
  - intros o cs g h b x H Hb. unfold bv_own in *. destruct (bv_data o) as [b'|].
    + destruct H as (H1 & H2 & H3). assert (b' <> b) by congruence. split. { now rewrite upd_other. }
      split; auto. eapply eqh_trans. { apply upd_eqh. exact H2. } now apply upd_comm.
    + destruct H as (H1 & H2 & H3 & H4). repeat split; auto. now apply upd_eqh.
  - intros o cs g h b x H Hb. unfold bv_own in *. destruct (bv_data o) as [b'|].
    + destruct H as (H1 & H2 & _). rewrite H2, upd_other; auto. congruence.
    + destruct H as (_ & _ & _ & H4). now rewrite H4.
  - intros. eapply bv_capacity_ok; eauto.
  - intros o cs g h n w H Hn. unfold bv_set_size, bind. rewrite (bv_capacity_ok _ _ _ _ w H).
    unfold require. destruct (Nat.leb_spec n (length cs)); [|lia]. cbn [ret get put].
    eexists. split; [reflexivity|]. split; [exact H|]. split; reflexivity.
  - intros o cs g h H. unfold bv_own in H. destruct (bv_data o); [lia|]. destruct H as (-> & _). cbn. lia.
Qed.

Local Notation bv_cells := (holds_cells C bv_own).

Lemma repeat_nil_0 {A} (a : A) k : repeat a k = [] -> k = 0.
Proof. destruct k; [auto|discriminate]. Qed.

Lemma map_Some_nil (vs : list V) (k : nat) : map Some vs ++ repeat None k = [] -> vs = [] /\ k = 0.
Proof. destruct vs; [|discriminate]. destruct k; [auto|discriminate]. Qed.

Lemma bv_disposes o vs k g h : bv_cells o vs k g h -> disposes quiet C o g h.
Proof.
  intros [Ho Hs] w H. cbn [bounded_vector c_destroy c_size] in *. unfold bv_destroy. apply wp_bind, wp_get. apply wp_bind.
  eapply (wp_own_destroy quiet C bv_own bv_base o vs [] (repeat None k)); eauto.
  intros w' h' H' Ho'. cbn [app] in Ho'. rewrite Hs, <- repeat_plus in Ho'.
  unfold deallocate_storage. unfold bv_own, bv_data in Ho'. destruct (u_pointer (b_storage o)) as [b|] eqn:Hb.
  - destruct Ho' as (Hg & Hh & Hl & _). rewrite repeat_length in Hl. rewrite <- Hl.
    eapply wp_release; eauto.
  - apply wp_ret. destruct Ho' as (_ & _ & _ & Hh). eapply at_ext; eauto.
Qed.

Lemma moved_from_disposes o g : bv_data o = None -> b_size o = 0 -> disposes quiet C o g g.
Proof.
  intros Hb Hs w H. cbn [bounded_vector c_destroy]. unfold bv_destroy. apply wp_bind, wp_get. apply wp_bind.
  rewrite Hs. cbn [destroy_range for_each]. apply wp_ret. unfold deallocate_storage. unfold bv_data in Hb. rewrite Hb.
  apply wp_ret. exact H.
Qed.

Lemma wp_allocate_storage {X} n h (x : X) w (Q : X -> storage -> world -> Prop) (E : X -> world -> Prop) :
  at_ w h ->
  (forall w' b, h b = None -> at_ w' (upd h b (Some (repeat None n))) -> Q x (Storage (Some b) n) w') ->
  (forall w', ~ quiet -> at_ w' h -> E x w') ->
  wp (allocate_storage n) x w Q E.
Proof.
  intros H HQ HE. unfold allocate_storage. apply wp_bind. eapply wp_allocate; eauto.
Qed.

Lemma bv_default_ok h w : at_ w h ->
  wp (c_default C) tt w (fun _ o w' => exists h', at_ w' h' /\ bv_cells o [] minc h h')
     (fun _ w' => at_ w' h /\ ~ quiet).
Proof.
  intros H. cbn [bounded_vector c_default]. unfold bv_default, bv_initial_storage. apply wp_bind.
  destruct (Nat.eqb_spec minc 0) as [Hz|Hz].
  - apply wp_ret, wp_ret. exists h. split; auto. split; [|reflexivity]. unfold bv_own. cbn. rewrite Hz. cbn. auto using eqh_refl.
  - eapply wp_allocate_storage; eauto. intros w' b Hb H'. apply wp_ret. eexists. split; [exact H'|]. split; [|reflexivity].
    unfold bv_own. cbn. rewrite repeat_length. repeat split; auto using eqh_refl.
Qed.

Lemma bv_move_ok o t vs k ct g g2 h w : at_ w h -> bv_own t ct g2 h -> bv_cells o vs k g g2 ->
  wp (c_move_assign C) (o, t) w
    (fun p _ w' => exists h', at_ w' h' /\ bv_own (fst p) ct g h' /\ b_size (fst p) = b_size t /\
       bv_data (snd p) = None /\ b_size (snd p) = 0)
    (fun _ _ => False).
Proof.
  intros H Ht [Ho Hs]. cbn [bounded_vector c_move_assign c_size] in *. unfold bv_move_assign. apply wp_bind, wp_get. cbn [fst snd].
  apply wp_bind. rewrite Hs.
  assert (Hdes : wp (destroy_range (bv_data o) 0 (length vs)) (o, t) w
    (fun x _ w' => x = (o, t) /\ exists h' g2', at_ w' h' /\ bv_own t ct g2' h' /\ bv_own o (repeat None (length vs + k)) g g2') (fun _ _ => False)).
  { destruct vs as [|v vs].
    - cbn. split; auto. exists h, g2. auto.
    - set (vs' := v :: vs) in *. assert (0 < length vs') by (cbn; lia). clearbody vs'.
      destruct (own_block _ _ bv_base _ _ _ _ Ho) as (b & Hb & Hc & Hg). { rewrite length_cells. lia. }
      cbn [bounded_vector c_data] in Hb. rewrite Hb.
      eapply wp_destroy_range with (vs := vs') (l1 := []) (l2 := repeat None k); eauto. { eapply (bl_keep _ _ bv_base); eauto. }
      intros w' H'. split; auto. eexists _, _. split; [exact H'|]. split.
      + eapply (bl_rest _ _ bv_base); eauto. rewrite Hc. discriminate.
      + rewrite repeat_plus. cbn [app]. eapply (bl_upd _ _ bv_base); eauto. rewrite length_cells, app_length, !repeat_length. reflexivity. }
  eapply wp_conseq; [exact Hdes| |contradiction]. cbv beta. intros x _ w1 (-> & h1 & g1 & H1 & Ht1 & Ho1).
  apply wp_bind, wp_put.
  assert (Hfin : forall w' h', at_ w' h' -> bv_own t ct g h' ->
    exists h', at_ w' h' /\ bv_own (BVector (b_storage t) (b_size t)) ct g h' /\ b_size t = b_size t /\ (None : ptr) = None /\ 0 = 0).
  { intros w' h' H' Ht'. exists h'. auto. }
  unfold deallocate_storage. unfold bv_own, bv_data in Ho1. destruct (u_pointer (b_storage o)) as [b|] eqn:Hb.
  - destruct Ho1 as (Hg & Hh & Hl & _). rewrite repeat_length in Hl. rewrite <- Hl.
    assert (Hg1b : g1 b = Some (repeat None (length vs + k))) by (rewrite Hh; apply upd_same).
    eapply wp_deallocate; eauto. { eapply (bl_keep _ _ bv_base); eauto. }
    intros w2 H2. eapply Hfin; [exact H2|].
    unfold bv_own in *. destruct (bv_data t) as [bt|] eqn:Hbt.
    + destruct Ht1 as (Hgt & Hht & Hlt). assert (bt <> b) by congruence.
      split. { rewrite Hh in Hgt. now rewrite upd_other in Hgt. }
      split; auto. intros b'. unfold upd. destruct (Nat.eqb_spec b' b) as [->|Hb'].
      * destruct (Nat.eqb_spec b bt); [congruence|auto].
      * rewrite Hht. unfold upd. destruct (Nat.eqb_spec b' bt); auto. rewrite Hh. now apply upd_other.
    + destruct Ht1 as (-> & Ht2 & Ht3 & Ht4). repeat split; auto. intros b'. unfold upd.
      destruct (Nat.eqb_spec b' b) as [->|Hb']; auto. rewrite Ht4, Hh. now apply upd_other.
  - apply wp_ret. destruct Ho1 as (_ & _ & _ & Hh). eapply Hfin; [exact H1|]. eapply (bl_ext _ _ bv_base); eauto using eqh_refl.
Qed.

Lemma wp_own_relocate' {X} o b l1 vs l2 r1 r2 g g2 h n i j (x : X) w (Q : X -> unit -> world -> Prop) (E : X -> world -> Prop) :
  at_ w h -> bv_own o (l1 ++ map Some vs ++ l2) g g2 ->
  g2 b = None -> eqh h (upd g2 b (Some (r1 ++ repeat None n ++ r2))) -> n = length vs ->
  i = length l1 -> j = length r1 ->
  (forall w' g2' h', at_ w' h' -> bv_own o (l1 ++ repeat None n ++ l2) g g2' -> g2' b = None ->
     eqh h' (upd g2' b (Some (r1 ++ map Some vs ++ r2))) -> Q x tt w') ->
  wp (uninitialized_relocate moved (bv_data o) i n (Some b) j) x w Q E.
Proof.
  intros H Ho Hb Hh -> -> -> HQ. destruct vs as [|v vs].
  - apply wp_uninitialized_relocate_0. eapply HQ; eauto.
  - destruct (own_block _ _ bv_base _ _ _ _ Ho) as (b0 & Hb0 & Hc & Hg). { rewrite !app_length, map_length. cbn. lia. }
    cbn [bounded_vector c_data] in Hb0. assert (Hne : b0 <> b) by congruence.
    rewrite Hb0. eapply wp_uninitialized_relocate; eauto. { rewrite Hh, upd_other by assumption. exact Hc. }
    { rewrite Hh. apply upd_same. }
    intros w' H'. eapply (HQ w' (upd g2 b0 (Some (l1 ++ repeat None (length (v :: vs)) ++ l2)))); [exact H'| | |].
    + eapply (bl_upd _ _ bv_base); eauto. rewrite !app_length, map_length, repeat_length. reflexivity.
    + now rewrite upd_other by congruence.
    + eapply eqh_trans. { apply upd_eqh. apply upd_eqh. exact Hh. }
      eapply eqh_trans. { apply upd_eqh. apply upd_comm. congruence. } apply upd_upd.
Qed.

Lemma bv_reserve_ok o vs k g h n w : at_ w h -> bv_cells o vs k g h -> n <= maxc ->
  wp (bv_reserve moved minc maxc n) o w
    (fun o' _ w' => exists h' k', at_ w' h' /\ bv_cells o' vs k' g h' /\
       (if n <=? length vs + k then k' = k else length vs + k' = n /\ True))
    (fun o' w' => o' = o /\ at_ w' h /\ ~ quiet).
Proof.
  intros H [Ho Hs] Hn. unfold bv_reserve. apply wp_bind.
  change (bv_capacity minc maxc) with (c_capacity C). eapply wp_capacity; [exact bv_base|exact Ho|].
  rewrite length_cells. destruct (Nat.leb_spec n (length vs + k)) as [Hle|Hgt].
  { apply wp_ret. exists h, k. split; [|split; [split|]]; auto. }
  pose proof (bl_max _ _ bv_base _ _ _ _ Ho) as Hmax. rewrite length_cells in Hmax. cbn [bounded_vector c_max] in Hmax.
  assert (Hminc : minc <= length vs + k).
  { unfold bv_own in Ho. destruct (bv_data o). - rewrite length_cells in Ho. lia. - lia. }
  apply wp_bind. unfold reservation_size. apply wp_bind. apply wp_require.
  { apply andb_true_intro. split; apply Nat.leb_le; lia. }
  apply wp_ret. replace (Nat.max n minc) with n by lia.
  apply wp_local. eapply wp_allocate_storage; eauto.
  intros w1 b Hb H1. apply wp_bind, wp_get. cbn [fst snd u_pointer]. apply wp_bind.
  cbn [bounded_vector c_size] in Hs. rewrite Hs.
  eapply (wp_own_relocate' o b [] vs (repeat None k) [] (repeat None (n - length vs))); [exact H1|exact Ho|exact Hb| |auto..|].
  { cbn [app]. rewrite <- repeat_plus. replace (length vs + (n - length vs)) with n by lia. apply eqh_refl. }
  intros w2 g2 h2 H2 Ho2 Hgb Hh2. cbn [app] in *. rewrite <- repeat_plus in Ho2.
  apply wp_bind, wp_put. cbn [u_size].
  assert (Hgb0 : g b = None). { destruct (g b) eqn:Hgb0; auto. rewrite (bl_keep _ _ bv_base _ _ _ _ _ _ Ho2 Hgb0) in Hgb. discriminate. }
  assert (Hfin : forall w' h', at_ w' h' -> eqh h' (upd g b (Some (map Some vs ++ repeat None (n - length vs)))) ->
     wp (s <- get;; deallocate_storage s) (snd (BVector (Storage (Some b) n) (length vs), Storage None n)) w'
       (fun _ _ w0 => exists h'0 k', at_ w0 h'0 /\ bv_cells (fst (BVector (Storage (Some b) n) (length vs), Storage None n)) vs k' g h'0 /\ length vs + k' = n /\ True)
       (fun _ _ => False)).
  { intros w' h' H' Hh'. apply wp_bind, wp_get. cbn. exists h', (n - length vs). split; auto. split; [|lia]. split; [|reflexivity].
    unfold bv_own. cbn. split; auto. split; auto. rewrite app_length, map_length, repeat_length. lia. }
  unfold deallocate_storage. unfold bv_own, bv_data in Ho2. destruct (u_pointer (b_storage o)) as [bo|] eqn:Hbo.
  - destruct Ho2 as (Hg & Hg2 & Hl & _). rewrite repeat_length in Hl. rewrite <- Hl.
    assert (bo <> b). { intros ->. rewrite Hg2, upd_same in Hgb. discriminate. }
    eapply wp_deallocate; eauto. { rewrite Hh2, upd_other by assumption. rewrite Hg2. apply upd_same. }
    intros w3 H3. eapply Hfin; [exact H3|].
    eapply eqh_trans. { apply upd_eqh. exact Hh2. } eapply eqh_trans. { apply upd_comm. congruence. }
    apply upd_eqh. eapply eqh_trans. { apply upd_eqh. exact Hg2. } eapply eqh_trans. { apply upd_upd. } apply upd_id. exact Hg.
  - apply wp_ret. destruct Ho2 as (_ & _ & _ & Hg2). eapply Hfin; [exact H2|].
    eapply eqh_trans; [exact Hh2|]. apply upd_eqh. exact Hg2.
Qed.

Lemma bv_realloc : minc <> maxc -> realloc_laws quiet C bv_own (fun _ => True) minc (bv_reserve moved minc maxc).
Proof.
  intros Hne. constructor.
  - cbn [bounded_vector c_reserve]. destruct (Nat.eqb_spec minc maxc); [contradiction|reflexivity].
  - intros. now apply bv_default_ok.
  - intros o cs g h H. unfold bv_own in H. destruct (bv_data o); [lia|]. destruct H as (-> & _ & -> & _). cbn. lia.
  - intros. eapply bv_disposes; eauto.
  - intros. eapply bv_reserve_ok; eauto.
  - intros. now destruct (c_set_size C n o w).
  - intros o t vs k ct g g2 h w H Ht Ho _. eapply wp_conseq. { eapply bv_move_ok; eauto. }
    + cbv beta. intros [o' t'] _ w' (h' & H' & Ho' & Hs' & Hd & Hz). exists h', h'. split; auto. split; auto. split; auto.
      apply moved_from_disposes; assumption.
    + auto.
Qed.

End BoundedVector.

Section StaticVector.
Context (capacity : nat).
Local Notation C := (static_vector (V := V) capacity).

Definition sv_own (o : svector) (cs : block) (g h : contents) : Prop :=
  g (v_place o) = None /\ eqh h (upd g (v_place o) (Some cs)) /\ length cs = capacity.

Lemma sv_base : base_laws C sv_own.
Proof.
  constructor; cbn [c_data c_capacity c_set_size c_size c_max static_vector]; unfold sv_own.
  - intros o cs g h g' h' (H1 & H2 & H3) Hg Hh. split; [now rewrite <- Hg|]. split; auto.
    eapply eqh_trans; [apply eqh_sym; exact Hh|]. eapply eqh_trans; [exact H2|]. apply upd_eqh. exact Hg.
  - intros o cs g h (H1 & H2 & H3). cbn. split; auto. rewrite H2. apply upd_same.
  - intros o cs cs' g h b (H1 & H2 & H3) Hb Hl. injection Hb as <-. repeat split; auto; try lia.
    eapply eqh_trans. { apply upd_eqh. exact H2. } apply upd_upd.
  - intros o cs g h b x (H1 & H2 & H3) Hb. assert (v_place o <> b) by congruence. split. { now rewrite upd_other. }
    split; auto. eapply eqh_trans. { apply upd_eqh. exact H2. } now apply upd_comm.
  - intros o cs g h b x (H1 & H2 & H3) Hb. rewrite H2, upd_other; auto. congruence.
  - intros o cs g h w (H1 & H2 & H3). rewrite H3. reflexivity.
  - intros o cs g h n w (H1 & H2 & H3) Hn. unfold sv_set_size, bind, require. rewrite <- H3.
    destruct (Nat.leb_spec n (length cs)); [|lia]. cbn. eexists. split; [reflexivity|]. cbn. auto.
  - intros o cs g h (H1 & H2 & H3). lia.
Qed.

Local Notation sv_cells := (holds_cells C sv_own).

Lemma sv_disposes o vs k g h : sv_cells o vs k g h -> disposes quiet C o g h.
Proof.
  intros [Ho Hs] w H. cbn [c_destroy c_size static_vector] in *. unfold sv_destroy. apply wp_bind, wp_get. apply wp_bind.
  eapply (wp_own_destroy quiet C sv_own sv_base o vs [] (repeat None k)); eauto.
  intros w' h' H' (Hg & Hh & Hl). cbn [app] in *. rewrite Hs, <- repeat_plus in *. rewrite repeat_length in Hl. rewrite <- Hl.
  eapply wp_release; eauto.
Qed.

Lemma sv_default_ok h w : at_ w h ->
  wp (c_default C) tt w (fun _ o w' => exists h', at_ w' h' /\ sv_cells o [] capacity h h') (fun _ _ => False).
Proof.
  intros H. cbn [c_default static_vector]. unfold sv_default. apply wp_bind. eapply wp_new_block; eauto.
  intros w' b Hb H'. apply wp_ret. eexists. split; [exact H'|]. split; [|reflexivity].
  unfold sv_own. cbn. rewrite repeat_length. auto using eqh_refl.
Qed.

End StaticVector.
End Instances.
