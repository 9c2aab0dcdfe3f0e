(** * sbo_vector satisfies the laws of Vec.v's generic operations *)

From Coq Require Import List Arith Bool NArith Lia.
From Verif Require Import Mem MemLemmas Vec VecLemmas VecLemmas2 VecLemmas3 VecInst Sbo.
Import ListNotations.

(** ** Splitting and recombining sizes *)
Lemma bytes_round_trip k n : (n < 128 * 256 ^ N.of_nat k)%N ->
  of_bytes (firstn k (bytes_of (S k) n) ++ [(nth k (bytes_of (S k) n) 0 mod 128)%N]) = n.
Proof.
  revert n. induction k as [|k IH]; intros n Hn.
  - change (256 ^ N.of_nat 0)%N with 1%N in Hn. cbn [bytes_of firstn nth app of_bytes].
    rewrite (N.mod_small n 256), (N.mod_small n 128) by lia. lia.
  - change (bytes_of (S (S k)) n) with ((n mod 256)%N :: bytes_of (S k) (n / 256)).
    cbn [firstn nth]. rewrite <- app_comm_cons. cbn [of_bytes]. rewrite IH.
    + pose proof (N.div_mod n 256 ltac:(lia)). lia.
    + rewrite Nat2N.inj_succ, N.pow_succ_r' in Hn. apply N.div_lt_upper_bound; lia.
Qed.

Lemma size_and_bit_enough max : (N.of_nat max < 2 ^ 63)%N ->
  (N.of_nat max < 128 * 256 ^ N.of_nat (size_and_bit_bytes max - 1))%N.
Proof.
  intros H. unfold size_and_bit_bytes.
  destruct (N.ltb_spec (2 * N.of_nat max + 1) (2 ^ 8)); [change (2 ^ 8)%N with 256%N in *; cbn; lia|].
  destruct (N.ltb_spec (2 * N.of_nat max + 1) (2 ^ 16)); [change (2 ^ 16)%N with 65536%N in *; cbn; lia|].
  destruct (N.ltb_spec (2 * N.of_nat max + 1) (2 ^ 32)); [change (2 ^ 32)%N with 4294967296%N in *; cbn; lia|].
  change (2 ^ 63)%N with 9223372036854775808%N in *.
  destruct (N.ltb_spec (2 * N.of_nat max + 1) (2 ^ 64)); [|change (2 ^ 64)%N with 18446744073709551616%N in *; lia].
  cbn; lia.
Qed.

Lemma split_recombine max n : (N.of_nat max < 2 ^ 63)%N -> n <= max ->
  recombine_size (fst (split_size_bytes max n)) (to_bit_field (snd (split_size_bytes max n))) = n.
Proof.
  intros Hm Hn. unfold recombine_size, split_size_bytes, to_bit_field. cbn [fst snd].
  rewrite bytes_round_trip. { apply Nat2N.id. }
  pose proof (size_and_bit_enough max Hm). lia.
Qed.

Lemma of_bytes_zero first last : of_bytes (first ++ [last]) = 0%N -> last = 0%N.
Proof. induction first as [|b first IH]; cbn [app of_bytes]; intros; [lia|apply IH; lia]. Qed.
Lemma of_bytes_zeros k : of_bytes (repeat 0%N k ++ [0%N]) = 0%N.
Proof. induction k; cbn [repeat app of_bytes]; [reflexivity|]. rewrite IHk. reflexivity. Qed.
Lemma recombine_zeros k first last : recombine_size first last = 0 -> recombine_size (repeat 0%N k) last = 0.
Proof.
  unfold recombine_size. intros H. assert (last = 0%N) as ->. { apply (of_bytes_zero first). lia. }
  now rewrite of_bytes_zeros.
Qed.
Lemma recombine_default k : recombine_size (repeat 0%N k) 0 = 0.
Proof. unfold recombine_size. now rewrite of_bytes_zeros. Qed.

Section Sbo.
Context {V : Type} (moved : V -> V) (quiet : Prop) (small max : nat).
Context (Hsm : small < max) (Hmax : (N.of_nat max < 2 ^ 63)%N).
Local Notation M := (M V).
Local Notation world := (world V).
Local Notation block := (block V).
Local Notation contents := (@contents V).
Local Notation at_ := (at_ quiet).
Local Notation C := (sbo_vector (V := V) moved small max).

Definition raw (n : nat) : block := repeat None n.

Definition sb_own (o : sbo) (cs : block) (g h : contents) : Prop :=
  g (s_place o) = None /\
  match s_is_large o, s_state o with
  | false, Small _ => eqh h (upd g (s_place o) (Some cs)) /\ length cs = small
  | true, Large (Some b) c _ =>
      b <> s_place o /\ g b = None /\
      eqh h (upd (upd g (s_place o) (Some (raw small))) b (Some cs)) /\ length cs = c /\ small < c <= max
  | _, _ => False
  end.

Lemma sb_own_data o cs g h : sb_own o cs g h -> exists b, sb_data o = Some b /\ h b = Some cs /\ g b = None.
Proof.
  unfold sb_own, sb_data. intros [Hp H].
  destruct (s_is_large o), (s_state o) as [f|[b|] c f]; try contradiction.
  - destruct H as (Hne & Hg & Hh & _). exists b. split; auto. split; auto. now rewrite Hh, upd_same.
  - destruct H as [Hh _]. exists (s_place o). split; auto. split; auto. now rewrite Hh, upd_same.
Qed.

Lemma sb_base : base_laws C sb_own.
Proof.
  constructor; cbn [sbo_vector c_data c_capacity c_set_size c_size c_max].
  - intros o cs g h g' h' [Hp H] Hg Hh. split; [now rewrite <- Hg|].
    destruct (s_is_large o), (s_state o) as [f|[b|] c f]; try contradiction.
    + destruct H as (H1 & H2 & H3 & H4). split; auto. split; [now rewrite <- Hg|]. split; auto.
      eapply eqh_trans; [apply eqh_sym; exact Hh|]. eapply eqh_trans; [exact H3|]. apply upd_eqh, upd_eqh. exact Hg.
    + destruct H as (H1 & H2). split; auto.
      eapply eqh_trans; [apply eqh_sym; exact Hh|]. eapply eqh_trans; [exact H1|]. apply upd_eqh. exact Hg.
  - intros o cs g h H. destruct (sb_own_data _ _ _ _ H) as (b & -> & Hb & Hg). auto.
  - intros o cs cs' g h b [Hp H] Hb Hl. split; auto. unfold sb_data in Hb.
    destruct (s_is_large o), (s_state o) as [f|[b'|] c f]; try contradiction; injection Hb as <-.
    + destruct H as (H1 & H2 & H3 & H4). repeat split; auto; try lia.
      eapply eqh_trans. { apply upd_eqh. exact H3. } apply upd_upd.
    + destruct H as (H1 & H2). split; [|lia]. eapply eqh_trans. { apply upd_eqh. exact H1. } apply upd_upd.
  - intros o cs g h b x [Hp H] Hb. assert (Hpb : s_place o <> b) by congruence. split. { now rewrite upd_other. }
    destruct (s_is_large o), (s_state o) as [f|[b'|] c f]; try contradiction.
    + destruct H as (H1 & H2 & H3 & H4). assert (Hbb : b' <> b) by congruence. split; auto. split. { now rewrite upd_other. }
      split; auto. eapply eqh_trans. { apply upd_eqh. exact H3. }
      eapply eqh_trans. { apply upd_comm. exact Hbb. } apply upd_eqh. now apply upd_comm.
    + destruct H as (H1 & H2). split; auto. eapply eqh_trans. { apply upd_eqh. exact H1. } now apply upd_comm.
  - intros o cs g h b x [Hp H] Hb. assert (Hpb : b <> s_place o) by congruence.
    destruct (s_is_large o), (s_state o) as [f|[b'|] c f]; try contradiction.
    + destruct H as (H1 & H2 & H3 & H4). rewrite H3, !upd_other; auto. congruence.
    + destruct H as (H1 & H2). now rewrite H1, upd_other.
  - intros o cs g h w [Hp H]. unfold sb_capacity, bind, get, require, ret.
    destruct (s_is_large o), (s_state o) as [f|[b'|] c f]; try contradiction.
    + destruct H as (_ & _ & _ & -> & Hc). destruct (Nat.leb_spec (small + 1) c); [|lia].
      destruct (Nat.leb_spec c max); [|lia]. reflexivity.
    + destruct H as (_ & ->). reflexivity.
  - intros o cs g h n w [Hp H] Hn. unfold sb_set_size, sb_own, sb_data, sb_size, bind, get, require, ret, put.
    destruct (s_is_large o) eqn:Hb, (s_state o) as [f|[b'|] c f] eqn:Hs; try contradiction.
    + destruct H as (H1 & H2 & H3 & H4 & H5). destruct (Nat.leb_spec n max); [|lia].
      cbn [s_is_large s_state s_last_size s_place]. rewrite split_recombine by (auto; lia). rewrite Nat.eqb_refl.
      eexists. split; [reflexivity|]. cbn [s_is_large s_state s_last_size s_place].
      rewrite split_recombine by (auto; lia). auto 8.
    + destruct H as (H1 & H2). destruct (Nat.leb_spec n small); [|lia].
      cbn [s_is_large s_state s_last_size s_place]. rewrite split_recombine by lia. rewrite Nat.eqb_refl.
      eexists. split; [reflexivity|]. cbn [s_is_large s_state s_last_size s_place].
      rewrite split_recombine by lia. auto 8.
  - intros o cs g h [Hp H].
    destruct (s_is_large o), (s_state o) as [f|[b'|] c f]; try contradiction; lia.
Qed.

Local Notation cells := (holds_cells C sb_own).

Lemma forallb_raw n : forallb (fun c : cell V => match c with None => true | Some _ => false end) (raw n) = true.
Proof. induction n; cbn; auto. Qed.

Lemma wp_buffer_free {X} o n h (x : X) w (Q : X -> unit -> world -> Prop) (E : X -> world -> Prop) :
  at_ w h -> h (s_place o) = Some (raw n) -> Q x tt w -> wp (require_buffer_free o) x w Q E.
Proof.
  intros (H & _) Hp HQ. unfold wp, require_buffer_free. rewrite H, Hp, forallb_raw. exact HQ.
Qed.
Lemma wp_construct_state s o n h w (Q : sbo -> unit -> world -> Prop) (E : sbo -> world -> Prop) :
  at_ w h -> h (s_place o) = Some (raw n) -> Q (Sbo (s_place o) s (s_last_size o) (s_is_large o)) tt w ->
  wp (construct_state s) o w Q E.
Proof.
  intros H Hp HQ. unfold construct_state. apply wp_bind, wp_get. apply wp_bind.
  eapply wp_buffer_free; eauto.
Qed.

(** Destroying the elements and releasing the block leaves the buffer. *)
Lemma sb_destroy_contents_ok o vs k g h w :
  at_ w h -> cells o vs k g h ->
  wp sb_destroy_contents o w (fun o' _ w' => o' = o /\ at_ w' (upd g (s_place o) (Some (raw small)))) (fun _ _ => False).
Proof.
  intros H [Ho Hs]. cbn [sbo_vector c_size] in Hs. unfold sb_destroy_contents.
  apply wp_bind, wp_get. apply wp_bind. rewrite Hs.
  eapply (wp_own_destroy quiet C sb_own sb_base o vs [] (repeat None k)); eauto.
  intros w1 h1 H1 Ho1. cbn [app] in Ho1. rewrite <- repeat_plus in Ho1.
  unfold sb_deallocate_large. apply wp_bind, wp_get. destruct Ho1 as [Hp H2].
  destruct (s_is_large o), (s_state o) as [f|[b|] c f]; try contradiction.
  - destruct H2 as (Hne & Hg & Hh & Hl & Hc). rewrite repeat_length in Hl. rewrite <- Hl.
    eapply wp_release; [exact H1|exact Hh| |reflexivity|].
    + now rewrite upd_other.
    + intros w2 H3. auto.
  - destruct H2 as [Hh Hl]. rewrite repeat_length in Hl. rewrite Hl in Hh. apply wp_ret. split; auto. eapply at_ext; eauto.
Qed.

Lemma sb_disposes o vs k g h : cells o vs k g h -> disposes quiet C o g h.
Proof.
  intros Hc w H. pose proof (proj1 (proj1 Hc)) as Hp. cbn [sbo_vector c_destroy]. unfold sb_destroy. apply wp_bind.
  eapply wp_conseq; [eapply sb_destroy_contents_ok; eauto| |contradiction].
  cbv beta. intros o' _ w1 [-> H1]. apply wp_bind, wp_get.
  eapply wp_release; [exact H1|apply eqh_refl|exact Hp|reflexivity|auto].
Qed.

Lemma sb_default_ok h w : at_ w h ->
  wp (c_default C) tt w (fun _ o w' => exists h', at_ w' h' /\ cells o [] small h h' /\ s_is_large o = false) (fun _ _ => False).
Proof.
  intros H. cbn [c_default sbo_vector]. unfold sb_default. apply wp_bind. eapply wp_new_block; eauto.
  intros w' b Hb H'. apply wp_ret. eexists. split; [exact H'|]. split; [|reflexivity]. split.
  - unfold sb_own. cbn. rewrite repeat_length. auto using eqh_refl.
  - cbn [sbo_vector c_size]. unfold sb_size. cbn. apply recombine_default.
Qed.

(** Relocating the elements of the object to a block that is not its own. *)
Lemma wp_own_relocate_out {X} o b l1 vs l2 r1 r2 g g2 h n i j (x : X) w (Q : X -> unit -> world -> Prop) (E : X -> world -> Prop) :
  at_ w h -> sb_own o (l1 ++ map Some vs ++ l2) g g2 ->
  g2 b = None -> eqh h (upd g2 b (Some (r1 ++ repeat None n ++ r2))) -> n = length vs ->
  i = length l1 -> j = length r1 ->
  (forall w' g2' h', at_ w' h' -> sb_own o (l1 ++ repeat None n ++ l2) g g2' -> g2' b = None ->
     eqh h' (upd g2' b (Some (r1 ++ map Some vs ++ r2))) -> Q x tt w') ->
  wp (uninitialized_relocate moved (sb_data o) i n (Some b) j) x w Q E.
Proof.
  intros H Ho Hb Hh -> -> -> HQ. destruct vs as [|v vs].
  - apply wp_uninitialized_relocate_0. eapply HQ; eauto.
  - destruct (sb_own_data _ _ _ _ Ho) as (b0 & Hb0 & Hc & Hg).
    assert (Hne : b0 <> b) by congruence.
    rewrite Hb0. eapply wp_uninitialized_relocate; eauto. { rewrite Hh, upd_other by assumption. exact Hc. }
    { rewrite Hh. apply upd_same. }
    intros w' H'. eapply (HQ w' (upd g2 b0 (Some (l1 ++ repeat None (length (v :: vs)) ++ l2)))); [exact H'| | |].
    + eapply (bl_upd _ _ sb_base); eauto. rewrite !app_length, map_length, repeat_length. reflexivity.
    + now rewrite upd_other by congruence.
    + eapply eqh_trans. { apply upd_eqh. apply upd_eqh. exact Hh. }
      eapply eqh_trans. { apply upd_eqh. apply upd_comm. congruence. } apply upd_upd.
Qed.

(** Taking the contents of another object into an object whose buffer is free. The other object
    is left empty. *)
Lemma sb_take_ok o t ct g g2 h w :
  g (s_place o) = None -> eqh g2 (upd g (s_place o) (Some (raw small))) ->
  at_ w h -> sb_own t ct g2 h ->
  (s_is_large t = true \/ exists us j, ct = map Some us ++ repeat None j /\ sb_size t = length us) ->
  wp (sb_move_assign_to_empty moved small) (o, t) w
    (fun p _ w' => exists g' h', at_ w' h' /\ sb_own (fst p) ct g g' /\ sb_size (fst p) = sb_size t /\
       s_is_large (fst p) = s_is_large t /\ s_place (fst p) = s_place o /\ s_place (snd p) = s_place t /\
       cells (snd p) [] small g' h' /\ s_is_large (snd p) = false)
    (fun _ _ => False).
Proof.
  intros Hgo Hg2 H Ht Hcase. pose proof Ht as [Hpt Ht'].
  assert (Hpp : s_place t <> s_place o). { intros He. rewrite He, Hg2, upd_same in Hpt. discriminate. }
  assert (Hgt : g (s_place t) = None). { rewrite Hg2, upd_other in Hpt; auto. }
  unfold sb_move_assign_to_empty. apply wp_bind, wp_get. cbn [fst snd]. apply wp_bind.
  assert (Hempty : forall g' h' w', at_ w' h' -> g' (s_place t) = None -> eqh h' (upd g' (s_place t) (Some (raw small))) ->
     cells (Sbo (s_place t) (empty_small small) 0 false) [] small g' h').
  { intros g' h' w' H' Hg' Hh'. split.
    - split; cbn; auto. split; auto. unfold raw. apply repeat_length.
    - cbn [sbo_vector c_size]. unfold sb_size. cbn. apply recombine_default. }
  destruct (s_is_large t) eqn:Hl, (s_state t) as [f|[b|] c f] eqn:Hst; try contradiction.
  - destruct Ht' as (Hne & Hgb & Hh & Hlen & Hc).
    assert (Hbo : b <> s_place o). { intros ->. rewrite Hg2, upd_same in Hgb. discriminate. }
    apply wp_fst. cbn [fst snd]. eapply wp_construct_state with (n := small); [exact H| |].
    { rewrite Hh, !upd_other by congruence. rewrite Hg2. apply upd_same. }
    apply wp_bind. apply wp_snd. cbn [fst snd]. eapply wp_construct_state with (n := small); [exact H| |].
    { rewrite Hh, upd_other by congruence. apply upd_same. }
    apply wp_bind, wp_get. apply wp_put. cbn [fst snd s_place s_state s_last_size s_is_large].
    exists (upd (upd g (s_place o) (Some (raw small))) b (Some ct)), h. split; auto. split; [|split; [|split; [|split; [|split; [|split]]]]]; auto.
    + split; cbn; auto. rewrite Hl. split; auto. split. { rewrite Hg2, upd_other in Hgb; auto. } split; [apply eqh_refl|auto].
    + unfold sb_size. cbn. rewrite Hl, Hst. reflexivity.
    + apply (Hempty _ _ w); auto.
      * now rewrite !upd_other by congruence.
      * eapply eqh_trans; [exact Hh|]. eapply eqh_trans. { apply upd_comm. congruence. }
        eapply eqh_trans. { apply upd_eqh. apply upd_eqh. exact Hg2. } apply eqh_refl.
  - destruct Ht' as (Hh & Hlen). destruct Hcase as [|(us & j & -> & Hs)]; [discriminate|].
    rewrite length_cells in Hlen.
    apply wp_bind, wp_fst. cbn [fst snd]. eapply wp_construct_state with (n := small); [exact H| |].
    { rewrite Hh, upd_other by congruence. rewrite Hg2. apply upd_same. }
    apply wp_bind. rewrite Hs.
    assert (Hsplit : raw small = [] ++ repeat None (length us) ++ repeat None j).
    { cbn [app]. unfold raw. rewrite <- repeat_plus. now f_equal. }
    eapply wp_own_relocate_out with (l1 := []) (vs := us) (l2 := repeat None j) (r1 := []) (r2 := repeat None j)
      (g := g) (g2 := upd g (s_place t) (Some (map Some us ++ repeat None j))); [exact H| | | |reflexivity..|].
    { split; auto. rewrite Hl, Hst. split; [apply eqh_refl|]. cbn [app]. now rewrite length_cells. }
    { now rewrite upd_other by congruence. }
    { rewrite <- Hsplit. eapply eqh_trans; [exact Hh|]. eapply eqh_trans; [apply upd_eqh; exact Hg2|]. apply upd_comm. congruence. }
    intros w1 g1 h1 H1 Ho1 Hg1 Hh1. cbn [app] in *. rewrite <- repeat_plus, Hlen in Ho1.
    destruct Ho1 as [_ Ho1]. rewrite Hl, Hst in Ho1. destruct Ho1 as [Hg1' _].
    apply wp_fst. cbn [fst snd]. apply wp_bind, wp_get, wp_put. cbn [s_place s_state s_last_size s_is_large].
    apply wp_bind. apply wp_snd. cbn [fst snd]. eapply wp_construct_state with (n := small); [exact H1| |].
    { rewrite Hh1, upd_other by congruence. rewrite Hg1'. apply upd_same. }
    apply wp_bind, wp_get. apply wp_put. cbn [fst snd s_place s_state s_last_size s_is_large].
    exists (upd g (s_place o) (Some (map Some us ++ repeat None j))), h1. split; auto. split; [|split; [|split; [|split; [|split; [|split]]]]]; auto.
    + split; cbn; auto. rewrite Hl. split; [apply eqh_refl|]. now rewrite length_cells.
    + unfold sb_size in *. cbn. rewrite Hl in *. rewrite Hst in Hs. exact Hs.
    + apply (Hempty _ _ w1); auto.
      * now rewrite upd_other by congruence.
      * eapply eqh_trans; [exact Hh1|]. eapply eqh_trans. { apply upd_eqh. exact Hg1'. } apply upd_comm. congruence.
Qed.

Lemma sb_move_ok o t vs k ct g g2 h w : at_ w h -> sb_own t ct g2 h -> cells o vs k g g2 ->
  (s_is_large t = true \/ exists us j, ct = map Some us ++ repeat None j /\ sb_size t = length us) ->
  wp (c_move_assign C) (o, t) w
    (fun p _ w' => exists g' h', at_ w' h' /\ sb_own (fst p) ct g g' /\ sb_size (fst p) = sb_size t /\
       s_is_large (fst p) = s_is_large t /\ s_place (fst p) = s_place o /\ s_place (snd p) = s_place t /\
       cells (snd p) [] small g' h' /\ s_is_large (snd p) = false)
    (fun _ _ => False).
Proof.
  intros H Ht [Ho Hs] Hcase. cbn [sbo_vector c_move_assign]. unfold sb_move_assign. apply wp_bind, wp_fst. cbn [fst snd].
  (* destroying the contents of [o] under [t] *)
  assert (Hd : wp sb_destroy_contents o w (fun o' _ w' => o' = o /\ exists g3 h3, at_ w' h3 /\ sb_own t ct g3 h3 /\
      eqh g3 (upd g (s_place o) (Some (raw small)))) (fun _ _ => False)).
  { cbn [sbo_vector c_size] in Hs. unfold sb_destroy_contents. apply wp_bind, wp_get. apply wp_bind. rewrite Hs.
    assert (Hdes : wp (destroy_range (sb_data o) 0 (length vs)) o w
      (fun x _ w' => x = o /\ exists h' g2', at_ w' h' /\ sb_own t ct g2' h' /\ sb_own o (repeat None (length vs + k)) g g2') (fun _ _ => False)).
    { destruct vs as [|v vs].
      - cbn. split; auto. exists h, g2. auto.
      - set (vs' := v :: vs) in *. clearbody vs'.
        destruct (sb_own_data _ _ _ _ Ho) as (b & Hb & Hc & Hg). rewrite Hb.
        eapply wp_destroy_range with (vs := vs') (l1 := []) (l2 := repeat None k); eauto. { eapply (bl_keep _ _ sb_base); eauto. }
        intros w' H'. split; auto. eexists _, _. split; [exact H'|]. split.
        + eapply (bl_rest _ _ sb_base); eauto. rewrite Hc. discriminate.
        + rewrite repeat_plus. cbn [app]. eapply (bl_upd _ _ sb_base); eauto. rewrite length_cells, app_length, !repeat_length. reflexivity. }
    eapply wp_conseq; [exact Hdes| |contradiction]. cbv beta. intros x _ w1 (-> & h1 & g1 & H1 & Ht1 & Ho1).
    unfold sb_deallocate_large. apply wp_bind, wp_get. destruct Ho1 as [Hp Ho1].
    destruct (s_is_large o), (s_state o) as [f|[b|] c f]; try contradiction.
    - destruct Ho1 as (Hne & Hg & Hg1 & Hl & Hc). rewrite repeat_length in Hl. rewrite <- Hl.
      assert (Hg1b : g1 b = Some (repeat None (length vs + k))) by (rewrite Hg1; apply upd_same).
      eapply wp_deallocate; eauto. { eapply (bl_keep _ _ sb_base); eauto. }
      intros w2 H2. split; auto. eexists _, _. split; [exact H2|]. split; [|apply eqh_refl].
      destruct Ht1 as [Hpt Ht1]. assert (s_place t <> b) by congruence.
      rewrite Hg1, upd_other in Hpt by auto. split; auto.
      destruct (s_is_large t), (s_state t) as [f'|[b'|] c' f']; try contradiction.
      + destruct Ht1 as (A1 & A2 & A3 & A4). assert (b' <> b) by congruence. split; auto. split; [now rewrite Hg1, upd_other in A2|].
        split; auto. intros x. unfold upd. destruct (Nat.eqb_spec x b) as [->|].
        * destruct (Nat.eqb_spec b b'); [congruence|]. destruct (Nat.eqb_spec b (s_place t)); [congruence|].
          destruct (Nat.eqb_spec b (s_place o)); congruence.
        * rewrite A3. unfold upd. destruct (x =? b'); auto. destruct (x =? s_place t); auto. rewrite Hg1. now rewrite upd_other.
      + destruct Ht1 as (A1 & A2). split; auto. intros x. unfold upd. destruct (Nat.eqb_spec x b) as [->|].
        * destruct (Nat.eqb_spec b (s_place t)); [congruence|].
          destruct (Nat.eqb_spec b (s_place o)); congruence.
        * rewrite A1. unfold upd. destruct (x =? s_place t); auto. rewrite Hg1. now rewrite upd_other.
    - destruct Ho1 as (Hg1 & Hl). rewrite repeat_length in Hl. rewrite Hl in Hg1. apply wp_ret. split; auto. exists g1, h1. auto. }
  eapply wp_conseq; [exact Hd| |contradiction]. cbv beta. intros x _ w1 (-> & g3 & h3 & H3 & Ht3 & Hg3).
  eapply sb_take_ok; eauto. apply Ho.
Qed.

Lemma sb_reserve_ok o vs k g h n w : at_ w h -> cells o vs k g h -> n <= max ->
  wp (sb_reserve moved small max n) o w
    (fun o' _ w' => exists h' k', at_ w' h' /\ cells o' vs k' g h' /\ s_place o' = s_place o /\
       (if n <=? length vs + k then k' = k /\ o' = o else length vs + k' = n /\ s_is_large o' = true))
    (fun o' w' => o' = o /\ at_ w' h /\ ~ quiet).
Proof.
  intros H [Ho Hs] Hn. unfold sb_reserve. apply wp_bind.
  change (sb_capacity small max) with (c_capacity C). eapply wp_capacity; [exact sb_base|exact Ho|].
  rewrite length_cells. destruct (Nat.leb_spec n (length vs + k)) as [Hle|Hgt].
  { apply wp_ret. exists h, k. split; [|split; [split|]]; auto. }
  assert (Hsmall : small <= length vs + k).
  { destruct Ho as [_ Ho]. destruct (s_is_large o), (s_state o) as [f|[b|] c f]; try contradiction; rewrite length_cells in Ho; lia. }
  destruct (Nat.leb_spec n small) as [|Hns]; [lia|].
  apply wp_bind. apply wp_require. { apply andb_true_intro. split; apply Nat.leb_le; lia. }
  unfold sb_relocate_to_large. apply wp_bind. eapply wp_allocate; eauto.
  intros w1 b Hb H1. apply wp_bind, wp_get. apply wp_bind. cbn [sbo_vector c_size] in Hs. rewrite Hs.
  eapply (wp_own_relocate_out o b [] vs (repeat None k) [] (repeat None (n - length vs))); [exact H1|exact Ho|exact Hb| |auto..|].
  { cbn [app]. rewrite <- repeat_plus. replace (length vs + (n - length vs)) with n by lia. apply eqh_refl. }
  intros w2 g2 h2 H2 Ho2 Hgb Hh2. cbn [app] in *. rewrite <- repeat_plus in Ho2.
  assert (Hgb0 : g b = None). { destruct (g b) eqn:Hgb0; auto. rewrite (bl_keep _ _ sb_base _ _ _ _ _ _ Ho2 Hgb0) in Hgb. discriminate. }
  pose proof Ho2 as [Hp Ho3].
  assert (Hbp : b <> s_place o).
  { intros ->. destruct (s_is_large o), (s_state o) as [f|[b'|] c f]; try contradiction.
    - destruct Ho3 as (A1 & A2 & A3 & _). rewrite A3, upd_other, upd_same in Hgb; [discriminate|auto].
    - destruct Ho3 as (A1 & _). rewrite A1, upd_same in Hgb. discriminate. }
  apply wp_bind.
  assert (Hdone : wp sb_deallocate_large o w2 (fun o' _ w' => o' = o /\
      at_ w' (upd (upd g (s_place o) (Some (raw small))) b (Some (map Some vs ++ repeat None (n - length vs))))) (fun _ _ => False)).
  { unfold sb_deallocate_large. apply wp_bind, wp_get.
    destruct (s_is_large o), (s_state o) as [f|[b'|] c f]; try contradiction.
    - destruct Ho3 as (A1 & A2 & A3 & A4 & A5). rewrite repeat_length in A4. rewrite <- A4.
      assert (b' <> b). { intros ->. rewrite A3, upd_same in Hgb. discriminate. }
      eapply wp_deallocate; eauto. { rewrite Hh2, upd_other by assumption. rewrite A3. apply upd_same. }
      intros w3 H3. split; auto. eapply at_ext; eauto. intros x. unfold upd. 
      destruct (Nat.eqb_spec x b') as [->|].
      + destruct (Nat.eqb_spec b' b); [congruence|]. destruct (Nat.eqb_spec b' (s_place o)); [congruence|]. now rewrite A2.
      + rewrite Hh2. unfold upd. destruct (x =? b); auto. rewrite A3. now rewrite upd_other.
    - destruct Ho3 as (A1 & A2). rewrite repeat_length in A2. rewrite A2 in A1. apply wp_ret. split; auto. eapply at_ext; eauto.
      eapply eqh_trans; [exact Hh2|]. apply upd_eqh. exact A1. }
  eapply wp_conseq; [exact Hdone| |contradiction]. cbv beta. intros o' _ w3 [-> H3].
  apply wp_bind. eapply wp_construct_state with (n := small); [exact H3| |].
  { rewrite upd_other by congruence. apply upd_same. }
  apply wp_bind, wp_get, wp_put. cbn [s_place s_state].
  eexists _, (n - length vs). split; [exact H3|]. split; [|split; [reflexivity|split; [lia|reflexivity]]]. split.
  - split; auto. cbn [s_place s_state s_is_large]. split; auto. split; auto. split; [apply eqh_refl|]. rewrite length_cells. lia.
  - cbn [sbo_vector c_size]. unfold sb_size. cbn [s_is_large s_state s_last_size]. rewrite split_recombine; auto. lia.
Qed.

Lemma sb_realloc : realloc_laws quiet C sb_own (fun o => s_is_large o = true) small (sb_reserve moved small max).
Proof.
  constructor.
  - reflexivity.
  - intros h w H. eapply wp_conseq; [apply sb_default_ok; exact H| |contradiction].
    cbv beta. intros _ o w' (h' & H' & Hc & _). eauto.
  - intros o cs g h [_ Ho]. destruct (s_is_large o), (s_state o) as [f|[b|] c f]; try contradiction; lia.
  - intros. eapply sb_disposes; eauto.
  - intros o vs k g h n w H Hc Hn. eapply wp_conseq; [eapply sb_reserve_ok; eauto| |auto].
    cbv beta. intros o' _ w' (h' & k' & H' & Hc' & _ & Hk). exists h', k'. split; auto. split; auto.
    destruct (n <=? length vs + k); [apply Hk|exact Hk].
  - intros o n w Hl. cbn [sbo_vector c_set_size]. unfold sb_set_size, bind, get, put, require, ret, bad. rewrite Hl.
    destruct (s_state o) as [f|p c f]; auto. destruct (n <=? max); auto. cbn [s_is_large]. destruct (_ =? n); auto.
  - intros o t vs k ct g g2 h w H Ht Ho Hcase. eapply wp_conseq; [eapply sb_move_ok; eauto| |auto].
    cbv beta. intros [o' t'] _ w' (g' & h' & H' & Ho' & Hs' & _ & _ & _ & Ht' & _). exists g', h'. split; auto. split; auto. split; auto.
    eapply sb_disposes; eauto.
Qed.

End Sbo.
