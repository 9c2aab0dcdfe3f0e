(** * Lemmas about inserting an element of the container itself, and nothing *)

From Coq Require Import List Arith Bool Lia.
From Verif Require Import Mem Vec MemLemmas VecLemmas VecLemmas2 VecLemmas3.
Import ListNotations.
Local Open Scope nat_scope.

Section Generic.
Context {V : Type} (moved : V -> V) (quiet : Prop).
Local Notation world := (world V).
Local Notation contents := (@contents V).
Local Notation at_ := (at_ quiet).
Context {O : Type} (C : container (V := V) O).
Context (own : O -> block V -> contents -> contents -> Prop).
Local Notation holds_cells := (holds_cells C own).
Context (B : base_laws C own).

(** The elements from the position on have been moved by one place when the new element is made. *)
Lemma shifted_nth (l1 l2 : list V) k i u : i <> length l1 -> nth_error (l1 ++ l2) (if i <? length l1 then i else i - 1) = Some u ->
  nth_error (map Some l1 ++ [None] ++ map Some l2 ++ repeat None k) i = Some (Some u).
Proof.
  intros Hi H. destruct (Nat.ltb_spec i (length l1)).
  - rewrite nth_error_app1 in H by assumption. rewrite nth_error_app1 by (now rewrite map_length). erewrite map_nth_error; eauto.
  - rewrite nth_error_app2 in H by lia. rewrite nth_error_app2 by (rewrite map_length; lia). rewrite map_length.
    replace (i - length l1) with (S (i - 1 - length l1)) by lia. cbn. rewrite nth_error_app1; [erewrite map_nth_error; eauto|].
    rewrite map_length. apply nth_error_Some. congruence.
Qed.

Lemma insert_own_ok o b l1 l2 i u k g h w :
  at_ w h -> holds_cells o (l1 ++ l2) (S k) g h -> c_data C o = Some b -> i <> length l1 ->
  nth_error (l1 ++ l2) (if i <? length l1 then i else i - 1) = Some u ->
  wp (insert_without_reallocation moved C (length l1) [CopyOf (Some b) i] 1) o w
    (fun o' r w' => r = length l1 /\ exists h', at_ w' h' /\ holds_cells o' (l1 ++ [u] ++ l2) k g h')
    (fun o' w' => o' = o /\ at_ w' h /\ ~ quiet).
Proof.
  intros H [Ho Hs] Hb Hi Hu. unfold insert_without_reallocation. rewrite app_length in Hs.
  apply wp_bind, wp_get. apply wp_bind.
  pose proof (bl_data _ _ B _ _ _ _ Ho) as Hd. rewrite Hb in Hd |- *. destruct Hd as [Hc Hg].
  eapply wp_shift_up with (vs := l2) (k := 0) (l1 := map Some l1) (l2 := repeat None k); eauto.
  { rewrite Hc, map_app, <- app_assoc. reflexivity. }
  { now rewrite map_length. } { rewrite map_length. lia. } { lia. }
  intros w1 H1. apply wp_bind. apply wp_rethrow.
  set (h1 := upd h b _) in *.
  assert (Hyy : Forall2 (yields h1) [CopyOf (Some b) i] [u]).
  { repeat constructor. cbn. eexists. unfold h1. rewrite upd_same. split; [reflexivity|]. now apply shifted_nth. }
  eapply wp_uninitialized_copy with (l1 := map Some l1) (l2 := map Some l2 ++ repeat None k) (vs := [u]); eauto.
  { unfold h1. rewrite upd_same. reflexivity. } { now rewrite map_length. }
  - intros w2 H2. apply wp_bind.
    eapply wp_set_size with (cs := map Some (l1 ++ [u] ++ l2) ++ repeat None k) (g := g) (h := upd h1 b (Some (map Some l1 ++ map Some [u] ++ map Some l2 ++ repeat None k))); [exact B| | |].
    + eapply (bl_ext _ _ B). 2: apply eqh_refl. 2:{ apply eqh_sym, upd_upd. }
      rewrite !map_app, <- !app_assoc. eapply bl_upd; eauto.
      rewrite !app_length, !map_length, !repeat_length, !app_length. cbn. lia.
    + rewrite length_cells, !app_length. cbn. lia.
    + intros o' Ho' _ Hs'. apply wp_ret. split; auto. eexists. split; [exact H2|]. split; auto.
      rewrite Hs', !app_length. cbn. lia.
  - intros w2 Hq H2.
    eapply wp_shift_down with (vs := l2) (k := 0) (l1 := map Some l1) (l2 := repeat None k); eauto.
    { unfold h1. rewrite upd_same. reflexivity. }
    { now rewrite map_length. } { rewrite map_length. lia. } { lia. }
    intros w3 H3. split; auto. split; auto. eapply at_ext; eauto. eapply eqh_trans; [apply upd_upd|].
    apply upd_id. rewrite Hc, map_app, <- app_assoc. reflexivity.
Qed.

Lemma insert_own_dead o b l1 l2 k g h w :
  at_ w h -> holds_cells o (l1 ++ l2) (S k) g h -> c_data C o = Some b ->
  insert_without_reallocation moved C (length l1) [CopyOf (Some b) (length l1)] 1 o w = Bad Dead.
Proof.
  intros H [Ho Hs] Hb. rewrite app_length in Hs.
  pose proof (bl_data _ _ B _ _ _ _ Ho) as Hd. rewrite Hb in Hd. destruct Hd as [Hc Hg].
  assert (T : wp (uninitialized_relocate_reversed moved (Some b) (length l1) (c_size C o - length l1) (Some b) (length l1 + 1)) o w
    (fun o' _ w' => o' = o /\ exists cs, heap w' b = Some cs /\ nth_error cs (length l1) = Some None) (fun _ _ => False)).
  { eapply wp_shift_up with (vs := l2) (k := 0) (l1 := map Some l1) (l2 := repeat None k); eauto.
    { rewrite Hc, map_app, <- app_assoc. reflexivity. }
    { now rewrite map_length. } { rewrite map_length. lia. } { lia. }
    intros w1 H1. split; [reflexivity|]. eexists. split; [rewrite (proj1 H1), upd_same; reflexivity|].
    rewrite nth_error_app2 by (rewrite map_length; lia). now rewrite map_length, Nat.sub_diag. }
  unfold insert_without_reallocation. unfold bind at 1, get. rewrite Hb. unfold bind at 1. unfold wp in T.
  destruct (uninitialized_relocate_reversed _ _ _ _ _ _ o w) as [o1 [] w1|o1 w1|f]; try contradiction. destruct T as (-> & cs & Hh & Hn).
  unfold uninitialized_copy, rethrow_after, bind. cbn [copy_loop]. rewrite Nat.add_0_r. unfold bind, rethrow_after, construct_at, bind, require_raw, find_cell. rewrite Hh, Hn.
  unfold make, bind, load, find_cell. rewrite Hh, Hn. reflexivity.
Qed.

Lemma insert_empty_bad o l1 l2 k g h w :
  at_ w h -> holds_cells o (l1 ++ l2) k g h -> l2 <> [] -> insert moved C (length l1) [] o w = Bad Overwrite.
Proof.
  intros H [Ho Hs] Hl. rewrite app_length in Hs. destruct (exists_last Hl) as (l & v & ->). rewrite app_length in Hs. cbn in Hs.
  destruct (own_block _ _ B _ _ _ _ Ho) as (b & Hb & Hc & Hg). { rewrite length_cells, !app_length. cbn. lia. }
  unfold insert. unfold bind at 1, get. unfold bind at 1, require. rewrite (proj2 (Nat.leb_le (length l1) (c_size C o))) by lia. unfold ret.
  unfold bind at 1. rewrite (bl_cap _ _ B _ _ _ _ w Ho). cbn [length]. rewrite length_cells, (proj2 (Nat.leb_le (c_size C o + 0) _)) by (rewrite !app_length; cbn; lia).
  unfold insert_without_reallocation, bind at 1, get. rewrite Hb, Nat.add_0_r. replace (c_size C o - length l1) with (S (length l)) by lia.
  unfold bind at 1. cbn [uninitialized_relocate_reversed]. unfold bind at 1, construct_at, bind at 1, require_raw, find_cell. rewrite (proj1 H), Hc.
  rewrite app_assoc, map_app, <- app_assoc. rewrite nth_error_app2; rewrite map_length, app_length; [|lia]. now rewrite Nat.sub_diag.
Qed.

(** insert of one element where there is room *)
Lemma insert_has_room o l1 l2 k g h w mk : at_ w h -> holds_cells o (l1 ++ l2) (S k) g h ->
  insert moved C (length l1) [mk] o w = insert_without_reallocation moved C (length l1) [mk] 1 o w.
Proof.
  intros H [Ho Hs]. unfold insert. unfold bind at 1, get. unfold bind at 1, require. rewrite (proj2 (Nat.leb_le (length l1) (c_size C o))) by (rewrite Hs, app_length; lia). unfold ret.
  unfold bind at 1. rewrite (bl_cap _ _ B _ _ _ _ w Ho). cbn [length]. rewrite length_cells, (proj2 (Nat.leb_le (c_size C o + 1) _)) by lia. reflexivity.
Qed.
End Generic.
