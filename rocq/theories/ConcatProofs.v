(** * Proofs about concatenate *)

From Coq Require Import List Arith Bool Lia.
From Verif Require Import Mem MemLemmas Vec Concat SpecVec SpecConcat VecLemmas VecInst VecProofs.
Import ListNotations.

Section Proofs.
Context {V : Type} (moved : V -> V) (quiet : Prop) (minc maxc : nat) (Hlt : minc < maxc).
Local Notation M := (M V).
Local Notation world := (world V).
Local Notation memory := (@memory V).
Local Notation argument := (@argument V).
Local Notation at_ := (at_ quiet).
Local Notation vector_at := (@vector_at V minc maxc).
Local Notation apart := (@apart V).
Local Notation uses := (@uses V).

(** The storage of [o] has the cells [cs]. *)
Definition stor (o : bvector) (cs : list (option V)) (h : memory) : Prop :=
  match u_pointer (b_storage o) with
  | Some b => h b = Some cs /\ u_size (b_storage o) = length cs /\ minc <= length cs <= maxc
  | None => cs = [] /\ u_size (b_storage o) = 0 /\ minc = 0
  end.
Definition set_cells (o : bvector) (h : memory) (cs : list (option V)) : memory :=
  match u_pointer (b_storage o) with Some b => upd h b (Some cs) | None => h end.
Lemma vector_stor o vs h : vector_at o vs h <-> b_size o = length vs /\ exists s, stor o (map Some vs ++ repeat None s) h.
Proof.
  unfold SpecConcat.vector_at, stor. destruct (u_pointer (b_storage o)) as [b|].
  - split; intros [Hs (s & H)]; (split; [exact Hs|]); exists s; rewrite app_length, map_length, repeat_length in *; exact H.
  - split.
    + intros (Hs & -> & Hu & Hm). split; [exact Hs|]. exists 0. auto.
    + intros (Hs & s & He & Hu & Hm). split; [exact Hs|]. destruct vs; [auto|discriminate].
Qed.
Lemma stor_ext o cs h h' : eqh h h' -> stor o cs h -> stor o cs h'.
Proof. unfold stor, eqh. intros He. destruct (u_pointer (b_storage o)) as [b|]; [|auto]. now rewrite <- He. Qed.
Lemma stor_size o n cs h : stor (BVector (b_storage o) n) cs h <-> stor o cs h.
Proof. reflexivity. Qed.
Lemma stor_set o cs cs' h : stor o cs h -> length cs' = length cs -> stor o cs' (set_cells o h cs').
Proof.
  unfold stor, set_cells. destruct (u_pointer (b_storage o)) as [b|].
  - intros (Hb & Hu & Hr) Hl. rewrite upd_same, Hl. auto.
  - intros (-> & Hu & Hm) Hl. destruct cs'; [auto|discriminate].
Qed.
Lemma stor_capacity o cs h : stor o cs h -> u_size (b_storage o) = length cs.
Proof. unfold stor. destruct (u_pointer (b_storage o)); [tauto|]. now intros (-> & -> & _). Qed.

(** All arguments but [t] have the elements that [u] says. *)
Definition fine (base h : memory) (a : argument) (vs : list V) : Prop :=
  match a with
  | Borrowed mks => Forall2 (yields base) mks vs
  | Expiring o => vector_at o vs h
  end.
Definition good_but (t : nat) (args : list argument) (u : nat -> list V) (base h : memory) : Prop :=
  (forall k a, k <> t -> nth_error args k = Some a -> fine base h a (u k)) /\ apart args base h.
Definition emptied (a : argument) : argument :=
  match a with Borrowed mks => Borrowed mks | Expiring o => Expiring (BVector (b_storage o) 0) end.
Definition leftover (a : argument) (vs : list V) : list V := match a with Borrowed _ => vs | Expiring _ => [] end.

Lemma nth_set {A} (l : list A) k a j : nth_error (set_nth l k a) j = if (j =? k) && (j <? length l) then Some a else nth_error l j.
Proof.
  rewrite nth_error_set_nth. destruct (Nat.eqb_spec j k) as [->|]; cbn; [|reflexivity].
  destruct (Nat.ltb_spec k (length l)); [reflexivity|]. apply nth_error_None in H. now rewrite H.
Qed.
Lemma nth_set_same {A} (l : list A) k a b : nth_error l k = Some b -> nth_error (set_nth l k a) k = Some a.
Proof. intros H. rewrite nth_set, Nat.eqb_refl. assert (k < length l) by (apply nth_error_Some; congruence). destruct (Nat.ltb_spec k (length l)); [reflexivity|lia]. Qed.
Lemma nth_set_other {A} (l : list A) k a j : j <> k -> nth_error (set_nth l k a) j = nth_error l j.
Proof. intros H. rewrite nth_set. destruct (Nat.eqb_spec j k); [contradiction|reflexivity]. Qed.

(** Changing an object but not its storage. *)
Lemma uses_set args k o o' j b : nth_error args k = Some (Expiring o) -> b_storage o' = b_storage o ->
  (uses (set_nth args k (Expiring o')) j b <-> uses args j b).
Proof.
  intros Hk Hs. unfold SpecConcat.uses. destruct (Nat.eq_dec j k) as [->|Hj].
  - rewrite (nth_set_same _ _ _ _ Hk). split; intros (p & Hp0 & Hp); [exists o|exists o']; (split; [auto|congruence]).
  - rewrite nth_set_other by exact Hj. reflexivity.
Qed.
Lemma apart_set args k o o' base h : nth_error args k = Some (Expiring o) -> b_storage o' = b_storage o ->
  apart args base h -> apart (set_nth args k (Expiring o')) base h.
Proof.
  intros Hk Hs (H1 & H2 & H3). split; [|split].
  - intros i j b. rewrite !(uses_set args k o o') by auto. apply H1.
  - intros j b. rewrite (uses_set args k o o') by auto. apply H2.
  - intros b Hb. apply H3. intros j Hj. apply (Hb j). now apply (uses_set args k o o').
Qed.
Lemma apart_cells args k o base h cs : nth_error args k = Some (Expiring o) -> apart args base h -> apart args base (set_cells o h cs).
Proof.
  intros Hk (H1 & H2 & H3). split; [exact H1|]. split; [exact H2|]. intros b Hb. unfold set_cells.
  destruct (u_pointer (b_storage o)) as [b'|] eqn:E; [|auto]. rewrite upd_other; [auto|]. intros ->. apply (Hb k). exists o. auto.
Qed.
Lemma apart_ext args base h h' : eqh h h' -> apart args base h -> apart args base h'.
Proof. intros He (H1 & H2 & H3). split; [exact H1|]. split; [exact H2|]. intros b Hb. rewrite <- He. auto. Qed.
Lemma other_stor args j k oj ok base h cs cs' : nth_error args j = Some (Expiring oj) -> nth_error args k = Some (Expiring ok) -> j <> k ->
  apart args base h -> stor oj cs h -> stor oj cs (set_cells ok h cs').
Proof.
  intros Hj Hk Hn (H1 & _ & _) Hs. unfold stor, set_cells in *. destruct (u_pointer (b_storage oj)) as [b|] eqn:Ej; [|exact Hs].
  destruct (u_pointer (b_storage ok)) as [b'|] eqn:Ek; [|exact Hs]. rewrite upd_other; [exact Hs|].
  intros ->. apply Hn. apply (H1 j k b'); [exists oj|exists ok]; auto.
Qed.
Lemma fine_ext base h h' a vs : eqh h h' -> fine base h a vs -> fine base h' a vs.
Proof.
  intros He. destruct a as [mks|o]; cbn; [auto|]. rewrite !vector_stor. intros (Hs & s & H). split; [exact Hs|]. exists s. eapply stor_ext; eauto.
Qed.
Lemma fine_other args j k a ok base h cs vs : nth_error args j = Some a -> nth_error args k = Some (Expiring ok) -> j <> k ->
  apart args base h -> fine base h a vs -> fine base (set_cells ok h cs) a vs.
Proof.
  intros Hj Hk Hn Ha. destruct a as [mks|o]; cbn; [auto|]. rewrite !vector_stor. intros (Hs & s & H). split; [exact Hs|]. exists s.
  eapply (other_stor args j k); eauto.
Qed.
(** The rest of the memory is there while the arguments change. *)
Lemma yields_base args base h mk v : apart args base h -> yields base mk v -> yields h mk v.
Proof.
  intros (_ & H2 & H3). destruct mk as [v'|[b|] i|[b|] i|[b|] i]; cbn; auto. intros (cs & Hb & Hi). exists cs. split; [|exact Hi].
  rewrite H3; [exact Hb|]. intros k Hk. apply H2 in Hk. congruence.
Qed.

Lemma on_argument_wp {A} k (m : M bvector A) args o w (Q : list argument -> A -> world -> Prop) (E : list argument -> world -> Prop) :
  nth_error args k = Some (Expiring o) ->
  wp m o w (fun o' a w' => Q (set_nth args k (Expiring o')) a w') (fun o' w' => E (set_nth args k (Expiring o')) w') ->
  wp (on_argument k m) args w Q E.
Proof. intros Hk H. unfold wp, on_argument in *. rewrite Hk. destruct (m o w); auto. Qed.
Lemma set_nth_id {A} (l : list A) k a : nth_error l k = Some a -> set_nth l k a = l.
Proof. revert k. induction l as [|x l IH]; intros [|k] H; cbn in *; try discriminate; [now injection H as ->|]. now rewrite IH. Qed.
Lemma get_argument k args o w (Q : list argument -> bvector -> world -> Prop) E :
  nth_error args k = Some (Expiring o) -> Q args o w -> wp (on_argument k get) args w Q E.
Proof. intros Hk HQ. eapply on_argument_wp; eauto. unfold wp, get. now rewrite (set_nth_id _ _ _ Hk). Qed.
Lemma capacity_wp o cs h w (Q : bvector -> nat -> world -> Prop) E : stor o cs h -> Q o (length cs) w -> wp (bv_capacity (V := V) minc maxc) o w Q E.
Proof.
  intros Hs HQ. unfold bv_capacity, wp, bind, get. destruct (Nat.eqb_spec minc maxc); [lia|]. unfold storage_capacity, bind, require.
  unfold stor in Hs. destruct (u_pointer (b_storage o)).
  - destruct Hs as (_ & Hu & _). unfold ret. now rewrite Hu.
  - destruct Hs as (-> & Hu & _). rewrite Hu. exact HQ.
Qed.
Lemma set_size_wp o cs h n w (Q : bvector -> unit -> world -> Prop) E : stor o cs h -> n <= length cs -> Q (BVector (b_storage o) n) tt w ->
  wp (bv_set_size (V := V) minc maxc n) o w Q E.
Proof.
  intros Hs Hn HQ. unfold bv_set_size. apply wp_bind. eapply capacity_wp; eauto. apply wp_bind. apply wp_require; [now apply Nat.leb_le|].
  apply wp_bind. apply wp_get. now apply wp_put.
Qed.

(** Relocating copies never throw. *)
Lemma copy_relocate {X} p src n : forall from dn i (x : X) (w : world),
  copy_loop moved p from dn (map (Relocate src) (seq i n)) x w = uninitialized_relocate moved src i n p (from + dn) x w.
Proof.
  induction n as [|n IH]; intros from dn i x w; [reflexivity|]. cbn [seq map copy_loop uninitialized_relocate]. unfold bind, rethrow_after.
  assert (forall x' w', construct_at moved p (from + dn) (Relocate src i) x w <> Exc x' w') as Hn.
  { intros x' w'. unfold construct_at, make, relocate, require_raw, load, destroy, begin_life, bind, ret.
    repeat match goal with |- context [find_cell ?a ?b ?c] => destruct (find_cell a b c) as [[[? ?] [?|]]|]; try discriminate end. }
  destruct (construct_at moved p (from + dn) (Relocate src i) x w) as [x' [] w'|x' w'|f]; [|exfalso; eapply Hn; reflexivity|reflexivity].
  rewrite IH. now replace (from + S dn) with (S (from + dn)) by lia.
Qed.

Lemma copy_from_ok t k args u ot l1 l2 a base h w (Q : list argument -> nat -> world -> Prop) (E : list argument -> world -> Prop) :
  at_ w h -> good_but t args u base h -> nth_error args t = Some (Expiring ot) -> stor ot (l1 ++ repeat None (length (u k)) ++ l2) h ->
  k <> t -> nth_error args k = Some a ->
  (forall w' h', at_ w' h' -> good_but t (set_nth args k (emptied a)) (fun j => if j =? k then leftover a (u k) else u j) base h' ->
     stor ot (l1 ++ map Some (u k) ++ l2) h' -> Q (set_nth args k (emptied a)) (length l1 + length (u k)) w') ->
  (forall w', ~ quiet -> at_ w' h -> E args w') ->
  wp (copy_from moved minc maxc k (bv_data ot) (length l1)) args w Q E.
Proof.
  intros Hw [Hg Ha] Ht Hs Hk Hka HQ HE. unfold copy_from. apply wp_bind. apply wp_get. rewrite Hka. pose proof (Hg k a Hk Hka) as Hf.
  destruct a as [mks|o]; cbn [fine emptied leftover] in *.
  - assert (length mks = length (u k)) as Hl by (eapply Forall2_len; eauto). rewrite (set_nth_id _ _ _ Hka) in HQ.
    assert (forall h', eqh h' (set_cells ot h (l1 ++ map Some (u k) ++ l2)) -> good_but t args (fun j => if j =? k then u k else u j) base h') as Hnew.
    { intros h' He. apply eqh_sym in He. split.
      - intros j a Hj Hja. assert ((if j =? k then u k else u j) = u j) as -> by (destruct (Nat.eqb_spec j k); congruence).
        eapply fine_ext; [exact He|]. eapply (fine_other args j t); eauto.
      - eapply apart_ext; [exact He|]. eapply apart_cells; eauto. }
    assert (stor ot (l1 ++ map Some (u k) ++ l2) (set_cells ot h (l1 ++ map Some (u k) ++ l2))) as Hst.
    { eapply stor_set; eauto. rewrite !app_length, map_length, repeat_length. reflexivity. }
    apply wp_bind. unfold bv_data. unfold stor in Hs. unfold set_cells in Hnew, Hst. destruct (u_pointer (b_storage ot)) as [b|] eqn:Eb.
    + destruct Hs as (Hb & _ & _). eapply wp_uninitialized_copy; eauto.
      * rewrite Hl. exact Hb.
      * eapply Forall2_weaken; [|exact Hf]. intros mk v Hy. eapply yields_base; eauto.
      * intros w' Hw'. apply wp_ret. rewrite Hl. eapply HQ; eauto. apply Hnew. apply eqh_refl.
    + destruct Hs as (He & _ & _). destruct (u k) as [|v vs] eqn:Eu; [|destruct l1; discriminate]. destruct mks; [|discriminate].
      apply wp_uninitialized_copy_nil. apply wp_ret. cbn [length] in *. eapply HQ; eauto. apply Hnew. apply eqh_refl.
  - apply vector_stor in Hf as (Hsz & s & Hso).
    set (ht := set_cells ot (set_cells o h (repeat None (length (u k)) ++ repeat None s)) (l1 ++ map Some (u k) ++ l2)).
    assert (stor o (repeat None (length (u k)) ++ repeat None s) ht) as Hso'.
    { unfold ht. eapply (other_stor args k t); eauto; [eapply apart_cells; [exact Hka|exact Ha]|]. eapply stor_set; eauto. rewrite !app_length, map_length, !repeat_length. reflexivity. }
    assert (stor ot (l1 ++ map Some (u k) ++ l2) ht) as Hst'.
    { unfold ht. eapply stor_set; [eapply (other_stor args t k); eauto|]. rewrite !app_length, map_length, repeat_length. reflexivity. }
    assert (forall h', eqh ht h' -> good_but t (set_nth args k (Expiring (BVector (b_storage o) 0))) (fun j => if j =? k then [] else u j) base h') as Hnew.
    { intros h' He. split.
      - intros j a Hj Hja. eapply fine_ext; [exact He|]. destruct (Nat.eqb_spec j k) as [->|Hjk].
        + rewrite (nth_set_same _ _ _ _ Hka) in Hja. injection Hja as <-. cbn [fine]. apply vector_stor. split; [reflexivity|].
          exists (length (u k) + s). rewrite stor_size. cbn. now rewrite repeat_plus.
        + rewrite nth_set_other in Hja by exact Hjk. unfold ht. eapply (fine_other args j t); eauto; [eapply apart_cells; [exact Hka|exact Ha]|].
          eapply (fine_other args j k); eauto.
      - eapply apart_ext; [exact He|]. eapply apart_set; [exact Hka|reflexivity|]. unfold ht. eapply apart_cells; [exact Ht|]. eapply apart_cells; eauto. }
    assert (forall w', at_ w' ht -> wp (on_argument k (bv_set_size minc maxc 0);;; ret (length l1 + b_size o)) args w' Q E) as Hend.
    { intros w' Hw'. apply wp_bind. eapply on_argument_wp; eauto. eapply set_size_wp; eauto; [lia|]. apply wp_ret. rewrite Hsz. eapply HQ; eauto.
      apply Hnew. apply eqh_refl. }
    apply wp_bind. unfold uninitialized_copy, wp. rewrite copy_relocate, Nat.add_0_r. change (wp (uninitialized_relocate moved (bv_data o) 0 (b_size o) (bv_data ot) (length l1)) args w
      (fun x _ w => wp (on_argument k (bv_set_size minc maxc 0);;; ret (length l1 + b_size o)) x w Q E) E).
    destruct (u k) as [|v vs] eqn:Eu.
    + rewrite Hsz. apply wp_uninitialized_relocate_0. rewrite Hsz in Hend. apply Hend. eapply at_ext; [exact Hw|]. unfold ht. cbn [length repeat map app] in *.
      intros b. unfold set_cells. unfold stor in Hs, Hso. destruct (u_pointer (b_storage ot)) as [b1|] eqn:E1; destruct (u_pointer (b_storage o)) as [b2|] eqn:E2; unfold upd.
      * destruct (Nat.eqb_spec b b1) as [->|]; [apply Hs|]. destruct (Nat.eqb_spec b b2) as [->|]; [apply Hso|reflexivity].
      * destruct (Nat.eqb_spec b b1) as [->|]; [apply Hs|reflexivity].
      * destruct (Nat.eqb_spec b b2) as [->|]; [apply Hso|reflexivity].
      * reflexivity.
    + unfold bv_data. unfold ht, set_cells in Hend. unfold stor in Hs, Hso.
      destruct (u_pointer (b_storage ot)) as [b1|] eqn:E1; [|destruct Hs as (He & _ & _); destruct l1; discriminate].
      destruct (u_pointer (b_storage o)) as [b2|] eqn:E2; [|destruct Hso as (He & _ & _); discriminate].
      destruct Hs as (Hb1 & _ & _). destruct Hso as (Hb2 & _ & _).
      eapply wp_uninitialized_relocate with (l1 := []) (vs := v :: vs); eauto.
      * intros ->. apply Hk. destruct Ha as (H1 & _ & _). apply (H1 k t b1); [exists o|exists ot]; auto.
      * rewrite Hsz. exact Hb1.
      * rewrite Hsz in *. exact Hend.
Qed.

(** All arguments have the elements that [u] says. *)
Definition good (args : list argument) (u : nat -> list V) (base h : memory) : Prop :=
  (forall k a, nth_error args k = Some a -> fine base h a (u k)) /\ apart args base h.
Lemma good_split t args u base h ot : nth_error args t = Some (Expiring ot) ->
  (good args u base h <-> good_but t args u base h /\ vector_at ot (u t) h).
Proof.
  intros Ht. split.
  - intros [Hg Ha]. split; [split; auto|]. apply (Hg t _ Ht).
  - intros [[Hg Ha] Hv]. split; [|exact Ha]. intros k a Hk. destruct (Nat.eq_dec k t) as [->|]; [|auto]. rewrite Ht in Hk. injection Hk as <-. exact Hv.
Qed.
(** The objects may have changed, but not their storage. *)
Definition alike (args args' : list argument) : Prop :=
  length args' = length args /\
  forall k, match nth_error args k, nth_error args' k with
            | Some (Borrowed m), Some (Borrowed m') => m' = m
            | Some (Expiring o), Some (Expiring o') => b_storage o' = b_storage o
            | None, None => True
            | _, _ => False
            end.
Lemma alike_refl args : alike args args.
Proof. split; [reflexivity|]. intros k. destruct (nth_error args k) as [[]|]; auto. Qed.
Lemma alike_trans a1 a2 a3 : alike a1 a2 -> alike a2 a3 -> alike a1 a3.
Proof.
  intros [L1 H1] [L2 H2]. split; [congruence|]. intros k. specialize (H1 k). specialize (H2 k).
  destruct (nth_error a1 k) as [[]|], (nth_error a2 k) as [[]|], (nth_error a3 k) as [[]|]; try contradiction; auto; congruence.
Qed.
Lemma alike_set args k o o' : nth_error args k = Some (Expiring o) -> b_storage o' = b_storage o -> alike args (set_nth args k (Expiring o')).
Proof.
  intros Hk Hs. split; [apply length_set_nth|]. intros j. destruct (Nat.eq_dec j k) as [->|Hj].
  - now rewrite Hk, (nth_set_same _ _ _ _ Hk).
  - rewrite nth_set_other by exact Hj. destruct (nth_error args j) as [[]|]; auto.
Qed.
Lemma alike_emptied args k a : nth_error args k = Some a -> alike args (set_nth args k (emptied a)).
Proof. intros Hk. destruct a as [mks|o]; cbn [emptied]; [rewrite (set_nth_id _ _ _ Hk); apply alike_refl|]. eapply alike_set; eauto. Qed.
Lemma fine_size base h a vs : fine base h a vs -> argument_size a = length vs.
Proof. destruct a as [mks|o]; cbn; [apply Forall2_len|]. now intros [H _]. Qed.

Lemma append_into_ok t k args u ot a base h w (Q : list argument -> unit -> world -> Prop) (E : list argument -> world -> Prop) :
  at_ w h -> good args u base h -> nth_error args t = Some (Expiring ot) -> k <> t -> nth_error args k = Some a ->
  length (u t) + length (u k) <= capacity_of ot ->
  (forall args' w' h', at_ w' h' -> good args' (fun j => if j =? t then u t ++ u k else if j =? k then leftover a (u k) else u j) base h' -> alike args args' ->
     (forall j, j <> t -> j <> k -> nth_error args' j = nth_error args j) -> nth_error args' k = Some (emptied a) -> Q args' tt w') ->
  (forall w', ~ quiet -> at_ w' h -> E args w') ->
  wp (append_into moved minc maxc t k) args w Q E.
Proof.
  intros Hw Hgood Ht Hk Hka Hroom HQ HE. pose proof Hgood as [Hg Ha]. apply (good_split t _ _ _ _ ot Ht) in Hgood as [Hbut Hvt].
  pose proof (fine_size _ _ _ _ (Hg k a Hka)) as Hsz.
  apply vector_stor in Hvt as (Hst & s & Hs). pose proof (stor_capacity _ _ _ Hs) as Hcap. rewrite app_length, map_length, repeat_length in Hcap. unfold capacity_of in Hroom.
  unfold append_into. apply wp_bind. eapply get_argument; eauto. apply wp_bind. apply wp_get. rewrite Hka. apply wp_bind. apply wp_require.
  { apply Nat.leb_le. rewrite Hsz. unfold stor in Hs. destruct (u_pointer (b_storage ot)); [|lia]. rewrite app_length, map_length, repeat_length in Hs. lia. }
  apply wp_bind.
  assert (exists s', s = length (u k) + s') as [s' ->] by (exists (s - length (u k)); lia). rewrite repeat_plus in Hs.
  replace (b_size ot) with (length (map (@Some V) (u t))) at 1 by (rewrite map_length; auto).
  eapply copy_from_ok; eauto. intros w1 h1 Hw1 [Hg1 Ha1] Hs1. rewrite app_assoc, <- map_app in Hs1.
  assert (nth_error (set_nth args k (emptied a)) t = Some (Expiring ot)) as Ht1 by (rewrite nth_set_other by auto; exact Ht).
  eapply on_argument_wp; eauto. eapply set_size_wp; [exact Hs1|rewrite app_length, map_length, app_length, repeat_length; lia|]. eapply HQ; eauto.
  - eapply (good_split t). { eapply nth_set_same. exact Ht1. } split.
    + split; [|eapply apart_set; eauto]. intros j b Hj Hb. rewrite nth_set_other in Hb by auto. destruct (Nat.eqb_spec j t); [contradiction|]. now apply Hg1.
    + rewrite Nat.eqb_refl. apply vector_stor. split; [cbn; rewrite app_length; lia|]. exists s'. exact Hs1.
  - eapply alike_trans; [eapply alike_emptied; eauto|]. eapply alike_set; eauto.
  - intros j Hj1 Hj2. now rewrite !nth_set_other by auto.
  - rewrite nth_set_other by auto. eapply nth_set_same; eauto.
Qed.

Lemma append_all_ok t ks : forall args u ot base h w (Q : list argument -> unit -> world -> Prop) (E : list argument -> world -> Prop),
  at_ w h -> good args u base h -> nth_error args t = Some (Expiring ot) -> NoDup ks -> (forall k, In k ks -> k <> t /\ k < length args) ->
  length (u t) + length (concat (map u ks)) <= capacity_of ot ->
  (forall args' u' w' h', at_ w' h' -> good args' u' base h' -> alike args args' -> u' t = u t ++ concat (map u ks) ->
     (forall k a, In k ks -> nth_error args k = Some a -> nth_error args' k = Some (emptied a) /\ u' k = leftover a (u k)) ->
     (forall k, k <> t -> ~ In k ks -> nth_error args' k = nth_error args k /\ u' k = u k) -> Q args' tt w') ->
  (forall args' u' w' h', ~ quiet -> at_ w' h' -> good args' u' base h' -> alike args args' -> E args' w') ->
  wp (append_all moved minc maxc t ks) args w Q E.
Proof.
  induction ks as [|k ks IH]; intros args u ot base h w Q E Hw Hg Ht Hd Hin Hroom HQ HE; cbn [append_all].
  - apply wp_ret. eapply HQ; eauto; [apply alike_refl|now rewrite app_nil_r|intros k a []].
  - apply NoDup_cons_iff in Hd as [Hd1 Hd]. destruct (Hin k (or_introl eq_refl)) as [Hkt Hkl]. destruct (nth_error args k) as [a|] eqn:Hka; [|apply nth_error_None in Hka; lia].
    cbn [map concat] in Hroom. rewrite app_length in Hroom. apply wp_bind. eapply append_into_ok; eauto; [lia| |].
    + intros args1 w1 h1 Hw1 Hg1 Hal1 Hsame1 Hk1. set (u1 := fun j => if j =? t then u t ++ u k else if j =? k then leftover a (u k) else u j) in *.
      assert (map u1 ks = map u ks) as Em.
      { apply map_ext_in. intros j Hj. unfold u1. destruct (Nat.eqb_spec j t) as [->|]; [now destruct (Hin t (or_intror Hj))|]. destruct (Nat.eqb_spec j k) as [->|]; [contradiction|reflexivity]. }
      assert (u1 t = u t ++ u k) as Et by (unfold u1; now rewrite Nat.eqb_refl).
      destruct Hal1 as [Hl1 Hal1]. pose proof (Hal1 t) as Hat. rewrite Ht in Hat. destruct (nth_error args1 t) as [[|ot1]|] eqn:Ht1; try contradiction.
      eapply (IH args1 u1 ot1); eauto.
      * intros j Hj. rewrite Hl1. apply Hin. now right.
      * rewrite Em, Et, app_length. unfold capacity_of in *. rewrite Hat. lia.
      * intros args' u' w' h' Hw' Hg' Hal' Hu' Hmoved Hkept. rewrite Em, Et, <- app_assoc in Hu'. eapply HQ; eauto.
        -- eapply alike_trans; [split; [exact Hl1|exact Hal1]|exact Hal'].
        -- intros j b [<-|Hj] Hb.
           ++ rewrite Hka in Hb. injection Hb as <-. destruct (Hkept k Hkt Hd1) as [-> ->]. split; [exact Hk1|]. unfold u1.
              destruct (Nat.eqb_spec k t); [contradiction|]. now rewrite Nat.eqb_refl.
           ++ destruct (Hin j (or_intror Hj)) as [Hjt _]. assert (j <> k) as Hjk by congruence.
              destruct (Hmoved j b Hj) as [H1 H2]; [now rewrite Hsame1|]. split; [exact H1|]. rewrite H2. unfold u1.
              destruct (Nat.eqb_spec j t); [contradiction|]. destruct (Nat.eqb_spec j k); [contradiction|reflexivity].
        -- intros j Hjt Hj. cbn [In] in Hj. destruct (Hkept j Hjt) as [-> ->]; [tauto|]. assert (j <> k) by (intros ->; tauto).
           split; [now apply Hsame1|]. unfold u1. destruct (Nat.eqb_spec j t); [contradiction|]. destruct (Nat.eqb_spec j k); [contradiction|reflexivity].
      * intros args' u' w' h' Hq Hw' Hg' Hal'. eapply HE; eauto. eapply alike_trans; [split; [exact Hl1|exact Hal1]|exact Hal'].
    + intros w' Hq Hw'. eapply HE; eauto. apply alike_refl.
Qed.

Lemma good_but_ext t args u u' base h : (forall k, k <> t -> u' k = u k) -> good_but t args u base h -> good_but t args u' base h.
Proof. intros He [Hg Ha]. split; [|exact Ha]. intros k a Hk Hka. rewrite He by exact Hk. auto. Qed.
Lemma good_weaken t args u base h : good args u base h -> good_but t args u base h.
Proof. intros [Hg Ha]. split; auto. Qed.

Lemma prepend_ok k n : forall i args u ot pre vk s base h w (Q : list argument -> unit -> world -> Prop) (E : list argument -> world -> Prop),
  i <= k < i + n -> i + n <= length args ->
  at_ w h -> good_but k args u base h -> nth_error args k = Some (Expiring ot) ->
  stor ot (map Some pre ++ repeat None (length (concat (map u (seq i (k - i))))) ++ map Some vk ++ repeat None s) h ->
  b_size ot = length pre + length (concat (map u (seq i (k - i)))) + length vk ->
  length (concat (map u (seq (S k) (i + n - S k)))) <= s ->
  (forall args' u' w' h', at_ w' h' -> good args' u' base h' -> alike args args' ->
     u' k = pre ++ concat (map u (seq i (k - i))) ++ vk ++ concat (map u (seq (S k) (i + n - S k))) ->
     (forall j a, i <= j < i + n -> j <> k -> nth_error args j = Some a -> nth_error args' j = Some (emptied a) /\ u' j = leftover a (u j)) ->
     (forall j, j < i -> nth_error args' j = nth_error args j /\ u' j = u j) -> Q args' tt w') ->
  (forall args' u' w' h', ~ quiet -> at_ w' h' -> good_but k args' u' base h' -> alike args args' ->
     (pre = [] -> concat (map u (seq i (k - i))) = [] -> good args' u' base h') -> E args' w') ->
  wp (concatenate_prepend_append moved minc maxc k (length pre) (seq i n)) args w Q E.
Proof.
  induction n as [|n IH]; intros i args u ot pre vk s base h w Q E Hi Hlen Hw Hg Ht Hs Hsz Hroom HQ HE; [lia|].
  cbn [seq concatenate_prepend_append]. destruct (Nat.eqb_spec i k) as [->|Hik].
  - replace (k - k) with 0 in * by lia. cbn [seq map concat length repeat app] in *. rewrite Nat.add_0_r in Hsz.
    replace (k + S n - S k) with n in * by lia. rewrite app_assoc, <- map_app in Hs.
    set (u0 := fun j => if j =? k then pre ++ vk else u j).
    assert (map u0 (seq (S k) n) = map u (seq (S k) n)) as Em.
    { apply map_ext_in. intros j Hj. apply in_seq in Hj. unfold u0. destruct (Nat.eqb_spec j k); [lia|reflexivity]. }
    assert (u0 k = pre ++ vk) as Ek by (unfold u0; now rewrite Nat.eqb_refl).
    assert (good args u0 base h) as Hg0.
    { eapply good_split; [exact Ht|]. split.
      - eapply good_but_ext; [|exact Hg]. intros j Hj. unfold u0. destruct (Nat.eqb_spec j k); [contradiction|reflexivity].
      - rewrite Ek. apply vector_stor. split; [rewrite app_length; lia|]. eauto. }
    eapply append_all_ok; eauto.
    + apply seq_NoDup.
    + intros j Hj. apply in_seq in Hj. lia.
    + rewrite Em, Ek. unfold capacity_of. rewrite (stor_capacity _ _ _ Hs), !app_length, map_length, app_length, repeat_length. lia.
    + intros args' u' w' h' Hw' Hg' Hal Hu' Hmoved Hkept. rewrite Em, Ek, <- app_assoc in Hu'. eapply HQ; eauto.
      * intros j a Hj Hjk Ha. destruct (Hmoved j a) as [H1 H2]; [apply in_seq; lia|exact Ha|]. split; [exact H1|]. rewrite H2. unfold u0.
        destruct (Nat.eqb_spec j k); [contradiction|reflexivity].
      * intros j Hj. destruct (Hkept j) as [H1 H2]; [lia|rewrite in_seq; lia|]. split; [exact H1|]. rewrite H2. unfold u0.
        destruct (Nat.eqb_spec j k); [lia|reflexivity].
    + intros args' u' w' h' Hq Hw' Hg' Hal. eapply HE; eauto. now apply good_weaken.
  - assert (exists r, k - i = S r) as [r Er] by (exists (k - i - 1); lia). assert (k - S i = r) as Er' by lia. rewrite Er in *.
    cbn [seq map concat] in *. destruct (nth_error args i) as [a|] eqn:Hia; [|apply nth_error_None in Hia; lia].
    rewrite app_length, repeat_plus, <- app_assoc in Hs. rewrite app_length in Hsz. replace (i + S n - S k) with (S i + n - S k) in * by lia.
    set (u1 := fun j => if j =? i then leftover a (u i) else u j).
    assert (forall m, map u1 (seq (S i) m) = map u (seq (S i) m)) as Em.
    { intros m. apply map_ext_in. intros j Hj. apply in_seq in Hj. unfold u1. destruct (Nat.eqb_spec j i); [lia|reflexivity]. }
    assert (forall m, map u1 (seq (S k) m) = map u (seq (S k) m)) as Em'.
    { intros m. apply map_ext_in. intros j Hj. apply in_seq in Hj. unfold u1. destruct (Nat.eqb_spec j i); [lia|reflexivity]. }
    apply wp_bind. eapply get_argument; eauto. apply wp_bind. rewrite <- (map_length (@Some V) pre) at 1. eapply copy_from_ok; eauto.
    + intros w1 h1 Hw1 Hg1 Hs1. rewrite map_length, <- app_length. fold u1 in Hg1.
      assert (nth_error (set_nth args i (emptied a)) k = Some (Expiring ot)) as Ht1 by (rewrite nth_set_other by auto; exact Ht).
      eapply (IH (S i) _ u1 ot (pre ++ u i) vk s); eauto.
      * lia.
      * rewrite length_set_nth. lia.
      * rewrite Er', Em, map_app, <- app_assoc. exact Hs1.
      * rewrite Er', Em, app_length. lia.
      * now rewrite Em'.
      * intros args' u' w' h' Hw' Hg' Hal Hu' Hmoved Hkept. rewrite Er', Em, Em', <- !app_assoc in Hu'. eapply HQ; eauto.
        -- eapply alike_trans; [eapply alike_emptied; eauto|exact Hal].
        -- rewrite <- app_assoc. exact Hu'.
        -- intros j b Hj Hjk Hb. destruct (Nat.eq_dec j i) as [->|Hji].
           ++ rewrite Hia in Hb. injection Hb as <-. destruct (Hkept i) as [-> ->]; [lia|]. rewrite (nth_set_same _ _ _ _ Hia). unfold u1. rewrite Nat.eqb_refl. auto.
           ++ destruct (Hmoved j b) as [H1 H2]; [lia|exact Hjk|rewrite nth_set_other by exact Hji; exact Hb|]. split; [exact H1|]. rewrite H2. unfold u1.
              destruct (Nat.eqb_spec j i); [contradiction|reflexivity].
        -- intros j Hj. destruct (Hkept j) as [-> ->]; [lia|]. rewrite nth_set_other by lia. split; [reflexivity|]. unfold u1. destruct (Nat.eqb_spec j i); [lia|reflexivity].
      * intros args' u' w' h' Hq Hw' Hg' Hal Hz. eapply HE; eauto.
        -- eapply alike_trans; [eapply alike_emptied; eauto|exact Hal].
        -- intros -> Hnil. apply app_eq_nil in Hnil as [Hn1 Hn2]. apply Hz; [now rewrite Hn1|now rewrite Er', Em].
    + intros w' Hq Hw'. set (u2 := fun j => if j =? k then vk else u j). eapply (HE args u2); eauto.
      * eapply good_but_ext; [|exact Hg]. intros j Hj. unfold u2. destruct (Nat.eqb_spec j k); [contradiction|reflexivity].
      * apply alike_refl.
      * intros -> Hnil. eapply good_split; [exact Ht|]. split.
        -- eapply good_but_ext; [|exact Hg]. intros j Hj. unfold u2. destruct (Nat.eqb_spec j k); [contradiction|reflexivity].
        -- unfold u2. rewrite Nat.eqb_refl. apply app_eq_nil in Hnil as [Hn1 Hn2]. rewrite Hn1, Hn2 in *. cbn in Hs, Hsz. apply vector_stor. eauto.
Qed.

(** The search. *)
Lemma reusable_ok total n : forall i before args u base h w (Q : list argument -> option nat * nat -> world -> Prop) E,
  good args u base h -> i + n <= length args ->
  (forall k o, i <= k < i + n -> nth_error args k = Some (Expiring o) -> total <= capacity_of o ->
     (forall j o', i <= j < k -> nth_error args j = Some (Expiring o') -> capacity_of o' < total) ->
     Q args (Some k, before + length (concat (map u (seq i (k - i))))) w) ->
  ((forall j o', i <= j < i + n -> nth_error args j = Some (Expiring o') -> capacity_of o' < total) -> forall b, Q args (None, b) w) ->
  wp (reusable_concatenate_container (V := V) minc maxc total before (seq i n)) args w Q E.
Proof.
  induction n as [|n IH]; intros i before args u base h w Q E Hg Hlen HS HN; cbn [seq reusable_concatenate_container].
  - apply wp_ret. apply HN. intros. lia.
  - apply wp_bind. apply wp_get. destruct (nth_error args i) as [[mks|o]|] eqn:Hi; [| |apply nth_error_None in Hi; lia].
    + destruct Hg as [Hg Ha]. pose proof (fine_size _ _ _ _ (Hg i _ Hi)) as Hsz. cbn in Hsz. eapply IH; [split; eauto|lia| |].
      * intros k o Hk Hko Hroom Hbefore. specialize (HS k o). replace (k - i) with (S (k - S i)) in HS by lia. cbn [seq map concat] in HS.
        rewrite app_length, Nat.add_assoc, <- Hsz in HS. apply HS; auto; [lia|]. intros j o' Hj Hjo. destruct (Nat.eq_dec j i) as [->|]; [congruence|]. apply (Hbefore j o'); auto. lia.
      * intros Hnone. apply HN. intros j o' Hj Hjo. destruct (Nat.eq_dec j i) as [->|]; [congruence|]. apply (Hnone j o'); auto. lia.
    + pose proof Hg as [Hg0 Ha]. pose proof (Hg0 i _ Hi) as Hf. pose proof (fine_size _ _ _ _ Hf) as Hsz. cbn in Hsz. cbn in Hf. apply vector_stor in Hf as (_ & s & Hs).
      apply wp_bind. eapply on_argument_wp; eauto. eapply capacity_wp; eauto. rewrite (set_nth_id _ _ _ Hi). rewrite <- (stor_capacity _ _ _ Hs). fold (capacity_of o).
      destruct (Nat.leb_spec total (capacity_of o)) as [Hle|Hgt].
      * apply wp_ret. specialize (HS i o). replace (i - i) with 0 in HS by lia. cbn [seq map concat length] in HS. rewrite Nat.add_0_r in HS. apply HS; auto; [lia|]. intros. lia.
      * eapply IH; [split; eauto|lia| |].
        -- intros k o2 Hk Hko Hroom Hbefore. specialize (HS k o2). replace (k - i) with (S (k - S i)) in HS by lia. cbn [seq map concat] in HS.
           rewrite app_length, Nat.add_assoc, <- Hsz in HS. apply HS; auto; [lia|]. intros j o' Hj Hjo. destruct (Nat.eq_dec j i) as [->|]; [congruence|]. apply (Hbefore j o'); auto. lia.
        -- intros Hnone. apply HN. intros j o' Hj Hjo. destruct (Nat.eq_dec j i) as [->|]; [congruence|]. apply (Hnone j o'); auto. lia.
Qed.

(** Making room before the elements of the argument whose storage is used. *)
Lemma move_existing_ok k args u o before base h w (Q : list argument -> unit -> world -> Prop) E :
  at_ w h -> good args u base h -> nth_error args k = Some (Expiring o) -> before <> 0 -> before + length (u k) <= capacity_of o ->
  (forall w' h' s, at_ w' h' -> good_but k (set_nth args k (Expiring (BVector (b_storage o) (length (u k) + before)))) u base h' ->
     stor o (repeat None before ++ map Some (u k) ++ repeat None s) h' -> capacity_of o = before + length (u k) + s ->
     Q (set_nth args k (Expiring (BVector (b_storage o) (length (u k) + before)))) tt w') ->
  wp (on_argument k (move_existing_data_to_final_position moved minc maxc before)) args w Q E.
Proof.
  intros Hw Hgood Hk Hn Hroom HQ. pose proof Hgood as [Hg Ha]. apply (good_split k _ _ _ _ o Hk) in Hgood as [Hbut Hv].
  apply vector_stor in Hv as (Hsz & s & Hs). pose proof (stor_capacity _ _ _ Hs) as Hcap. rewrite app_length, map_length, repeat_length in Hcap. unfold capacity_of in *.
  assert (exists s', s = before + s') as [s' ->] by (exists (s - before); lia). rewrite repeat_plus in Hs.
  eapply on_argument_wp; eauto. unfold move_existing_data_to_final_position. apply wp_bind. apply wp_get. apply wp_bind.
  destruct before as [|p]; [contradiction|].
  assert (stor o (repeat None (S p) ++ map Some (u k) ++ repeat None s') (set_cells o h (repeat None (S p) ++ map Some (u k) ++ repeat None s'))) as Hs'.
  { eapply stor_set; eauto. rewrite !app_length, map_length, !repeat_length. lia. }
  assert (good_but k (set_nth args k (Expiring (BVector (b_storage o) (length (u k) + S p)))) u base (set_cells o h (repeat None (S p) ++ map Some (u k) ++ repeat None s'))) as Hg'.
  { split.
    - intros j a Hj Hja. rewrite nth_set_other in Hja by exact Hj. eapply (fine_other args j k); eauto.
    - eapply apart_set; [exact Hk|reflexivity|]. eapply apart_cells; eauto. }
  pose proof Hs as Hs0. unfold bv_data. unfold stor in Hs. unfold set_cells in Hs', Hg'. destruct (u_pointer (b_storage o)) as [b|] eqn:Eb.
  - destruct Hs as (Hb & _ & _). eapply wp_shift_up with (l1 := []) (vs := u k); eauto. intros w' Hw'. eapply set_size_wp; [exact Hs'| |].
    + rewrite !app_length, map_length, !repeat_length. lia.
    + rewrite Hsz. eapply HQ; eauto. lia.
  - destruct Hs as (He & _ & _). destruct (u k); discriminate.
Qed.

(** The object that is made is the last one. *)
Lemma uses_snoc args o j b : uses (args ++ [Expiring o]) j b <-> uses args j b \/ (j = length args /\ u_pointer (b_storage o) = Some b).
Proof.
  unfold SpecConcat.uses. split.
  - intros (p & Hp & Hb). destruct (Nat.lt_ge_cases j (length args)).
    + rewrite nth_error_app1 in Hp by assumption. left. eauto.
    + rewrite nth_error_app2 in Hp by assumption. destruct (j - length args) as [|m] eqn:Ej; [|now destruct m]. cbn in Hp. injection Hp as ->. right. split; [lia|exact Hb].
  - intros [(p & Hp & Hb)|[-> Hb]].
    + exists p. rewrite nth_error_app1; [auto|]. apply nth_error_Some. congruence.
    + exists o. rewrite nth_error_app2, Nat.sub_diag by lia. auto.
Qed.
Lemma uses_held args u base h k b : good args u base h -> uses args k b -> h b <> None.
Proof.
  intros [Hg _] (o & Ho & Hb). specialize (Hg k _ Ho). cbn in Hg. destruct Hg as [_ Hv]. rewrite Hb in Hv. destruct Hv as (s & Hs & _). congruence.
Qed.
Lemma uses_lt args k b : uses args k b -> k < length args.
Proof. intros (o & Ho & _). apply nth_error_Some. congruence. Qed.
Lemma good_snoc args o u base h :
  good (args ++ [Expiring o]) u base h <-> exists g, good args u base g /\ is_vector_in minc maxc o (u (length args)) g h.
Proof.
  split.
  - intros [Hg (H1 & H2 & H3)].
    assert (vector_at o (u (length args)) h) as [Hsz Hv]. { apply (Hg (length args) (Expiring o)). rewrite nth_error_app2, Nat.sub_diag by lia. reflexivity. }
    unfold is_vector_in. destruct (u_pointer (b_storage o)) as [b|] eqn:Eb.
    + destruct Hv as (s & Hb & Hu & Hr). exists (upd h b None). split; [split; [|split; [|split]]|].
      * intros k a Hk. assert (k < length args) as Hkl by (apply nth_error_Some; congruence).
        assert (nth_error (args ++ [Expiring o]) k = Some a) as Hk' by (rewrite nth_error_app1; auto). specialize (Hg k a Hk').
        destruct a as [mks|p]; cbn in *; [exact Hg|]. destruct Hg as [Hp Hpv]. split; [exact Hp|]. destruct (u_pointer (b_storage p)) as [b'|] eqn:Eb'; [|exact Hpv].
        destruct Hpv as (s' & Hb' & H'). exists s'. rewrite upd_other; [auto|]. intros ->. assert (k = length args); [|lia]. eapply H1 with (b := b).
        -- apply uses_snoc. left. exists p. auto.
        -- apply uses_snoc. auto.
      * intros j k b' Hj Hk. apply (H1 j k b'); apply uses_snoc; auto.
      * intros k b' Hk. apply (H2 k b'). apply uses_snoc. auto.
      * intros b' Hb'. unfold upd. destruct (Nat.eqb_spec b' b) as [->|Hn].
        -- symmetry. apply (H2 (length args)). apply uses_snoc. auto.
        -- apply H3. intros k Hk. apply uses_snoc in Hk as [Hk|[_ Hk]]; [now apply (Hb' k)|congruence].
      * split; [exact Hsz|]. rewrite upd_same. split; [reflexivity|]. split; [eauto|]. intros b' Hn. now rewrite upd_other.
    + destruct Hv as (Hv & Hu & Hm). exists h. split; [split; [|split; [|split]]|].
      * intros k a Hk. apply Hg. rewrite nth_error_app1; [exact Hk|]. apply nth_error_Some. congruence.
      * intros j k b' Hj Hk. apply (H1 j k b'); apply uses_snoc; auto.
      * intros k b' Hk. apply (H2 k b'). apply uses_snoc. auto.
      * intros b' Hb'. apply H3. intros k Hk. apply uses_snoc in Hk as [Hk|[_ Hk]]; [now apply (Hb' k)|congruence].
      * split; [exact Hsz|]. split; [exact Hv|]. split; [exact Hu|]. split; [exact Hm|]. now intros b.
  - intros (g & Hgood & Hsz & Hv). pose proof Hgood as [Hg (H1 & H2 & H3)]. destruct (u_pointer (b_storage o)) as [b|] eqn:Eb.
    + destruct Hv as (Hgb & Hb & Hrest). assert (forall k, ~ uses args k b) as Hfree by (intros k Hk; now apply (uses_held _ _ _ _ _ _ Hgood) in Hk).
      split; [|split; [|split]].
      * intros k a Hk. destruct (Nat.lt_ge_cases k (length args)) as [Hkl|Hkl].
        -- rewrite nth_error_app1 in Hk by assumption. specialize (Hg k a Hk). destruct a as [mks|p]; cbn in *; [exact Hg|]. destruct Hg as [Hp Hpv]. split; [exact Hp|].
           destruct (u_pointer (b_storage p)) as [b'|] eqn:Eb'; [|exact Hpv]. destruct Hpv as (s' & Hb' & H'). exists s'. rewrite Hrest; [auto|]. intros ->. apply (Hfree k). exists p. auto.
        -- rewrite nth_error_app2 in Hk by assumption. destruct (k - length args) as [|m] eqn:Ek; [|now destruct m]. cbn in Hk. injection Hk as <-.
           replace k with (length args) by lia. cbn. split; [exact Hsz|]. rewrite Eb. exact Hb.
      * intros j k b' Hj Hk. apply uses_snoc in Hj as [Hj|[-> Hj]]; apply uses_snoc in Hk as [Hk|[-> Hk]]; auto.
        -- eapply H1; eauto.
        -- rewrite Hk in Eb. injection Eb as ->. now apply Hfree in Hj.
        -- rewrite Hj in Eb. injection Eb as ->. now apply Hfree in Hk.
      * intros k b' Hk. apply uses_snoc in Hk as [Hk|[_ Hk]]; [eapply H2; eauto|]. rewrite Eb in Hk. injection Hk as <-. rewrite <- H3 by exact Hfree. exact Hgb.
      * intros b' Hb'. rewrite Hrest. { apply H3. intros k Hk. apply (Hb' k). apply uses_snoc. auto. }
        intros ->. apply (Hb' (length args)). apply uses_snoc. auto.
    + destruct Hv as (Hv & Hu & Hm & Hsame). split; [|split; [|split]].
      * intros k a Hk. destruct (Nat.lt_ge_cases k (length args)) as [Hkl|Hkl].
        -- rewrite nth_error_app1 in Hk by assumption. eapply fine_ext; [|apply Hg; exact Hk]. intros b. symmetry. apply Hsame.
        -- rewrite nth_error_app2 in Hk by assumption. destruct (k - length args) as [|m] eqn:Ek; [|now destruct m]. cbn in Hk. injection Hk as <-.
           replace k with (length args) by lia. cbn. split; [exact Hsz|]. rewrite Eb. auto.
      * intros j k b' Hj Hk. apply uses_snoc in Hj as [Hj|[-> Hj]]; [|congruence]. apply uses_snoc in Hk as [Hk|[-> Hk]]; [|congruence]. eapply H1; eauto.
      * intros k b' Hk. apply uses_snoc in Hk as [Hk|[_ Hk]]; [eapply H2; eauto|congruence].
      * intros b' Hb'. rewrite Hsame. apply H3. intros k Hk. apply (Hb' k). apply uses_snoc. auto.
Qed.

Lemma with_result_wp (mk : M unit bvector) body args w (Q : list argument -> bvector -> world -> Prop) (E : list argument -> world -> Prop) :
  wp mk tt w
    (fun _ o w1 => wp body (args ++ [Expiring o]) w1
       (fun args2 _ w2 => exists args' o', args2 = args' ++ [Expiring o'] /\ Q args' o' w2)
       (fun args2 w2 => exists args' o', args2 = args' ++ [Expiring o'] /\ wp bv_destroy o' w2 (fun _ _ w3 => E args' w3) (fun _ _ => False)))
    (fun _ w1 => E args w1) ->
  wp (with_result mk body) args w Q E.
Proof.
  unfold wp, with_result. destruct (mk tt w) as [? o w1|? w1|f]; auto. destruct (body (args ++ [Expiring o]) w1) as [args2 [] w2|args2 w2|f]; auto.
  - intros (args' & o' & -> & HQ). now rewrite last_last, removelast_last.
  - intros (args' & o' & -> & HE). rewrite last_last, removelast_last. destruct (bv_destroy o' w2); auto.
Qed.
Lemma alike_snoc args o args2 : alike (args ++ [Expiring o]) args2 ->
  exists args' o', args2 = args' ++ [Expiring o'] /\ alike args args' /\ b_storage o' = b_storage o.
Proof.
  intros [Hl Hal]. rewrite app_length in Hl. cbn in Hl. destruct (exists_last (l := args2)) as (args' & x & ->); [intros ->; cbn in Hl; lia|].
  rewrite app_length in Hl. cbn in Hl. assert (length args' = length args) as Hl' by lia.
  pose proof (Hal (length args)) as Hlast. rewrite (nth_error_mid args (Expiring o) [] (length args) eq_refl), (nth_error_mid args' x [] (length args)) in Hlast by lia.
  cbn in Hlast. destruct x as [|o']; [contradiction|]. exists args', o'. split; [reflexivity|]. split; [|exact Hlast].
  split; [exact Hl'|]. intros k. destruct (Nat.lt_ge_cases k (length args)).
  - specialize (Hal k). rewrite !nth_error_app1 in Hal by lia. exact Hal.
  - assert (nth_error args k = None) as -> by now apply nth_error_None. assert (nth_error args' k = None) as -> by (apply nth_error_None; lia). exact I.
Qed.
Lemma sizes_at (args : list argument) (u : nat -> list V) : forall i, (forall k a, nth_error args k = Some a -> argument_size a = length (u (i + k))) ->
  list_sum (map argument_size args) = length (concat (map u (seq i (length args)))).
Proof.
  induction args as [|a args IH]; intros i H; [reflexivity|]. cbn [map list_sum fold_right length seq concat]. change (fold_right Nat.add 0) with list_sum.
  rewrite app_length, (IH (S i)).
  - rewrite (H 0 a eq_refl). now rewrite Nat.add_0_r.
  - intros k b Hk. rewrite (H (S k) b Hk). f_equal. f_equal. lia.
Qed.
Lemma seq_split i n k : i <= k < i + n -> seq i n = seq i (k - i) ++ k :: seq (S k) (i + n - S k).
Proof. intros H. replace n with ((k - i) + S (i + n - S k)) at 1 by lia. rewrite seq_app. cbn [seq]. now replace (i + (k - i)) with k by lia. Qed.

Lemma left_behind args args' u' h base : good args' u' base h ->
  forall k a, nth_error args k = Some a -> nth_error args' k = Some (emptied a) -> (forall o, a = Expiring o -> u' k = []) ->
  exists a', nth_error args' k = Some a' /\ argument_left minc maxc h a a'.
Proof.
  intros [Hg _] k a Hk Hk' He. exists (emptied a). split; [exact Hk'|]. specialize (Hg k _ Hk'). destruct a as [mks|o]; cbn in *; [reflexivity|].
  left. rewrite (He o eq_refl) in Hg. exact Hg.
Qed.

Lemma concatenate_ok always args u base h w :
  at_ w h -> good args u base h ->
  length (concat (map u (seq 0 (length args)))) <= maxc ->
  (always = true -> length (concat (map u (seq 0 (length args)))) <= minc) ->
  wp (concatenate moved minc maxc always) args w
    (fun args' o w' => exists h', at_ w' h' /\ vector_at o (concat (map u (seq 0 (length args)))) h' /\ apart (args' ++ [Expiring o]) base h' /\
       length args' = length args /\
       (forall k a, nth_error args k = Some a -> exists a', nth_error args' k = Some a' /\ argument_left minc maxc h' a a') /\
       (forall k ok, first_with_room args (length (concat (map u (seq 0 (length args))))) k ok -> b_storage o = b_storage ok))
    (fun args' w' => ~ quiet /\ length args' = length args /\ exists h' u', at_ w' h' /\
       ((forall k ok, first_with_room args (length (concat (map u (seq 0 (length args))))) k ok -> concat (map u (seq 0 k)) = []) -> good args' u' base h') /\
       (forall k ok, first_with_room args (length (concat (map u (seq 0 (length args))))) k ok -> good_but k args' u' base h')).
Proof.
  intros Hw Hgood Hmax Hmin. pose proof Hgood as [Hg Ha]. set (n := length args) in *. set (all := concat (map u (seq 0 n))) in *.
  assert (list_sum (map argument_size args) = length all) as Htot. { apply sizes_at. intros k a Hk. eapply fine_size. apply Hg. exact Hk. }
  unfold concatenate. apply wp_bind. apply wp_get. rewrite Htot. fold n. apply wp_bind. eapply reusable_ok; [exact Hgood|lia| |].
  - intros k o Hk Hko Hroom Hbefore. cbn [fst snd]. rewrite Nat.sub_0_r, Nat.add_0_l.
    assert (first_with_room args (length all) k o) as Hfirst. { split; [exact Hko|]. split; [exact Hroom|]. intros j o' Hj. apply Hbefore. lia. }
    assert (forall k' o', first_with_room args (length all) k' o' -> k' = k /\ o' = o) as Huniq.
    { intros k' o' (H1 & H2 & H3). assert (k' = k) as ->. { destruct (Nat.lt_trichotomy k k') as [Hlt'|[Heq|Hgt]]; auto.
        - specialize (H3 k o Hlt' Hko). lia.
        - specialize (Hbefore k' o'). assert (capacity_of o' < length all) by (apply Hbefore; auto; lia). lia. }
      rewrite Hko in H1. injection H1 as ->. auto. }
    set (pre := concat (map u (seq 0 k))) in *. set (post := concat (map u (seq (S k) (0 + n - S k)))).
    assert (all = pre ++ u k ++ post) as Eall. { unfold all, pre, post. rewrite (seq_split 0 n k) by lia. rewrite map_app, concat_app, Nat.sub_0_r. reflexivity. }
    assert (length all = length pre + length (u k) + length post) as Lall by (rewrite Eall, !app_length; lia).
    (* the rest, once the room is there *)
    assert (forall args1 u1 ot s w1 h1, at_ w1 h1 -> good_but k args1 u1 base h1 -> length args1 = n -> nth_error args1 k = Some (Expiring ot) ->
              b_storage ot = b_storage o -> (forall j, j <> k -> nth_error args1 j = nth_error args j /\ u1 j = u j) ->
              stor ot (repeat None (length pre) ++ map Some (u k) ++ repeat None s) h1 -> b_size ot = length pre + length (u k) -> length post <= s ->
              wp (concatenate_prepend_append moved minc maxc k 0 (seq 0 n);;;
                  on_argument k (o <- get ;; let (result, rest) := bv_move o in put rest ;;; ret result)) args1 w1
                (fun args' o w' => exists h', at_ w' h' /\ vector_at o all h' /\ apart (args' ++ [Expiring o]) base h' /\
                   length args' = n /\
                   (forall k a, nth_error args k = Some a -> exists a', nth_error args' k = Some a' /\ argument_left minc maxc h' a a') /\
                   (forall k ok, first_with_room args (length all) k ok -> b_storage o = b_storage ok))
                (fun args' w' => ~ quiet /\ length args' = n /\ exists h' u', at_ w' h' /\
                   ((forall k ok, first_with_room args (length all) k ok -> concat (map u (seq 0 k)) = []) -> good args' u' base h') /\
                   (forall k ok, first_with_room args (length all) k ok -> good_but k args' u' base h'))) as Hrest.
    { intros args1 u1 ot s w1 h1 Hw1 Hg1 Hl1 Ht1 Hst Hkept Hs1 Hsz1 Hpost.
      assert (forall m, map u1 (seq (S k) m) = map u (seq (S k) m)) as Em.
      { intros m. apply map_ext_in. intros j Hj. apply in_seq in Hj. apply Hkept. lia. }
      assert (map u1 (seq 0 k) = map u (seq 0 k)) as Em'.
      { apply map_ext_in. intros j Hj. apply in_seq in Hj. apply Hkept. lia. }
      apply wp_bind. change 0 with (length (@nil V)) at 1. eapply (prepend_ok k n 0 args1 u1 ot [] (u k) s); eauto.
      - lia.
      - rewrite Nat.sub_0_r, Em'. exact Hs1.
      - rewrite Nat.sub_0_r, Em'. exact Hsz1.
      - rewrite Em. exact Hpost.
      - intros args' u' w' h' Hw' Hg' [Hl' Hal] Hu' Hmoved _. rewrite Nat.sub_0_r, Em, Em' in Hu'. cbn [app] in Hu'. fold pre post in Hu'. rewrite <- Eall in Hu'.
        pose proof (Hal k) as Hatk. rewrite Ht1 in Hatk. destruct (nth_error args' k) as [[|o']|] eqn:Hk'; try contradiction.
        eapply on_argument_wp; eauto. apply wp_bind, wp_get. unfold bv_move. apply wp_bind, wp_put. apply wp_ret.
        pose proof Hg' as [Hg0 (H1 & H2 & H3)]. pose proof (Hg0 k _ Hk') as Hv. cbn in Hv. rewrite Hu' in Hv. exists h'.
        split; [exact Hw'|]. split; [exact Hv|].
        assert (forall j b, uses (set_nth args' k (Expiring (BVector (Storage None (u_size (b_storage o'))) 0))) j b <-> j <> k /\ uses args' j b) as Huses.
        { intros j b. unfold SpecConcat.uses. destruct (Nat.eq_dec j k) as [->|Hj].
          - rewrite (nth_set_same _ _ _ _ Hk'). split; [|now intros []]. intros (p & [= <-] & Hp). discriminate.
          - rewrite nth_set_other by exact Hj. tauto. }
        split; [|split; [|split]].
        + split; [|split].
          * intros i j b Hi Hj. apply uses_snoc in Hi as [Hi|[-> Hi]]; apply uses_snoc in Hj as [Hj|[-> Hj]]; auto.
            -- apply Huses in Hi as [_ Hi]. apply Huses in Hj as [_ Hj]. eapply H1; eauto.
            -- apply Huses in Hi as [Hn Hi]. elim Hn. eapply H1; [exact Hi|]. exists o'. auto.
            -- apply Huses in Hj as [Hn Hj]. elim Hn. eapply H1; [exact Hj|]. exists o'. auto.
          * intros j b Hj. apply uses_snoc in Hj as [Hj|[-> Hj]]; [apply Huses in Hj as [_ Hj]; eapply H2; eauto|]. apply (H2 k). exists o'. auto.
          * intros b Hb. apply H3. intros j Hj. destruct (Nat.eq_dec j k) as [->|Hn].
            -- destruct Hj as (p & Hp & Hpb). rewrite Hk' in Hp. injection Hp as <-. apply (Hb (length (set_nth args' k (Expiring (BVector (Storage None (u_size (b_storage o'))) 0))))).
               apply uses_snoc. auto.
            -- apply (Hb j). apply uses_snoc. left. apply Huses. auto.
        + rewrite length_set_nth. congruence.
        + intros j a Hj. destruct (Nat.eq_dec j k) as [->|Hn].
          * rewrite (nth_set_same _ _ _ _ Hk'). eexists. split; [reflexivity|]. rewrite Hko in Hj. injection Hj as <-. cbn. right. split; reflexivity.
          * rewrite nth_set_other by exact Hn. assert (j < n) by (unfold n; apply nth_error_Some; congruence).
            destruct (Hmoved j a) as [Hm1 Hm2]; [lia|exact Hn|rewrite (proj1 (Hkept j Hn)); exact Hj|].
            eapply (left_behind args args'); eauto. intros p ->. rewrite Hm2. reflexivity.
        + intros k' ok Hk2. destruct (Huniq _ _ Hk2) as [-> ->]. cbn [b_storage]. now rewrite Hatk, Hst.
      - intros args' u' w' h' Hq Hw' Hg' [Hl' Hal] Hz. split; [exact Hq|]. split; [congruence|]. exists h', u'. split; [exact Hw'|]. split.
        + intros Hempty. apply Hz; [reflexivity|]. rewrite Nat.sub_0_r, Em'. now apply (Hempty k o).
        + intros k' ok Hk2. destruct (Huniq _ _ Hk2) as [-> ->]. exact Hg'. }
    apply wp_bind. destruct (Nat.eqb_spec (length pre) 0) as [Hz|Hnz].
    + apply wp_ret. pose proof Hgood as Hgood'. apply (good_split k _ _ _ _ o Hko) in Hgood' as [Hbut Hv].
      apply vector_stor in Hv as (Hsz & s & Hs). pose proof (stor_capacity _ _ _ Hs) as Hcap. rewrite app_length, map_length, repeat_length in Hcap. unfold capacity_of in Hroom.
      eapply (Hrest args u o s); eauto; try lia. now rewrite Hz.
    + eapply move_existing_ok; eauto; [lia|]. intros w1 h1 s Hw1 Hg1 Hs1 Hcap1.
      eapply (Hrest _ u (BVector (b_storage o) (length (u k) + length pre)) s); eauto.
      * now rewrite length_set_nth.
      * eapply nth_set_same. exact Hko.
      * intros j Hj. rewrite nth_set_other by exact Hj. auto.
      * cbn. lia.
      * lia.
  - intros Hnone b. cbn [fst].
    assert (forall k ok, ~ first_with_room args (length all) k ok) as Hno.
    { intros k ok (H1 & H2 & _). specialize (Hnone k ok). assert (k < n) by (unfold n; apply nth_error_Some; congruence). assert (capacity_of ok < length all); [apply Hnone; auto; lia|lia]. }
    set (u0 := fun j => if j =? n then [] else u j).
    assert (map u0 (seq 0 n) = map u (seq 0 n)) as Em. { apply map_ext_in. intros j Hj. apply in_seq in Hj. unfold u0. destruct (Nat.eqb_spec j n); [lia|reflexivity]. }
    assert (u0 n = []) as En by (unfold u0; now rewrite Nat.eqb_refl).
    assert (forall u1 g, (forall j, j < n -> u1 j = u j) -> good args u base g -> good args u1 base g) as Hu0.
    { intros u1 g He [Hg1 Ha1]. split; [|exact Ha1]. intros k a Hk. rewrite He by (unfold n; apply nth_error_Some; congruence). auto. }
    assert (forall args2 u2 h2 w2, ~ quiet -> at_ w2 h2 -> good args2 u2 base h2 -> (exists o, alike (args ++ [Expiring o]) args2) ->
              exists args' o', args2 = args' ++ [Expiring o'] /\
                wp bv_destroy o' w2 (fun _ _ w3 => ~ quiet /\ length args' = n /\ exists h' u', at_ w3 h' /\
                   ((forall k ok, first_with_room args (length all) k ok -> concat (map u (seq 0 k)) = []) -> good args' u' base h') /\
                   (forall k ok, first_with_room args (length all) k ok -> good_but k args' u' base h')) (fun _ _ => False)) as Hexc.
    { intros args2 u2 h2 w2 Hq Hw2 Hg2 (o & Hal). apply alike_snoc in Hal as (args' & o' & -> & [Hl Hal] & _). exists args', o'. split; [reflexivity|].
      apply good_snoc in Hg2 as (g & Hg2 & Hv). apply (vec_cells_in moved) in Hv as (k & Hc & _).
      eapply wp_conseq; [apply (bv_disposes moved quiet minc maxc (Nat.lt_le_incl _ _ Hlt) _ _ _ _ _ Hc w2 Hw2)| |auto]. cbv beta. intros _ _ w3 Hw3.
      split; [exact Hq|]. split; [exact Hl|]. exists g, u2. split; [exact Hw3|]. split; [auto|]. intros k' ok Hk'. now apply Hno in Hk'. }
    apply with_result_wp. eapply wp_conseq; [apply (bv_default_ok moved quiet minc maxc (Nat.lt_le_incl _ _ Hlt) _ _ Hw)| |].
    + cbv beta. intros _ o w1 (h1 & Hw1 & Hc1).
      assert (forall o2 w2 h2 k2, at_ w2 h2 -> holds_cells (bounded_vector moved minc maxc) (bv_own minc maxc) o2 [] k2 h h2 -> length all <= k2 -> k2 = capacity_of o2 ->
                wp (append_all moved minc maxc n (seq 0 n)) (args ++ [Expiring o2]) w2
                 (fun args2 _ w2 => exists args' o', args2 = args' ++ [Expiring o'] /\
                    exists h', at_ w2 h' /\ vector_at o' all h' /\ apart (args' ++ [Expiring o']) base h' /\ length args' = n /\
                    (forall k a, nth_error args k = Some a -> exists a', nth_error args' k = Some a' /\ argument_left minc maxc h' a a') /\
                    (forall k ok, first_with_room args (length all) k ok -> b_storage o' = b_storage ok))
                 (fun args2 w2 => exists args' o', args2 = args' ++ [Expiring o'] /\
                    wp bv_destroy o' w2 (fun _ _ w3 => ~ quiet /\ length args' = n /\ exists h' u', at_ w3 h' /\
                    ((forall k ok, first_with_room args (length all) k ok -> concat (map u (seq 0 k)) = []) -> good args' u' base h') /\
                    (forall k ok, first_with_room args (length all) k ok -> good_but k args' u' base h')) (fun _ _ => False))) as Happ.
      { intros o2 w2 h2 k2 Hw2 Hc2 Hle Hcap.
        assert (good (args ++ [Expiring o2]) u0 base h2) as Hg2.
        { apply good_snoc. exists h. split.
          - apply Hu0; [|exact Hgood]. intros j Hj. unfold u0. destruct (Nat.eqb_spec j n); [lia|reflexivity].
          - fold n. rewrite En. apply (vec_cells_in moved). eauto. }
        eapply (append_all_ok n (seq 0 n) _ u0 o2); eauto.
        - rewrite nth_error_app2 by (unfold n; lia). unfold n. now rewrite Nat.sub_diag.
        - apply seq_NoDup.
        - intros j Hj. apply in_seq in Hj. rewrite app_length. unfold n in *. lia.
        - rewrite En, Em. fold all. cbn. lia.
        - intros args2 u2 w3 h3 Hw3 Hg3 Hal Hu3 Hmoved _. rewrite En, Em in Hu3. cbn in Hu3. fold all in Hu3. apply alike_snoc in Hal as (args' & o' & -> & [Hl Hal] & Hst).
          exists args', o'. split; [reflexivity|]. exists h3. split; [exact Hw3|]. pose proof Hg3 as [Hg4 Ha4].
          assert (nth_error (args' ++ [Expiring o']) n = Some (Expiring o')) as Hlast by (rewrite nth_error_app2 by (rewrite Hl; lia); rewrite Hl; now rewrite Nat.sub_diag).
          split. { specialize (Hg4 n _ Hlast). cbn in Hg4. now rewrite Hu3 in Hg4. } split; [exact Ha4|]. split; [exact Hl|]. split.
          + intros k a Hk. assert (k < n) by (unfold n; apply nth_error_Some; congruence). destruct (Hmoved k a) as [H1 H2]; [apply in_seq; lia|rewrite nth_error_app1; auto|].
            destruct (left_behind (args ++ [Expiring o2]) (args' ++ [Expiring o']) u2 h3 base Hg3) with (k := k) (a := a) as (a' & Ha' & Hleft); auto.
            * rewrite nth_error_app1; auto.
            * intros p ->. rewrite H2. reflexivity.
            * exists a'. split; [|exact Hleft]. rewrite nth_error_app1 in Ha' by (rewrite Hl; auto). exact Ha'.
          + intros k ok Hk. now apply Hno in Hk.
      }
      assert (capacity_of o = minc) as Hcap1.
      { destruct Hc1 as [Ho _]. unfold bv_own, capacity_of in *. destruct (bv_data o); destruct Ho as (Ho & Ho2 & Ho3); [destruct Ho3 as [Ho3 _]; cbn in Ho3; rewrite repeat_length in Ho3; auto|].
        rewrite Ho2. destruct Ho3 as [Ho3 _]. auto. }
      apply wp_bind. destruct always.
      * apply wp_ret. eapply Happ; eauto.
      * apply wp_bind. apply wp_require; [now apply Nat.leb_le|]. eapply on_argument_wp. { rewrite nth_error_app2 by (unfold n; lia). unfold n. rewrite Nat.sub_diag. reflexivity. }
        eapply wp_conseq; [apply (bv_reserve_ok moved quiet minc maxc (Nat.lt_le_incl _ _ Hlt) _ _ _ _ _ _ _ Hw1 Hc1 Hmax)| |]; cbv beta.
        -- intros o2 _ w2 (h2 & k2 & Hw2 & Hc2 & Hk2). rewrite set_nth_app by reflexivity. eapply Happ; eauto.
           ++ cbn [length] in Hk2. destruct (Nat.leb_spec (length all) (0 + minc)); lia.
           ++ destruct Hc2 as [Ho _]. unfold bv_own, capacity_of in *. destruct (bv_data o2); destruct Ho as (Ho & Ho2 & Ho3); [destruct Ho3 as [Ho3 _]; cbn in Ho3; rewrite repeat_length in Ho3; auto|].
              rewrite Ho2. destruct k2; [reflexivity|discriminate].
        -- intros o2 w2 (-> & Hw2 & Hq). rewrite set_nth_app by reflexivity. eapply (Hexc _ u0 h1); eauto; [|exists o; apply alike_refl].
           apply good_snoc. exists h. split.
           { apply Hu0; [|exact Hgood]. intros j Hj. unfold u0. destruct (Nat.eqb_spec j n); [lia|reflexivity]. }
           fold n. rewrite En. apply (vec_cells_in moved). exists minc. split; [exact Hc1|]. cbn. auto.
    + cbv beta. intros _ w1 [Hw1 Hq]. split; [exact Hq|]. split; [reflexivity|]. exists h, u. split; [exact Hw1|]. split; [auto|]. intros k ok Hk. now apply Hno in Hk.
Qed.
End Proofs.
