(** * Proofs about histories of a vector *)

From Coq Require Import List Arith Bool Lia.
From Verif Require Import Mem MemLemmas Vec VecLemmas VecLemmas2 VecLemmas3 VecInst SpecVec SpecHistory VecProofs VecProofs2 VecProofs3 VecCost.
Import ListNotations.

Section Proofs.
Context {V : Type} (moved : V -> V).
Context (minc maxc : nat) (Hlt : minc < maxc).
Local Notation world := (world V).
Local Notation memory := (@memory V).
Local Notation C := (bounded_vector (V := V) moved minc maxc).
Local Notation is_vec := (is_vector (V := V) minc maxc).
Let Hmm : minc <= maxc := Nat.lt_le_incl _ _ Hlt.

Lemma skipn_add {A} a b (l : list A) : skipn a (skipn b l) = skipn (a + b) l.
Proof.
  revert l. induction b as [|b IH]; intros l; [now rewrite Nat.add_0_r|]. rewrite Nat.add_succ_r. destruct l; cbn [skipn].
  - apply skipn_nil. - apply IH.
Qed.
Lemma makes_supply (m : memory) vs : Forall2 (makes m) (map Supply vs) vs.
Proof. induction vs; cbn; constructor; auto. reflexivity. Qed.

Lemma ends_weaken {X A} (r : out V X A) (Q Q' : X -> A -> world -> Prop) (E E' : X -> world -> Prop) :
  ends r Q E -> (forall x a w, Q x a w -> Q' x a w) -> (forall x w, E x w -> E' x w) -> ends r Q' E'.
Proof. destruct r; cbn; auto. Qed.
Lemma ends_bind_ret {X A} (m : M V X A) x w (Q : X -> unit -> world -> Prop) E :
  ends (m x w) (fun x' _ w' => Q x' tt w') E -> ends (bind m (fun _ => ret tt) x w) Q E.
Proof. unfold bind, ret. destruct (m x w); auto. Qed.

Lemma untouched_vec o o' vs (others : memory) (w w' : world) :
  is_vec o vs others w -> untouched o o' w w' -> is_vec o' vs others w'.
Proof.
  intros [(Hs & H) _] (-> & Hsame & Hu). split; auto. split; auto. destruct (u_pointer (b_storage o)) as [b|].
  - destruct H as (Hg & (k & Hb & Hk) & Hm). split; auto. split. { exists k. rewrite Hsame. auto. } intros b' Hb'. rewrite Hsame. auto.
  - destruct H as (H1 & H2 & H3 & H4). split; auto. split; auto. split; auto. intros b. rewrite Hsame. apply H4.
Qed.

Lemma grown_above o n : capacity_of o < n -> maxc < grown o n -> maxc < 2 * n.
Proof. unfold grown. destruct (Nat.leb_spec n (capacity_of o)); lia. Qed.

(** One call: what it makes of the elements, and when it may leave by an exception. *)
Lemma perform_ok c o vs others w :
  is_vec o vs others w -> may_call maxc c (length vs) = true ->
  ends (perform moved minc maxc c o w)
    (fun o' _ w' => is_vec o' (after c vs) others w')
    (fun o' w' => (someone_throws w \/ maxc < 2 * length (after c vs)) /\
       exists vs', interrupted c vs vs' /\ is_vec o' vs' others w').
Proof.
  intros Hv Hc. destruct c as [v| | |first last|p|us|i us|n v|n| |us]; cbn [may_call perform after interrupted] in *.
  - apply Nat.leb_le in Hc. eapply ends_weaken. { apply (push_back_vec moved minc maxc Hmm); [exact Hv|reflexivity|]. right. right. lia. }
    + cbv beta. tauto.
    + cbv beta. intros o' w' (Hun & [Ht|[Ht _]]); [|lia]. split; auto. exists vs. split; auto. eapply untouched_vec; eauto.
  - apply Nat.leb_le in Hc. destruct (@exists_last _ vs) as (l & v & ->). { destruct vs; cbn in *; [lia|discriminate]. }
    eapply ends_weaken. { eapply (pop_back_vec moved minc maxc Hmm). exact Hv. }
    + cbv beta. intros o' _ w' [H _]. rewrite app_length. cbn. replace (length l + 1 - 1) with (length l) by lia.
      now rewrite firstn_app, Nat.sub_diag, firstn_all, app_nil_r.
    + contradiction.
  - eapply ends_weaken. { eapply (clear_vec moved minc maxc Hmm). exact Hv. }
    + cbv beta. tauto.
    + contradiction.
  - apply andb_prop in Hc. destruct Hc as [H1 H2]. apply Nat.leb_le in H1, H2. apply ends_bind_ret.
    assert (Hsplit : vs = firstn first vs ++ firstn (last - first) (skipn first vs) ++ skipn last vs).
    { replace last with (last - first + first) at 2 by lia. rewrite <- skipn_add, firstn_skipn. now rewrite firstn_skipn. }
    assert (Hf : length (firstn first vs) = first) by (rewrite firstn_length; lia).
    assert (Hl : length (firstn (last - first) (skipn first vs)) = last - first) by (rewrite firstn_length, skipn_length; lia).
    pose proof (erase_vec moved minc maxc Hmm o (firstn first vs) (firstn (last - first) (skipn first vs)) (skipn last vs) others w) as He.
    rewrite <- Hsplit, Hf, Hl in He. replace (first + (last - first)) with last in He by lia.
    eapply ends_weaken. { apply He. exact Hv. } { cbv beta. tauto. } { contradiction. }
  - apply ends_bind_ret. eapply ends_weaken. { apply (erase_if_vec moved minc maxc Hmm). exact Hv. }
    + cbv beta. intros o' r w' [H _]. exact H.
    + cbv beta. intros o' w' [Ht (us & Hl & Hus)]. split; eauto.
  - eapply ends_weaken. { apply (append_vec moved minc maxc Hmm (map Supply us) us o vs others w Hlt Hv (makes_supply _ _)). }
    + cbv beta. tauto.
    + cbv beta. intros o' w' [Hun Ht]. split. { destruct Ht as [|[H1 H2]]; auto. right. eapply grown_above; eauto. }
      exists vs. split; auto. eapply untouched_vec; eauto.
  - apply andb_prop in Hc. destruct Hc as [H1 H2]. apply Nat.leb_le in H1. apply ends_bind_ret.
    assert (Hf : length (firstn i vs) = i) by (rewrite firstn_length; lia).
    assert (Hne : map Supply us <> [] \/ skipn i vs = []).
    { apply orb_prop in H2. destruct H2 as [H2|H2]; [left|right].
      - apply negb_true_iff, Nat.eqb_neq in H2. destruct us; [now elim H2|discriminate].
      - apply Nat.eqb_eq in H2. apply skipn_all2. lia. }
    pose proof (insert_vec moved minc maxc Hmm (map Supply us) us o (firstn i vs) (skipn i vs) others w) as Hi.
    rewrite firstn_skipn, Hf in Hi. specialize (Hi Hv (makes_supply _ _) Hne).
    eapply ends_weaken. { exact Hi. }
    + cbv beta. tauto.
    + cbv beta. intros o' w' [Hun Ht]. split. { destruct Ht as [|[H3 H4]]; auto. right. eapply grown_above; eauto. }
      exists vs. split; auto. eapply untouched_vec; eauto.
  - eapply ends_weaken. { apply (resize_vec moved minc maxc Hmm (Supply v) v n o vs others w Hlt Hv). reflexivity. }
    + cbv beta. tauto.
    + cbv beta. intros o' w' [Hun Ht]. split.
      { destruct Ht as [|[H3 H4]]; auto. right. pose proof (grown_above _ _ H3 H4). rewrite app_length, firstn_length, repeat_length. lia. }
      exists vs. split; auto. eapply untouched_vec; eauto.
  - apply Nat.leb_le in Hc. eapply ends_weaken. { apply (reserve_vec moved minc maxc Hmm); eauto. }
    + cbv beta. tauto.
    + cbv beta. intros o' w' [Hun Ht]. split; auto. exists vs. split; auto. eapply untouched_vec; eauto.
  - eapply ends_weaken. { apply (shrink_vec moved minc maxc Hmm); eauto. }
    + cbv beta. tauto.
    + cbv beta. intros o' w' [Hun Ht]. split; auto. exists vs. split; auto. eapply untouched_vec; eauto.
  - eapply ends_weaken. { apply (assign_vec moved minc maxc Hmm (map Supply us) us o vs others w Hlt Hv (makes_supply _ _)). }
    + cbv beta. tauto.
    + cbv beta. intros o' w' [Ht (n & Hn1 & Hn2 & H)]. split. { destruct Ht as [|[H3 H4]]; auto. right. eapply grown_above; eauto. }
      exists (firstn n us ++ skipn n vs). split; eauto.
Qed.

Lemma history_ok cs : forall o vs others w,
  is_vec o vs others w ->
  ends (history moved minc maxc cs o w)
    (fun o' _ w' => exists vs', explains maxc cs vs vs' /\ is_vec o' vs' others w')
    (fun _ _ => False).
Proof.
  induction cs as [|c cs IH]; intros o vs others w Hv; cbn [history].
  - cbn. exists vs. split; auto. constructor.
  - unfold bind, get. pose proof (proj1 (proj1 Hv)) as Hs. rewrite Hs.
    destruct (may_call maxc c (length vs)) eqn:Hc.
    + unfold catch. pose proof (perform_ok c o vs others w Hv Hc) as Hp. unfold ends in Hp.
      destruct (perform moved minc maxc c o w) as [o1 [] w1|o1 w1|]; [| |contradiction].
      * eapply ends_weaken. { apply (IH _ _ _ _ Hp). } 2: auto. cbv beta. intros o' _ w' (vs' & He & H'). exists vs'. split; auto. now apply explains_returns.
      * destruct Hp as [_ (vs1 & Hi & Hv1)]. eapply ends_weaken. { apply (IH _ _ _ _ Hv1). } 2: auto.
        cbv beta. intros o' _ w' (vs' & He & H'). exists vs'. split; auto. eapply explains_throws; eauto.
    + unfold ret. eapply ends_weaken. { apply (IH _ _ _ _ Hv). } 2: auto. cbv beta. intros o' _ w' (vs' & He & H'). exists vs'. split; auto. now apply explains_skips.
Qed.

Lemma lifetime_ok cs w :
  unused_names w ->
  ends (lifetime moved minc maxc cs tt w) (fun _ _ w' => same (heap w') (heap w)) (fun _ w' => same (heap w') (heap w)).
Proof.
  intros Hu. unfold lifetime. pose proof (default_vec moved minc maxc Hmm w Hu) as Hd. unfold ends in Hd |- *.
  destruct (bv_default minc tt w) as [x o w1|x w1|]; [|tauto|auto]. destruct Hd as [Hv _].
  pose proof (history_ok cs o [] (heap w) w1 Hv) as Hh. unfold ends in Hh.
  destruct (history moved minc maxc cs o w1) as [o2 [] w2|o2 w2|]; try contradiction. destruct Hh as (vs' & _ & Hv2).
  pose proof (destroy_vec moved minc maxc Hmm o2 vs' (heap w) w2 Hv2) as Hd2. unfold ends in Hd2.
  destruct (bv_destroy o2 w2); try contradiction. exact Hd2.
Qed.

(** When nothing throws and the capacity is not exhausted. *)
Lemma perform_evolves {R} (EV : evolution R) c : evolves R 2 (perform moved minc maxc c).
Proof.
  clear Hmm Hlt.
  pose proof (evolves_default R EV minc : evolves R 1 (bv_default (V := V) minc)) as Hd.
  destruct c; cbn [perform].
  - apply (evolves_push_back moved R EV minc maxc 1 Hd).
  - eapply (evolves_weaken R EV 0); [apply (evolves_pop_back moved R EV)|lia].
  - eapply (evolves_weaken R EV 0); [apply (evolves_clear moved R EV)|lia].
  - eapply (evolves_weaken R EV 0); [apply (evolves_bind0 R EV); [apply (evolves_erase moved R EV)|intros; apply (evolves_ret R EV)]|lia].
  - eapply (evolves_weaken R EV 0); [apply (evolves_bind0 R EV); [apply (evolves_erase_if moved R EV)|intros; apply (evolves_ret R EV)]|lia].
  - apply (evolves_append_sized moved R EV minc maxc 1 Hd).
  - apply (evolves_bind R EV 2 0); [apply (evolves_insert moved R EV minc maxc 1 Hd)|intros; apply (evolves_ret R EV)].
  - apply (evolves_resize moved R EV minc maxc 1 Hd).
  - eapply (evolves_weaken R EV 1); [apply (evolves_reserve moved R EV)|lia].
  - apply (evolves_shrink moved R EV minc maxc 1 Hd).
  - apply (evolves_assign moved R EV minc maxc 1 Hd).
Qed.

Lemma history_straight cs : forall o vs others w,
  is_vec o vs others w -> ~ someone_throws w -> Forall (fun n => 2 * n <= maxc) (demands maxc cs vs) ->
  ends (history moved minc maxc cs o w)
    (fun o' _ w' => is_vec o' (straight maxc cs vs) others w') (fun _ _ => False).
Proof.
  induction cs as [|c cs IH]; intros o vs others w Hv Hq Hd; cbn [history straight demands] in *.
  - exact Hv.
  - unfold bind, get. pose proof (proj1 (proj1 Hv)) as Hs. rewrite Hs.
    destruct (may_call maxc c (length vs)) eqn:Hc.
    + unfold catch. pose proof (perform_ok c o vs others w Hv Hc) as Hp. unfold ends in Hp.
      pose proof (perform_evolves less_script_evolution c o w) as He.
      inversion Hd as [|? ? Hd1 Hd2]; subst.
      destruct (perform moved minc maxc c o w) as [o1 [] w1|o1 w1|]; [| |contradiction].
      * apply IH; auto. intros Ht. apply Hq. apply He. exact Ht.
      * destruct Hp as [[Ht|Ht] _]; [contradiction|lia].
    + unfold ret. inversion Hd; subst. apply IH; auto.
Qed.
End Proofs.

Section Allocations.
Context {V : Type} (moved : V -> V) (maxc : nat) (Hpos : 0 < maxc).
Local Notation world := (world V).
Local Notation memory := (@memory V).

(** [a] blocks were allocated for [n] elements, and the capacity is [c]. *)
Definition doubled (a c n : nat) : Prop :=
  n <= c /\ (a = 0 /\ c = 0 \/ a = 1 /\ c = 1 \/ exists e, a = S (S e) /\ c = 2 ^ S e /\ 2 ^ e < n).

Lemma pushes_count us : forall o vs (others : memory) (w : world) a,
  is_vector 0 maxc o vs others w -> ~ someone_throws w -> 2 * (length vs + length us) <= maxc ->
  doubled a (capacity_of o) (length vs) ->
  ends (history moved 0 maxc (map PushBack us) o w)
    (fun o' _ w' => is_vector 0 maxc o' (vs ++ us) others w' /\
       exists a', next w' <= next w + (a' - a) /\ a <= a' /\ doubled a' (capacity_of o') (length vs + length us))
    (fun _ _ => False).
Proof.
  induction us as [|u us IH]; intros o vs others w a Hv Hq Hmax Hd; cbn [map history].
  - cbn. rewrite app_nil_r. split; auto. exists a. rewrite Nat.add_0_r. split; [lia|]. split; auto.
  - unfold bind, get. pose proof (proj1 (proj1 Hv)) as Hs. rewrite Hs. cbn [may_call perform length] in *.
    rewrite (proj2 (Nat.leb_le _ _)) by lia. unfold catch.
    assert (Hroom : length vs < capacity_of o \/ 0 = maxc \/ 1 <= maxc /\ 2 * length vs <= maxc) by lia.
    pose proof (push_back_vec moved 0 maxc (Nat.le_0_l _) (Supply u) u o vs others w Hv eq_refl Hroom) as Hp. unfold ends in Hp.
    pose proof (evolves_push_back moved _ (@new_blocks_evolution V) 0 maxc 0 (evolves_default_0 _ new_blocks_evolution 0 eq_refl) (Supply u) o w) as Hn.
    pose proof (evolves_push_back moved _ (@less_script_evolution V) 0 maxc 0 (evolves_default_0 _ less_script_evolution 0 eq_refl) (Supply u) o w) as Hl.
    assert (Hstay : length vs < capacity_of o ->
        match push_back moved (bounded_vector moved 0 maxc) (Supply u) o w with Ret _ _ w' | Exc _ w' => new_blocks 0 w w' | Bad _ => True end).
    { intros Hlt. unfold push_back, lazy_push_back. destruct (c_max _ =? 0). { apply (ev_refl _ new_blocks_evolution). }
      unfold bind, get. cbn [bounded_vector c_capacity c_size]. rewrite (capacity_is 0 maxc _ _ _ _ Hv), Hs.
      rewrite (proj2 (Nat.ltb_lt _ _) Hlt). exact (evolves_into_capacity moved _ new_blocks_evolution 0 maxc (Supply u) o w). }
    destruct (push_back moved (bounded_vector moved 0 maxc) (Supply u) o w) as [o1 [] w1|o1 w1|]; [| |contradiction].
    2:{ destruct Hp as [_ [Ht|[Ht _]]]; [contradiction|lia]. }
    destruct Hp as [Hv1 Hc1].
    assert (Hd1 : exists a1, next w1 <= next w + (a1 - a) /\ a <= a1 /\ doubled a1 (capacity_of o1) (length (vs ++ [u]))).
    { rewrite Hc1. unfold grown. rewrite app_length in *. cbn [length] in *. destruct Hd as [Hn1 Hd].
      destruct (Nat.leb_spec (length vs + 1) (capacity_of o)) as [Hle|Hgt].
      - exists a. specialize (Hstay ltac:(lia)). unfold new_blocks in Hstay. split; [lia|]. split; auto. split; [lia|].
        destruct Hd as [Hd|[Hd|(e & He1 & He2 & He3)]]; [lia|lia|]. right. right. exists e. split; [|split]; auto. lia.
      - exists (S a). unfold new_blocks in Hn. split; [lia|]. split; [lia|]. split; [lia|].
        assert (Hcap : capacity_of o = length vs) by lia.
        destruct Hd as [[-> Hc0]|[[-> Hc0]|(e & -> & He2 & He3)]].
        + right. left. lia.
        + right. right. exists 0. cbn. lia.
        + right. right. exists (S e). split; auto. rewrite Hcap, <- He2 in *. cbn [Nat.pow] in *. lia. }
    destruct Hd1 as (a1 & Ha1 & Ha1' & Hd1).
    eapply ends_weaken. { apply (IH o1 (vs ++ [u]) others w1 a1 Hv1); auto. { intros Ht. apply Hq, Hl, Ht. } rewrite app_length. cbn. lia. }
    2: auto.
    cbv beta. intros o' _ w' [Hv' (a' & H1 & H2 & H3)]. rewrite <- app_assoc in Hv'. split; auto. exists a'.
    rewrite app_length in H3. cbn in H3. split; [lia|]. split; [lia|]. replace (length vs + S (length us)) with (length vs + 1 + length us) by lia. exact H3.
Qed.

Lemma pushes_log us o (others : memory) (w : world) :
  is_vector 0 maxc o [] others w -> capacity_of o = 0 -> ~ someone_throws w -> 2 * length us <= maxc ->
  ends (history moved 0 maxc (map PushBack us) o w)
    (fun o' _ w' => is_vector 0 maxc o' us others w' /\ next w' <= next w + 1 + Nat.log2_up (length us))
    (fun _ _ => False).
Proof.
  intros Hv Hc Hq Hmax. eapply ends_weaken. { apply (pushes_count us o [] others w 0 Hv Hq Hmax). split; [rewrite Hc; cbn; lia|]. left. auto. }
  2: auto. cbv beta. intros o' _ w' [Hv' (a & H1 & _ & _ & Hd)]. split; auto. cbn [length Nat.add] in Hd.
  destruct Hd as [[-> _]|[[-> _]|(e & -> & _ & He)]]; [lia|lia|].
  apply Nat.log2_up_lt_pow2 in He; lia.
Qed.
End Allocations.
