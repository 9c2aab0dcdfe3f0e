(** * Proofs about reverse *)

From Coq Require Import List Arith Bool Lia.
From Verif Require Import Mem MemLemmas Sort Reverse SpecVec SpecSort VecProofs.
Import ListNotations.

Section Proofs.
Context {V : Type} (quiet : Prop).
Local Notation M := (M V).
Local Notation world := (world V).
Local Notation at_ := (at_ quiet).

Lemma wp_swap_ends {X} b l1 u m v l2 i j h (x : X) (w : world) (Q : X -> unit -> world -> Prop) E :
  at_ w h -> h b = Some (l1 ++ map Some (u :: m ++ [v]) ++ l2) -> i = length l1 -> j = length l1 + S (length m) ->
  (forall w', at_ w' (upd h b (Some (l1 ++ map Some (v :: m ++ [u]) ++ l2))) -> Q x tt w') ->
  wp (swap_at (Some b) i j) x w Q E.
Proof.
  intros H Hb -> -> HQ. cbn [map app] in *. rewrite map_app in Hb. cbn [map] in Hb. rewrite <- app_assoc in Hb. cbn [app] in Hb.
  assert (nth_error (l1 ++ Some u :: map Some m ++ Some v :: l2) (length l1) = Some (Some u)) as H1 by now apply nth_error_mid.
  assert (l1 ++ Some u :: map Some m ++ Some v :: l2 = (l1 ++ Some u :: map Some m) ++ Some v :: l2) as Es by now rewrite <- app_assoc.
  assert (length l1 + S (length m) = length (l1 ++ Some u :: map Some m)) as Ej by (rewrite app_length; cbn [length]; rewrite map_length; lia).
  assert (nth_error (l1 ++ Some u :: map Some m ++ Some v :: l2) (length l1 + S (length m)) = Some (Some v)) as H2 by (rewrite Es; apply nth_error_mid; exact Ej).
  unfold swap_at. apply wp_bind. eapply wp_load; eauto. apply wp_bind. eapply wp_load; eauto.
  apply wp_bind. eapply wp_store; eauto. intros w1 Hw1.
  eapply wp_store with (l1 := l1 ++ Some v :: map Some m) (l2 := l2); eauto.
  - rewrite upd_same. now rewrite <- app_assoc.
  - rewrite app_length. cbn [length]. rewrite map_length. lia.
  - intros w2 Hw2. apply HQ. eapply at_ext; [exact Hw2|]. eapply eqh_trans; [apply upd_upd|]. rewrite map_app, <- !app_assoc. cbn [map app]. apply eqh_refl.
Qed.

Lemma ends_of (l : list V) : (exists n, length l = S (S n)) -> exists u m v, l = u :: m ++ [v].
Proof.
  intros [n Hn]. destruct l as [|u l]; [discriminate|]. destruct (exists_last (l := l)) as (m & v & ->); [intros ->; discriminate|]. eauto.
Qed.
Lemma rev_ends (u v : V) m : rev (u :: m ++ [v]) = v :: rev m ++ [u].
Proof. cbn. now rewrite rev_app_distr. Qed.

Lemma random_loop_ok {X} n : forall fuel b begin l1 (m : list V) l2 h (x : X) (w : world) (Q : X -> unit -> world -> Prop) E,
  length m <= n -> n < fuel -> begin <= length l1 -> at_ w h -> h b = Some (l1 ++ map Some m ++ l2) ->
  (forall w', at_ w' (upd h b (Some (l1 ++ map Some (rev m) ++ l2))) -> Q x tt w') ->
  wp (reverse_random_loop fuel (Some b) begin (length l1) (length l1 + length m - 1)) x w Q E.
Proof.
  induction n as [|n IH]; intros fuel b begin l1 m l2 h x w Q E Hn Hf Hbegin H Hb HQ; (destruct fuel as [|fuel]; [lia|]); cbn [reverse_random_loop].
  - destruct m; [|cbn in Hn; lia]. cbn [length]. destruct (Nat.ltb_spec (length l1) (length l1 + 0 - 1)); [lia|]. apply wp_ret. apply HQ.
    eapply at_ext; [exact H|]. now apply eqh_sym, upd_id.
  - destruct (Nat.ltb_spec (length l1) (length l1 + length m - 1)) as [Hlt|Hge].
    + destruct (ends_of m) as (u & mid & v & ->). { exists (length m - 2). lia. }
      assert (length (u :: mid ++ [v]) = S (S (length mid))) as Hl by (cbn [length]; rewrite app_length; cbn [length]; lia). rewrite Hl in *.
      apply wp_bind. eapply wp_swap_ends; eauto; [lia|]. intros w1 Hw1.
      apply wp_bind. unfold decrement. destruct (Nat.ltb_spec begin (length l1 + S (S (length mid)) - 1)); [|lia]. apply wp_ret.
      replace (S (length l1)) with (length (l1 ++ [Some v])) by (rewrite app_length; cbn; lia).
      replace (length l1 + S (S (length mid)) - 1 - 1) with (length (l1 ++ [Some v]) + length mid - 1) by (rewrite app_length; cbn; lia).
      eapply (IH fuel b begin (l1 ++ [Some v]) mid (Some u :: l2)); eauto; [lia|lia|rewrite app_length; lia| |].
      * rewrite upd_same. cbn [map]. rewrite map_app. cbn [map app]. rewrite <- !app_assoc. reflexivity.
      * intros w2 Hw2. apply HQ. eapply at_ext; [exact Hw2|]. eapply eqh_trans; [apply upd_upd|]. rewrite rev_ends. cbn [map].
        rewrite map_app. cbn [map app]. rewrite <- !app_assoc. apply eqh_refl.
    + apply wp_ret. apply HQ. eapply at_ext; [exact H|].
      replace (rev m) with m by (destruct m as [|? [|? ?]]; [reflexivity..|cbn in Hge; lia]). now apply eqh_sym, upd_id.
Qed.

Lemma bidirectional_loop_ok {X} n : forall fuel b begin l1 (m : list V) l2 h (x : X) (w : world) (Q : X -> unit -> world -> Prop) E,
  length m <= n -> n < fuel -> begin <= length l1 -> at_ w h -> h b = Some (l1 ++ map Some m ++ l2) ->
  (forall w', at_ w' (upd h b (Some (l1 ++ map Some (rev m) ++ l2))) -> Q x tt w') ->
  wp (reverse_bidirectional_loop fuel (Some b) begin (length l1) (length l1 + length m)) x w Q E.
Proof.
  induction n as [|n IH]; intros fuel b begin l1 m l2 h x w Q E Hn Hf Hbegin H Hb HQ; (destruct fuel as [|fuel]; [lia|]); cbn [reverse_bidirectional_loop].
  - destruct m; [|cbn in Hn; lia]. cbn [length]. destruct (Nat.eqb_spec (length l1) (length l1 + 0)); [|lia]. apply wp_ret. apply HQ.
    eapply at_ext; [exact H|]. now apply eqh_sym, upd_id.
  - destruct (Nat.eqb_spec (length l1) (length l1 + length m)) as [He|He].
    + destruct m; [|cbn in He; lia]. apply wp_ret. apply HQ. eapply at_ext; [exact H|]. now apply eqh_sym, upd_id.
    + apply wp_bind. unfold decrement. destruct (Nat.ltb_spec begin (length l1 + length m)); [|lia]. apply wp_ret.
      destruct (Nat.eqb_spec (length l1) (length l1 + length m - 1)) as [He1|He1].
      * apply wp_ret. apply HQ. eapply at_ext; [exact H|].
        replace (rev m) with m by (destruct m as [|? [|? ?]]; [reflexivity..|cbn in He1; lia]). now apply eqh_sym, upd_id.
      * destruct (ends_of m) as (u & mid & v & ->). { exists (length m - 2). lia. }
        assert (length (u :: mid ++ [v]) = S (S (length mid))) as Hl by (cbn [length]; rewrite app_length; cbn [length]; lia). rewrite Hl in *.
      apply wp_bind. eapply wp_swap_ends; eauto; [lia|]. intros w1 Hw1.
        replace (S (length l1)) with (length (l1 ++ [Some v])) by (rewrite app_length; cbn; lia).
        replace (length l1 + S (S (length mid)) - 1) with (length (l1 ++ [Some v]) + length mid) by (rewrite app_length; cbn; lia).
        eapply (IH fuel b begin (l1 ++ [Some v]) mid (Some u :: l2)); eauto; [lia|lia|rewrite app_length; lia| |].
        -- rewrite upd_same. cbn [map]. rewrite map_app. cbn [map app]. rewrite <- !app_assoc. reflexivity.
        -- intros w2 Hw2. apply HQ. eapply at_ext; [exact Hw2|]. eapply eqh_trans; [apply upd_upd|]. rewrite rev_ends. cbn [map].
           rewrite map_app. cbn [map app]. rewrite <- !app_assoc. apply eqh_refl.
Qed.

Lemma reverse_random_ok {X} b l1 (m : list V) l2 h (x : X) (w : world) (Q : X -> unit -> world -> Prop) E :
  at_ w h -> h b = Some (l1 ++ map Some m ++ l2) ->
  (forall w', at_ w' (upd h b (Some (l1 ++ map Some (rev m) ++ l2))) -> Q x tt w') ->
  wp (reverse_random (Some b) (length l1) (length l1 + length m)) x w Q E.
Proof.
  intros H Hb HQ. unfold reverse_random. destruct (Nat.eqb_spec (length l1) (length l1 + length m)) as [He|He].
  - destruct m; [|cbn in He; lia]. apply wp_ret. apply HQ. eapply at_ext; [exact H|]. now apply eqh_sym, upd_id.
  - apply wp_bind. unfold decrement. destruct (Nat.ltb_spec (length l1) (length l1 + length m)); [|lia]. apply wp_ret.
    eapply (random_loop_ok (length m)); eauto; lia.
Qed.
Lemma reverse_bidirectional_ok {X} b l1 (m : list V) l2 h (x : X) (w : world) (Q : X -> unit -> world -> Prop) E :
  at_ w h -> h b = Some (l1 ++ map Some m ++ l2) ->
  (forall w', at_ w' (upd h b (Some (l1 ++ map Some (rev m) ++ l2))) -> Q x tt w') ->
  wp (reverse_bidirectional (Some b) (length l1) (length l1 + length m)) x w Q E.
Proof. intros H Hb HQ. unfold reverse_bidirectional. eapply (bidirectional_loop_ok (length m)); eauto; lia. Qed.
End Proofs.
