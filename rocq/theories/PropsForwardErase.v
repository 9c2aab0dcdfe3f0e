(** * Property C87: erasing a range of a forward list *)

From Coq Require Import List Arith Bool Lia.
From Verif Require Import LinkedList SpecList LinkedListProofs ForwardListProofs ForwardErase PropsList.
Import ListNotations.
Local Open Scope nat_scope.

Section Erase.
Context {V : Type}.
Notation memory := (memory (option nat) V).
Lemma same_place_refl a : same_place a a = true.
Proof. destruct a; [apply Nat.eqb_refl|reflexivity]. Qed.
Lemma erase_until_ok l2 : forall (m : memory) s l1 l3 fuel, valid m -> forward_at m s (l1 ++ l2 ++ l3) -> length l2 < fuel ->
  exists m', erase_until_loop fuel (last_place l1 s) (place l3) (place (l2 ++ l3)) m = Returned tt m' /\ valid m' /\ forward_at m' s (l1 ++ l3) /\
    (forall p, In p (names_of l2) -> object_at m' p = None) /\ same_except (last_place l1 s :: names_of l2) m m'.
Proof.
  induction l2 as [|(p, v) l2 IH]; intros m s l1 l3 fuel Hv Hl Hf; (destruct fuel as [|fuel]; [lia|]); cbn [erase_until_loop app].
  - rewrite same_place_refl. exists m. split; [reflexivity|]. split; [exact Hv|]. split; [exact Hl|]. split; [intros p []|]. intros q _. reflexivity.
  - assert (N : NoDup (s :: names_of (l1 ++ (p, v) :: l2 ++ l3))) by apply Hl.
    assert (Hd : same_place (place ((p, v) :: l2 ++ l3)) (place l3) = false).
    { cbn. destruct l3 as [|(q, w) l3]; cbn; [reflexivity|]. apply Nat.eqb_neq. intros ->. apply nodup_cons in N as (N & _). rewrite fnames_app in N. apply nodup_app in N as (_ & N & _).
      cbn in N. apply nodup_cons in N as (_ & N). apply N. change (map fst (l2 ++ (q, w) :: l3)) with (names_of (l2 ++ (q, w) :: l3)). rewrite fnames_app. apply in_elt. }
    rewrite Hd. cbn [app] in Hl. destruct (erase_after_ok m s l1 p v (l2 ++ l3) Hv Hl) as (m1 & H1 & Hv1 & Hl1 & Ho1 & Hs1 & _). rewrite (f_returned _ _ _ _ _ H1).
    destruct (IH m1 s l1 l3 fuel Hv1 Hl1 ltac:(cbn in Hf; lia)) as (m2 & H2 & Hv2 & Hl2 & Ho2 & Hs2). exists m2. split; [exact H2|]. split; [exact Hv2|]. split; [exact Hl2|]. split.
    + intros q [<-|Hq]; [|apply Ho2, Hq]. cbn [fst]. rewrite Hs2; [exact Ho1|]. apply nodup_cons in N as (N & Ns). rewrite fnames_app in N, Ns. apply nodup_app in N as (_ & N2 & N1).
      intros [E|E].
      * destruct (last_in l1 s) as [F|F]; rewrite E in F; [subst s; apply Ns, in_elt|]. apply (N1 p F). now left.
      * cbn in N2. apply nodup_cons in N2 as (_ & N2). apply N2. change (map fst (l2 ++ l3)) with (names_of (l2 ++ l3)). rewrite fnames_app. apply in_or_app. now left.
    + eapply fsame_weaken; [eapply fsame_trans; [exact Hs1 | exact Hs2]|]. intros q. cbn. tauto.
Qed.
Lemma erase_past_end l2 : forall (m : memory) s l1 q fuel, valid m -> forward_at m s (l1 ++ l2) -> ~ In q (names_of l2) ->
  erase_until_loop fuel (last_place l1 s) (Some q) (place l2) m = Undefined.
Proof.
  induction l2 as [|(p, v) l2 IH]; intros m s l1 q fuel Hv Hl Hq; (destruct fuel as [|fuel]; [reflexivity|]); cbn [erase_until_loop].
  - cbn. unfold erase_after, bind. rewrite (place_link m s l1 [] Hl). reflexivity.
  - assert (Hd : same_place (place ((p, v) :: l2)) (Some q) = false) by (cbn; apply Nat.eqb_neq; intros ->; apply Hq; now left).
    rewrite Hd. destruct (erase_after_ok m s l1 p v l2 Hv Hl) as (m1 & H1 & Hv1 & Hl1 & _). rewrite (f_returned _ _ _ _ _ H1). apply IH; try assumption. intro H. apply Hq. now right.
Qed.
End Erase.
Local Notation fmemory := (LinkedList.memory (option nat)).

(** The elements between before_first and last end, all others stay in their order; nothing else changes. At the end last is null. *)
Theorem C87_erase_range_after : forall V (m : fmemory V) s l1 l2 l3, valid m -> forward_at m s (l1 ++ l2 ++ l3) ->
  exists m', erase_range_after (last_place l1 s) (hd_error (names_of l3)) m = Returned tt m' /\ valid m' /\ forward_at m' s (l1 ++ l3) /\
    (forall p, In p (names_of l2) -> object_at m' p = None) /\ same_except (last_place l1 s :: names_of l2) m m'.
Proof.
  intros V m s l1 l2 l3 Hv Hl. unfold erase_range_after. rewrite (f_returned _ _ _ _ _ (place_link m s l1 (l2 ++ l3) Hl)). unfold with_fuel. apply erase_until_ok; auto.
  pose proof (flength m s _ Hv Hl) as H. rewrite !app_length in H. lia.
Qed.
Print Assumptions C87_erase_range_after.

(** It is defined exactly when last is the end or an element after before_first. *)
Theorem C87_erase_range_after_exactly : forall V (m : fmemory V) s l1 l2 last, valid m -> forward_at m s (l1 ++ l2) ->
  (erase_range_after (last_place l1 s) last m = Undefined <-> exists q, last = Some q /\ ~ In q (names_of l2)).
Proof.
  intros V m s l1 l2 last Hv Hl. split.
  - intros H. assert (D : forall k2 k3, l2 = k2 ++ k3 -> last = hd_error (names_of k3) -> False).
    { intros k2 k3 -> ->. destruct (C87_erase_range_after V m s l1 k2 k3 Hv Hl) as (m' & E & _). congruence. }
    destruct last as [q|]; [|exfalso; apply (D l2 []); [symmetry; apply app_nil_r|reflexivity]]. exists q. split; [reflexivity|]. intros Hq.
    unfold names_of in Hq. apply in_map_iff in Hq as ((p, v) & E & Hq). cbn in E. subst p. apply in_split in Hq as (k2 & k3 & ->). apply (D k2 ((q, v) :: k3)); reflexivity.
  - intros (q & -> & Hq). unfold erase_range_after. rewrite (f_returned _ _ _ _ _ (place_link m s l1 l2 Hl)). unfold with_fuel. now apply erase_past_end.
Qed.
Print Assumptions C87_erase_range_after_exactly.

Example C87_erase_range_example :
  match forward_from [10; 20; 30; 40] (empty_memory (option nat) nat []) with
  | Returned s m => s = 0 /\ forward_at m 0 ([(1, 10)] ++ [(2, 20); (3, 30)] ++ [(4, 40)]) /\
      match erase_range_after 1 (Some 4) m with Returned _ m' => forward_at m' 0 [(1, 10); (4, 40)] | _ => False end /\
      erase_range_after 3 (Some 1) m = Undefined
  | _ => False
  end.
Proof.
  assert (T : forall (m : memory (option nat) nat) s l, (exists k, object_at m s = Some (Sentinel k)) -> (forall e, In e l -> exists k, object_at m (fst e) = Some (Node k (snd e))) ->
    NoDup (s :: names_of l) -> linked_to_null m (s :: names_of l) -> forward_at m s l).
  { intros m s l H1 H2 H3 H4. split; [exact H1|]. split; [intros p v Hp; exact (H2 _ Hp)|]. split; assumption. }
  vm_compute forward_from. split; [reflexivity|]. split; [|split; [|reflexivity]]; apply T; try (eexists; reflexivity); try (repeat constructor; cbn; lia);
    try (cbn; repeat split; eexists; split; reflexivity); intros e He; cbn in He; repeat destruct He as [<-|He]; try contradiction; eexists; reflexivity.
Qed.
