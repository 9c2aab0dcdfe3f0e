(** * Proofs about the list with the interface of the standard library *)

From Coq Require Import List Arith Bool ZArith Lia.
From Verif Require Import LinkedList SpecList StdList SpecStdList LinkedListProofs LinkedListProofs2 LinkedListProofs3 LinkedListProofs4 LinkedListProofs5.
Import ListNotations.
Local Open Scope nat_scope.

Section Proofs.
Context {V : Type}.
Local Notation memory := (memory (nat * nat) V).
Local Notation S' := (S' V).
Local Notation zlen l := (Z.of_nat (length l)).

Lemma sbind_returned {A C} (x : S' A) (f : A -> S' C) z m a z1 m1 : x z m = SReturned a z1 m1 -> sbind x f z m = f a z1 m1.
Proof. intros H. unfold sbind. now rewrite H. Qed.
Lemma sbind_threw {A C} (x : S' A) (f : A -> S' C) z m z1 m1 : x z m = SThrew z1 m1 -> sbind x f z m = SThrew z1 m1.
Proof. intros H. unfold sbind. now rewrite H. Qed.
Lemma lift_bind {A C} (x : M (nat * nat) V A) (f : A -> S' C) z m a m1 : x m = Returned a m1 -> sbind (lift x) f z m = f a z m1.
Proof. intros H. unfold sbind, lift. now rewrite H. Qed.
Lemma lift_threw {A C} (x : M (nat * nat) V A) (f : A -> S' C) z m m1 : x m = Threw m1 -> sbind (lift x) f z m = SThrew z m1.
Proof. intros H. unfold sbind, lift. now rewrite H. Qed.
Lemma lift_returned {A} (x : M (nat * nat) V A) z m a m1 : x m = Returned a m1 -> lift x z m = SReturned a z m1.
Proof. intros H. unfold lift. now rewrite H. Qed.
Lemma sfinally_returned {A} (x : S' A) f z m a z1 m1 z2 m2 : x z m = SReturned a z1 m1 -> f z1 m1 = SReturned tt z2 m2 -> sfinally x f z m = SReturned a z2 m2.
Proof. intros H1 H2. unfold sfinally. now rewrite H1, H2. Qed.
Lemma sfinally_threw {A} (x : S' A) f z m z1 m1 z2 m2 : x z m = SThrew z1 m1 -> f z1 m1 = SReturned tt z2 m2 -> sfinally x f z m = SThrew z2 m2.
Proof. intros H1 H2. unfold sfinally. now rewrite H1, H2. Qed.

(** *** Counts *)
Definition upd (z : sizes) (s : nat) (n : Z) : sizes := fun q => if q =? s then wrap n else z q.
Lemma upd_same z s n : upd z s n s = wrap n.
Proof. unfold upd. now rewrite Nat.eqb_refl. Qed.
Lemma upd_other z s n q : q <> s -> upd z s n q = z q.
Proof. intros H. unfold upd. now rewrite (proj2 (Nat.eqb_neq q s) H). Qed.
Lemma set_bind {C} s n (f : unit -> S' C) z m : sbind (set_size s n) f z m = f tt (upd z s n) m.
Proof. reflexivity. Qed.
Lemma add_bind {C} s n (f : unit -> S' C) z m : sbind (add_size s n) f z m = f tt (upd z s (z s + n)) m.
Proof. reflexivity. Qed.
Lemma add_run s n z (m : memory) : add_size s n z m = SReturned tt (upd z s (z s + n)) m.
Proof. reflexivity. Qed.
Lemma size_bind {C} s (f : Z -> S' C) z m : sbind (size_of s) f z m = f (z s) z m.
Proof. reflexivity. Qed.
Lemma wrap_add a b : wrap (wrap a + b) = wrap (a + b).
Proof. unfold wrap. apply Zplus_mod_idemp_l. Qed.
Lemma wrap_wrap a : wrap (wrap a) = wrap a.
Proof. unfold wrap. apply Zmod_mod. Qed.
Lemma wrap_count a b : a = wrap b -> forall c d, (b + c)%Z = d -> wrap (a + c) = wrap d.
Proof. intros -> c d <-. apply wrap_add. Qed.
Lemma wrap_len a (l : list (nat * V)) n k : a = wrap (zlen l) -> (zlen l + n)%Z = zlen (k : list (nat * V)) -> wrap (a + n) = (zlen k mod 2 ^ 64)%Z.
Proof. intros H1 H2. exact (wrap_count _ _ H1 _ _ H2). Qed.

Definition below (ss : list nat) (m : memory) (z z' : sizes) := forall q, ~ In q ss -> q < names m -> z' q = z q.
Lemma below_refl ss (m : memory) z : below ss m z z.
Proof. intros q _ _. reflexivity. Qed.
Lemma below_trans ss (m m1 : memory) z z1 z2 : below ss m z z1 -> names m <= names m1 -> below ss m1 z1 z2 -> below ss m z z2.
Proof. intros H1 H2 H3 q Hq Hn. rewrite H3, H1; auto; lia. Qed.
Lemma below_kept ss (m : memory) z z' : valid m -> below ss m z z' -> sizes_kept ss m z z'.
Proof. intros Hv H q Hq Ho. apply H; [exact Hq|]. now apply Hv. Qed.
Lemma others_below s (m : memory) (z z' : sizes) : (forall q, q <> s -> z' q = z q) -> below [s] m z z'.
Proof. intros H q Hq _. apply H. intros ->. apply Hq. now left. Qed.

(** *** distance *)
Lemma first_differ (m : memory) s l1 p v l2 l3 : list_at m s (l1 ++ ((p, v) :: l2) ++ l3) -> p <> first_of l3 s.
Proof.
  intros (_ & _ & N & _). rewrite !names_app in N. cbn [SpecList.names_of map fst app] in N. intros E. destruct l3 as [|(q, u) l3]; cbn [first_of fst] in E; subst.
  - apply NoDup_cons_iff in N as (N & _). apply N. apply in_or_app. right. now left.
  - apply NoDup_cons_iff in N as (_ & N). apply NoDup_remove_2 in N. apply N. apply in_or_app. right. apply in_or_app. right. now left.
Qed.
Lemma distance_ok (m : memory) s l3 l2 : forall l1 fuel d, list_at m s (l1 ++ l2 ++ l3) -> length l2 < fuel ->
  list_distance fuel (first_of (l2 ++ l3) s) (first_of l3 s) d m = Returned (d + zlen l2)%Z m.
Proof.
  induction l2 as [|(p, v) l2 IH]; intros l1 fuel d Hl Hf; (destruct fuel as [|fuel]; [lia|]); cbn [list_distance].
  - cbn [app length]. rewrite Nat.eqb_refl. unfold ret. f_equal. lia.
  - cbn [app first_of fst]. rewrite (proj2 (Nat.eqb_neq _ _) (first_differ _ _ _ _ _ _ _ Hl)).
    cbn [app] in Hl. rewrite (bind_returned _ _ _ _ _ (next_ok m s l1 p v (l2 ++ l3) Hl)). cbn [length] in *. rewrite (IH (l1 ++ [(p, v)])); [f_equal; lia| |lia].
    rewrite <- app_assoc. exact Hl.
Qed.
Lemma distance_run (m : memory) s l1 l2 l3 : valid m -> list_at m s (l1 ++ l2 ++ l3) ->
  with_fuel (fun fuel => list_distance fuel (first_of (l2 ++ l3) s) (first_of l3 s) 0) m = Returned (zlen l2) m.
Proof.
  intros Hv Hl. unfold with_fuel. rewrite (distance_ok m s l3 l2 l1); [f_equal; lia|exact Hl|]. pose proof (list_length m s _ Hv Hl). rewrite !app_length in H. lia.
Qed.

(** *** push_back, pop_back, clear *)
Lemma sized_push_back_ok z (m : memory) s l v : valid m -> sized_at z m s l ->
  match sized_push_back s v z m with
  | SReturned p z' m' => p = names m /\ valid m' /\ sized_at z' m' s (l ++ [(p, v)]) /\ (forall q, q <> s -> z' q = z q) /\ same_except (p :: s :: names_of l) m m' /\ names m' = S (names m)
  | SThrew z' m' => same_except [] m m' /\ valid m' /\ names m <= names m' /\ z' = z
  | SUndefined => False
  end.
Proof.
  intros Hv (Hl & Hz). unfold sized_push_back. pose proof (push_back_ok m s l v Hv Hl) as H. destruct (list_push_back s v m) as [p m1|m1|] eqn:E; [| |contradiction].
  - rewrite (lift_bind _ _ _ _ _ _ E), add_bind. unfold sret. destruct H as (-> & H1 & H2 & H3 & H4). split; [reflexivity|]. split; [exact H1|]. split; [split; [exact H2|]|].
    + rewrite upd_same. eapply wrap_len; [exact Hz|]. rewrite app_length. cbn [length]. lia.
    + split; [intros q Hq; now apply upd_other|]. auto.
  - rewrite (lift_threw _ _ _ _ _ E). destruct H as (H1 & H2 & H3). auto.
Qed.
Lemma sized_pop_back_ok z (m : memory) s l p v : valid m -> sized_at z m s (l ++ [(p, v)]) ->
  exists z' m', sized_pop_back s z m = SReturned tt z' m' /\ list_pop_back s m = Returned tt m' /\ valid m' /\ sized_at z' m' s l /\ (forall q, q <> s -> z' q = z q) /\
    object_at m' p = None /\ same_except (p :: s :: names_of l) m m' /\ names m' = names m.
Proof.
  intros Hv (Hl & Hz). destruct (unlinked_last m s l p v Hl Hv) as (m1 & H1 & H2 & H3 & H4 & H5 & H6). unfold sized_pop_back. rewrite (lift_bind _ _ _ _ _ _ H1), add_run.
  do 2 eexists. split; [reflexivity|]. split; [exact H1|]. split; [exact H2|]. split; [split; [exact H3|]|].
  - rewrite upd_same. eapply wrap_len; [exact Hz|]. rewrite app_length. cbn [length]. lia.
  - split; [intros q Hq; now apply upd_other|]. auto.
Qed.
Lemma sized_clear_loop_ok l : forall z (m : memory) s fuel, valid m -> sized_at z m s l -> length l < fuel ->
  exists z' m', sized_clear_loop fuel s z m = SReturned tt z' m' /\ list_clear_loop fuel s m = Returned tt m' /\ z' s = 0%Z /\ (forall q, q <> s -> z' q = z q).
Proof.
  induction l as [|(p, v) l IH] using rev_ind; intros z m s fuel Hv Hl Hf; (destruct fuel as [|fuel]; [lia|]); cbn [sized_clear_loop list_clear_loop];
    rewrite (bind_returned _ _ _ _ _ (empty_ok m s _ (proj1 Hl))), (lift_bind _ _ _ _ _ _ (empty_ok m s _ (proj1 Hl))).
  - exists z, m. split; [reflexivity|]. split; [reflexivity|]. split; [apply Hl|auto].
  - assert (E : match l ++ [(p, v)] with [] => true | _ => false end = false) by (destruct l; reflexivity). rewrite E. clear E.
    destruct (sized_pop_back_ok z m s l p v Hv Hl) as (z1 & m1 & H1 & H1' & Hv1 & Hl1 & Hz1 & _). rewrite (bind_returned _ _ _ _ _ H1'), (sbind_returned _ _ _ _ _ _ _ H1).
    rewrite app_length in Hf. cbn in Hf. destruct (IH z1 m1 s fuel Hv1 Hl1 ltac:(lia)) as (z2 & m2 & H2 & H2' & Hs2 & Hz2).
    exists z2, m2. split; [exact H2|]. split; [exact H2'|]. split; [exact Hs2|]. intros q Hq. rewrite Hz2, Hz1; auto.
Qed.
Lemma sized_clear_ok z (m : memory) s l : valid m -> sized_at z m s l ->
  exists z' m', sized_clear s z m = SReturned tt z' m' /\ valid m' /\ sized_at z' m' s [] /\ (forall q, q <> s -> z' q = z q) /\
    (forall p, In p (names_of l) -> object_at m' p = None) /\ same_except (s :: names_of l) m m'.
Proof.
  intros Hv Hl. pose proof (list_length m s l Hv (proj1 Hl)). destruct (sized_clear_loop_ok l z m s (S (names m)) Hv Hl ltac:(lia)) as (z1 & m1 & H1 & H1' & Hs1 & Hz1).
  destruct (clear_ok m s l Hv (proj1 Hl)) as (m2 & H2 & H3 & H4 & H5 & H6 & _). unfold list_clear, with_fuel in H2. rewrite H1' in H2. injection H2 as <-.
  exists z1, m1. split; [exact H1|]. split; [exact H3|]. split; [split; [exact H4|exact Hs1]|]. auto.
Qed.

(** *** splice *)
Lemma sized_splice_ok z (m : memory) s t k1 k2 l1 l2 l3 : valid m -> sized_at z m s (k1 ++ k2) -> sized_at z m t (l1 ++ l2 ++ l3) ->
  (forall p, In p (s :: names_of (k1 ++ k2)) -> In p (t :: names_of (l1 ++ l2 ++ l3)) -> False) ->
  exists z' m', sized_splice s (first_of k2 s) t (first_of (l2 ++ l3) t) (first_of l3 t) z m = SReturned tt z' m' /\
    list_splice (first_of k2 s) (first_of (l2 ++ l3) t) (first_of l3 t) m = Returned tt m' /\ valid m' /\
    sized_at z' m' s (k1 ++ l2 ++ k2) /\ sized_at z' m' t (l1 ++ l3) /\ (forall q, q <> s -> q <> t -> z' q = z q) /\
    same_except (s :: t :: names_of (k1 ++ k2) ++ names_of (l1 ++ l2 ++ l3)) m m' /\ names m' = names m.
Proof.
  intros Hv (Hs & Hzs) (Ht & Hzt) Hd. destruct (splice_valid m s t k1 k2 l1 l2 l3 Hv Hs Ht Hd) as (m1 & H1 & H2 & H3 & H4 & H5 & H6).
  assert (Hne : t <> s) by (intros ->; apply (Hd s); now left). unfold sized_splice. rewrite (proj2 (Nat.eqb_neq t s) Hne).
  rewrite (lift_bind _ _ _ _ _ _ (distance_run m t l1 l2 l3 Hv Ht)), !add_bind, (lift_returned _ _ _ _ _ H1). do 2 eexists. split; [reflexivity|].
  split; [exact H1|]. split; [exact H2|]. rewrite (upd_other _ t _ s) by congruence. split; [split; [exact H3|]|split; [split; [exact H4|]|split; [|auto]]].
  - rewrite upd_same. eapply wrap_len; [exact Hzs|]. rewrite !app_length. lia.
  - rewrite upd_other, upd_same by congruence. eapply wrap_len; [exact Hzt|]. rewrite !app_length. lia.
  - intros q Hq1 Hq2. now rewrite !upd_other.
Qed.
Lemma sized_splice_all_ok z (m : memory) s t k1 k2 l : valid m -> sized_at z m s (k1 ++ k2) -> sized_at z m t l ->
  (forall p, In p (s :: names_of (k1 ++ k2)) -> In p (t :: names_of l) -> False) ->
  exists z' m', sized_splice_all s (first_of k2 s) t z m = SReturned tt z' m' /\ valid m' /\
    sized_at z' m' s (k1 ++ l ++ k2) /\ sized_at z' m' t [] /\ (forall q, q <> s -> q <> t -> z' q = z q) /\
    same_except (s :: t :: names_of (k1 ++ k2) ++ names_of l) m m' /\ names m' = names m.
Proof.
  intros Hv (Hs & Hzs) (Ht & Hzt) Hd. assert (Hne : t <> s) by (intros ->; apply (Hd s); now left).
  destruct (splice_valid m s t k1 k2 [] l [] Hv Hs) as (m1 & H1 & H2 & H3 & H4 & H5 & H6); [cbn [app]; now rewrite app_nil_r|cbn [app]; now rewrite app_nil_r|].
  cbn [app first_of] in *. rewrite app_nil_r in *. unfold sized_splice_all. rewrite (lift_bind _ _ _ _ _ _ (begin_ok m t l Ht)). unfold list_end.
  rewrite (lift_bind _ _ _ _ _ _ H1), size_bind, set_bind, add_run. do 2 eexists. split; [reflexivity|]. split; [exact H2|]. rewrite (upd_other _ t _ s) by congruence.
  split; [split; [exact H3|]|split; [split; [exact H4|]|split; [|auto]]].
  - rewrite upd_same, Hzs, Hzt. change (zlen (k1 ++ k2) mod 2 ^ 64)%Z with (wrap (zlen (k1 ++ k2))). unfold wrap. rewrite <- Zplus_mod. f_equal. rewrite !app_length. lia.
  - rewrite upd_other, upd_same by congruence. reflexivity.
  - intros q Hq1 Hq2. now rewrite !upd_other.
Qed.
Lemma sized_splice_one_ok z (m : memory) s t k1 k2 l1 p v l3 : valid m -> sized_at z m s (k1 ++ k2) -> sized_at z m t (l1 ++ (p, v) :: l3) ->
  (forall q, In q (s :: names_of (k1 ++ k2)) -> In q (t :: names_of (l1 ++ (p, v) :: l3)) -> False) ->
  exists z' m', sized_splice_one s (first_of k2 s) t p z m = SReturned tt z' m' /\ valid m' /\
    sized_at z' m' s (k1 ++ (p, v) :: k2) /\ sized_at z' m' t (l1 ++ l3) /\ (forall q, q <> s -> q <> t -> z' q = z q) /\
    same_except (s :: t :: names_of (k1 ++ k2) ++ names_of (l1 ++ (p, v) :: l3)) m m'.
Proof.
  intros Hv (Hs & Hzs) (Ht & Hzt) Hd. assert (Hne : t <> s) by (intros ->; apply (Hd s); now left).
  destruct (splice_valid m s t k1 k2 l1 [(p, v)] l3 Hv Hs Ht Hd) as (m1 & H1 & H2 & H3 & H4 & H5 & H6). cbn [app first_of fst] in *.
  unfold sized_splice_one. rewrite (lift_bind _ _ _ _ _ _ (next_ok m t l1 p v l3 Ht)), (lift_bind _ _ _ _ _ _ H1), add_bind, add_run.
  do 2 eexists. split; [reflexivity|]. split; [exact H2|]. rewrite (upd_other _ t _ s) by congruence. split; [split; [exact H3|]|split; [split; [exact H4|]|split; [|auto]]].
  - rewrite upd_same. eapply wrap_len; [exact Hzs|]. rewrite !app_length. cbn [length]. lia.
  - rewrite upd_other, upd_same by congruence. eapply wrap_len; [exact Hzt|]. rewrite !app_length. cbn [length]. lia.
  - intros q Hq1 Hq2. now rewrite !upd_other.
Qed.

(** *** erase *)
Lemma default_run (m : memory) z : valid m -> exists m1, sized_default z m = SReturned (names m) (upd z (names m) 0) m1 /\
  list_default m = Returned (names m) m1 /\ names m1 = S (names m) /\ valid m1 /\ same_except [names m] m m1 /\ sized_at (upd z (names m) 0) m1 (names m) [].
Proof.
  intros Hv. destruct (default_ok m Hv) as (m1 & H1 & H2 & H3 & H4 & H5). exists m1. unfold sized_default. rewrite (lift_bind _ _ _ _ _ _ H1), set_bind.
  split; [reflexivity|]. split; [exact H1|]. split; [exact H2|]. split; [exact H3|]. split; [exact H4|]. split; [exact H5|]. now rewrite upd_same.
Qed.
Lemma fresh_keeps z (m m1 : memory) s l n : valid m -> sized_at z m s l -> same_except [names m] m m1 -> sized_at (upd z (names m) n) m1 s l.
Proof.
  intros Hv (Hl & Hz) Hs. assert (Hb : forall p, In p (s :: names_of l) -> p <> names m) by (intros p Hp; pose proof (names_below m s l p Hv Hl Hp); lia). split.
  - eapply list_at_same; [exact Hl|]. intros p Hp. apply Hs. intros [E|[]]. apply (Hb p Hp). congruence.
  - rewrite upd_other; [exact Hz|]. apply Hb. now left.
Qed.
Lemma sized_erase_ok z (m : memory) s l1 l2 l3 : valid m -> sized_at z m s (l1 ++ l2 ++ l3) ->
  exists z' m', sized_erase s (first_of (l2 ++ l3) s) (first_of l3 s) z m = SReturned (first_of l3 s) z' m' /\ valid m' /\ sized_at z' m' s (l1 ++ l3) /\ below [s] m z z' /\
    (forall p, In p (names_of l2) -> object_at m' p = None) /\ same_except (s :: names_of (l1 ++ l2 ++ l3)) m m' /\ names m <= names m'.
Proof.
  intros Hv Hl. destruct (erase_ok m s l1 l2 l3 Hv (proj1 Hl)) as (m' & E & E1 & E2 & E3 & E4 & E5).
  destruct (default_run m z Hv) as (m1 & H1 & H1' & Hn1 & Hv1 & Hs1 & Ht1). pose proof (fresh_keeps z m m1 s _ 0 Hv Hl Hs1) as Hl1.
  assert (Hb : forall p, In p (s :: names_of (l1 ++ l2 ++ l3)) -> p < names m) by (intros p Hp; exact (names_below m s _ p Hv (proj1 Hl) Hp)).
  destruct (sized_splice_ok _ m1 (names m) s [] [] l1 l2 l3 Hv1 Ht1 Hl1) as (z2 & m2 & H2 & H2' & Hv2 & Ht2 & Hl2 & Hz2 & Hs2 & Hn2).
  { intros p [<-|[]] Hp. specialize (Hb _ Hp). lia. }
  cbn [app first_of] in *. rewrite app_nil_r in Ht2. destruct (destroy_ok m2 (names m) l2 Hv2 (proj1 Ht2)) as (m3 & H3 & _).
  unfold list_erase in E. rewrite (bind_returned _ _ _ _ _ H1') in E.
  assert (Hb2 : bind (list_begin (names m)) (fun b => list_splice b (first_of (l2 ++ l3) s) (first_of l3 s)) m1 = Returned tt m2) by (rewrite (bind_returned _ _ _ _ _ (begin_ok m1 (names m) [] (proj1 Ht1))); exact H2').
  rewrite (bind_returned _ _ _ _ _ (finally_returned _ _ _ _ _ _ Hb2 H3)) in E. unfold ret in E. injection E as E. subst m'.
  unfold sized_erase. rewrite (sbind_returned _ _ _ _ _ _ _ H1).
  assert (Hb3 : sbind (lift (list_begin (names m))) (fun b => sized_splice (names m) b s (first_of (l2 ++ l3) s) (first_of l3 s)) (upd z (names m) 0) m1 = SReturned tt z2 m2)
    by (rewrite (lift_bind _ _ _ _ _ _ (begin_ok m1 (names m) [] (proj1 Ht1))); exact H2).
  rewrite (sbind_returned _ _ _ _ _ _ _ (sfinally_returned _ _ _ _ _ _ _ _ _ Hb3 (lift_returned _ z2 _ _ _ H3))). exists z2, m3. split; [reflexivity|]. split; [exact E1|].
  split; [split; [exact E2|apply Hl2]|]. split; [|auto]. intros q Hq Ho. rewrite Hz2, upd_other; [reflexivity|lia|lia|]. intros ->. apply Hq. now left.
Qed.
Lemma sized_erase_one_ok z (m : memory) s l1 p v l3 : valid m -> sized_at z m s (l1 ++ (p, v) :: l3) ->
  exists z' m', sized_erase_one s p z m = SReturned (first_of l3 s) z' m' /\ valid m' /\ sized_at z' m' s (l1 ++ l3) /\ below [s] m z z' /\
    object_at m' p = None /\ same_except (s :: names_of (l1 ++ (p, v) :: l3)) m m' /\ names m <= names m'.
Proof.
  intros Hv Hl. unfold sized_erase_one, list_end. rewrite (proj2 (Nat.eqb_neq p s)).
  - rewrite (lift_bind _ _ _ _ _ _ (next_ok m s l1 p v l3 (proj1 Hl))). destruct (sized_erase_ok z m s l1 [(p, v)] l3 Hv Hl) as (z' & m' & H1 & H2 & H3 & H4 & H5 & H6 & H7).
    exists z', m'. split; [exact H1|]. split; [exact H2|]. split; [exact H3|]. split; [exact H4|]. split; [apply H5; now left|]. auto.
  - eapply not_sentinel; [apply Hl|]. rewrite names_app. apply in_or_app. right. now left.
Qed.
Lemma sized_pop_front_ok z (m : memory) s p v l : valid m -> sized_at z m s ((p, v) :: l) ->
  exists z' m', sized_pop_front s z m = SReturned tt z' m' /\ valid m' /\ sized_at z' m' s l /\ below [s] m z z' /\ object_at m' p = None /\ same_except (s :: names_of ((p, v) :: l)) m m'.
Proof.
  intros Hv Hl. unfold sized_pop_front. rewrite (lift_bind _ _ _ _ _ _ (begin_ok m s _ (proj1 Hl))). cbn [first_of fst].
  destruct (sized_erase_one_ok z m s [] p v l Hv Hl) as (z' & m' & H1 & H2 & H3 & H4 & H5 & H6 & _). rewrite (sbind_returned _ _ _ _ _ _ _ H1). exists z', m'. auto 7.
Qed.
Lemma sized_erase_if_loop_ok (f : V -> bool) s l2 : forall z (m : memory) l1 fuel count, valid m -> sized_at z m s (l1 ++ l2) -> length l2 < fuel ->
  exists z' m', sized_erase_if_loop fuel f s (first_of l2 s) count z m = SReturned (count + length (filter (fun e => f (snd e)) l2)) z' m' /\ valid m' /\
    sized_at z' m' s (l1 ++ filter (fun e => negb (f (snd e))) l2) /\ below [s] m z z' /\ (forall e, In e l2 -> f (snd e) = true -> object_at m' (fst e) = None) /\
    same_except (s :: names_of (l1 ++ l2)) m m' /\ names m <= names m'.
Proof.
  induction l2 as [|(p, v) l2 IH]; intros z m l1 fuel count Hv Hl Hf; (destruct fuel as [|fuel]; [lia|]); cbn [sized_erase_if_loop]; unfold list_end.
  - cbn [first_of filter length]. rewrite Nat.eqb_refl. exists z, m. split; [unfold sret; f_equal; lia|]. split; [exact Hv|]. split; [exact Hl|]. split; [apply below_refl|]. split; [intros e []|]. split; [intros q _; reflexivity | lia].
  - assert (Hps : p <> s) by (eapply not_sentinel; [apply Hl|]; rewrite names_app; apply in_or_app; right; now left).
    cbn [first_of fst]. rewrite (proj2 (Nat.eqb_neq p s) Hps).
    rewrite (lift_bind _ _ _ _ _ _ (value_ok m s _ p v (proj1 Hl) ltac:(apply in_or_app; right; now left))).
    cbn [filter snd length] in *. destruct (f v) eqn:Ev; cbn [negb length].
    + destruct (sized_erase_one_ok z m s l1 p v l2 Hv Hl) as (z1 & m1 & H1 & Hv1 & Hl1 & Hz1 & Ho1 & Hs1 & Hn1). rewrite (sbind_returned _ _ _ _ _ _ _ H1).
      destruct (IH z1 m1 l1 fuel (S count) Hv1 Hl1 ltac:(lia)) as (z2 & m2 & H2 & Hv2 & Hl2 & Hz2 & Ho2 & Hs2 & Hn2).
      exists z2, m2. split; [rewrite H2; f_equal; lia|]. split; [exact Hv2|]. split; [exact Hl2|]. split; [|split; [|split; [|lia]]].
      * eapply below_trans; eassumption.
      * intros e [<-|He] Hfe; [|apply Ho2; assumption]. cbn [fst]. rewrite Hs2; [exact Ho1|]. intros [Hq|Hq]; [congruence|].
        destruct (proj1 Hl) as (_ & _ & N & _). rewrite names_app in N, Hq. cbn [SpecList.names_of map fst] in N. apply nodup_cons in N as (N & _).
        apply NoDup_remove_2 in N. apply N. exact Hq.
      * eapply same_weaken; [eapply same_trans; [exact Hs1 | exact Hs2]|]. intros q. rewrite !names_app. cbn. rewrite !in_app_iff. cbn. rewrite !in_app_iff. tauto.
    + rewrite (lift_bind _ _ _ _ _ _ (next_ok m s l1 p v l2 (proj1 Hl))).
      destruct (IH z m (l1 ++ [(p, v)]) fuel count Hv) as (z2 & m2 & H2 & Hv2 & Hl2 & Hz2 & Ho2 & Hs2 & Hn2); [rewrite <- app_assoc; exact Hl|lia|].
      exists z2, m2. split; [rewrite H2; reflexivity|]. split; [exact Hv2|]. split; [rewrite <- app_assoc in Hl2; exact Hl2|]. split; [exact Hz2|]. split; [|split; [|exact Hn2]].
      * intros e [<-|He] Hfe; [cbn in Hfe; congruence|]. now apply Ho2.
      * rewrite <- app_assoc in Hs2. exact Hs2.
Qed.
Lemma sized_remove_if_ok (f : V -> bool) z (m : memory) s l : valid m -> sized_at z m s l ->
  exists z' m', sized_remove_if s f z m = SReturned (length (filter (fun e => f (snd e)) l)) z' m' /\ valid m' /\
    sized_at z' m' s (filter (fun e => negb (f (snd e))) l) /\ below [s] m z z' /\ (forall e, In e l -> f (snd e) = true -> object_at m' (fst e) = None) /\
    same_except (s :: names_of l) m m' /\ names m <= names m'.
Proof.
  intros Hv Hl. unfold sized_remove_if. rewrite (lift_bind _ _ _ _ _ _ (begin_ok m s l (proj1 Hl))). pose proof (list_length m s l Hv (proj1 Hl)).
  destruct (sized_erase_if_loop_ok f s l z m [] (S (names m)) 0 Hv Hl ltac:(lia)) as (z' & m' & H1 & H2 & H3 & H4 & H5 & H6 & H7). exists z', m'. auto 8.
Qed.

(** *** append, the constructor from a range, insert, push_front *)
Lemma sized_append_ok vs : forall z (m : memory) s l, valid m -> sized_at z m s l ->
  match sized_append s vs z m with
  | SReturned _ z' m' => exists k, map snd k = vs /\ (forall p, In p (names_of k) -> names m <= p) /\ valid m' /\ sized_at z' m' s (l ++ k) /\ (forall q, q <> s -> z' q = z q) /\
      same_except (s :: names_of (l ++ k)) m m' /\ names m <= names m'
  | SThrew z' m' => exists k, (exists vs', vs' <> [] /\ map snd k ++ vs' = vs) /\ (forall p, In p (names_of k) -> names m <= p) /\ valid m' /\ sized_at z' m' s (l ++ k) /\ (forall q, q <> s -> z' q = z q) /\
      same_except (s :: names_of (l ++ k)) m m' /\ names m <= names m'
  | SUndefined => False
  end.
Proof.
  induction vs as [|v vs IH]; intros z m s l Hv Hl; cbn [sized_append].
  - exists []. cbn. rewrite app_nil_r. split; [reflexivity|]. split; [intros p []|]. split; [exact Hv|]. split; [exact Hl|]. split; [auto|]. split; [intros q _; reflexivity | lia].
  - pose proof (sized_push_back_ok z m s l v Hv Hl) as H. destruct (sized_push_back s v z m) as [p z1 m1|z1 m1|] eqn:E; [| |contradiction].
    + rewrite (sbind_returned _ _ _ _ _ _ _ E). destruct H as (-> & Hv1 & Hl1 & Hz1 & Hs1 & Hn1). specialize (IH z1 m1 s (l ++ [(names m, v)]) Hv1 Hl1).
      assert (T : forall m' k, (forall p, In p (names_of k) -> names m1 <= p) -> same_except (s :: names_of ((l ++ [(names m, v)]) ++ k)) m1 m' ->
        (forall p, In p (names_of ((names m, v) :: k)) -> names m <= p) /\ same_except (s :: names_of (l ++ (names m, v) :: k)) m m').
      { intros m' k Hk Hs. split.
        - intros p [<-|Hp]; [cbn; lia|]. specialize (Hk p Hp). lia.
        - eapply same_weaken; [eapply same_trans; [exact Hs1 | exact Hs]|]. intros q. rewrite !names_app. cbn [SpecList.names_of map fst app In]. rewrite ?in_app_iff. cbn [In]. rewrite ?in_app_iff. cbn [In]. rewrite ?in_app_iff. cbn [In]. tauto. }
      destruct (sized_append s vs z1 m1) as [u z' m'|z' m'|]; [| |contradiction].
      * destruct IH as (k & Ek & Hk & Hv' & Hl' & Hz' & Hs' & Hn'). destruct (T m' k Hk Hs') as (T1 & T2). exists ((names m, v) :: k). cbn [map snd]. rewrite Ek. rewrite <- app_assoc in Hl'.
        split; [reflexivity|]. split; [exact T1|]. split; [exact Hv'|]. split; [exact Hl'|]. split; [intros q Hq; rewrite Hz', Hz1; auto|]. split; [exact T2 | lia].
      * destruct IH as (k & (vs' & Hne & Ek) & Hk & Hv' & Hl' & Hz' & Hs' & Hn'). destruct (T m' k Hk Hs') as (T1 & T2). exists ((names m, v) :: k). cbn [map snd]. rewrite <- app_assoc in Hl'.
        split; [exists vs'; cbn [app]; rewrite Ek; auto|]. split; [exact T1|]. split; [exact Hv'|]. split; [exact Hl'|]. split; [intros q Hq; rewrite Hz', Hz1; auto|]. split; [exact T2 | lia].
    + rewrite (sbind_threw _ _ _ _ _ _ E). destruct H as (Hs & Hv1 & Hn1 & ->). exists []. cbn [map app]. rewrite app_nil_r. split; [exists (v :: vs); split; [discriminate | reflexivity]|].
      split; [intros p []|]. split; [exact Hv1|]. split; [|split; [auto|split; [|lia]]].
      * split; [|apply Hl]. eapply list_at_same; [apply Hl|]. intros p _. apply Hs. intros [].
      * eapply same_weaken; [exact Hs|]. intros q [].
Qed.
Lemma sized_from_ok z (m : memory) vs : valid m ->
  match sized_from vs z m with
  | SReturned s z' m' => exists k, map snd k = vs /\ s = names m /\ (forall p, In p (names_of k) -> names m < p) /\ valid m' /\ sized_at z' m' s k /\ below [] m z z' /\
      same_except (s :: names_of k) m m' /\ names m < names m'
  | SThrew z' m' => valid m' /\ (forall q, object_at m' q = object_at m q) /\ below [] m z z'
  | SUndefined => False
  end.
Proof.
  intros Hv. unfold sized_from. destruct (default_run m z Hv) as (m1 & H1 & _ & Hn1 & Hv1 & Hs1 & Ht1). rewrite (sbind_returned _ _ _ _ _ _ _ H1).
  pose proof (sized_append_ok vs _ m1 (names m) [] Hv1 Ht1) as H. destruct (sized_append (names m) vs (upd z (names m) 0) m1) as [u z2 m2|z2 m2|] eqn:E; [| |contradiction].
  - destruct H as (k & Ek & Hk & Hv2 & Hl2 & Hz2 & Hs2 & Hn2). unfold srethrow_after, sbind. rewrite E. unfold sret. exists k. split; [exact Ek|]. split; [reflexivity|].
    split; [intros p Hp; specialize (Hk p Hp); lia|]. split; [exact Hv2|]. split; [exact Hl2|]. split; [intros q _ Hq; rewrite Hz2, upd_other by lia; reflexivity|]. split; [|lia].
    eapply same_weaken; [eapply same_trans; [exact Hs1 | exact Hs2]|]. intros q. cbn. tauto.
  - destruct H as (k & _ & Hk & Hv2 & Hl2 & Hz2 & Hs2 & Hn2). cbn [app] in *. destruct (destroy_ok m2 (names m) k Hv2 (proj1 Hl2)) as (m3 & H3 & Hv3 & Ho3 & Hs3 & Hn3).
    unfold srethrow_after, sbind, sized_destroy, lift. rewrite E, H3. split; [exact Hv3|]. split; [|intros q _ Hq; rewrite Hz2, upd_other by lia; reflexivity].
    intros q. destruct (in_dec Nat.eq_dec q (names m :: names_of k)) as [Hi|Hi].
    + rewrite Ho3 by exact Hi. destruct (object_at m q) eqn:Eo; [|reflexivity]. exfalso. specialize (Hv q ltac:(congruence)). destruct Hi as [<-|Hi]; [lia|]. specialize (Hk q Hi). lia.
    + rewrite Hs3, Hs2, Hs1; auto. intros [<-|[]]. apply Hi. now left.
Qed.
(** Giving all elements of a temporary to a list, and destroying the temporary *)
Lemma give_ok z (m : memory) s t l1 l2 k : valid m -> sized_at z m s (l1 ++ l2) -> sized_at z m t k -> (forall p, In p (s :: names_of (l1 ++ l2)) -> In p (t :: names_of k) -> False) ->
  exists z' m', sfinally (sized_splice_all s (first_of l2 s) t) (sized_destroy t) z m = SReturned tt z' m' /\ valid m' /\ sized_at z' m' s (l1 ++ k ++ l2) /\
    (forall q, q <> s -> q <> t -> z' q = z q) /\ object_at m' t = None /\ same_except (s :: t :: names_of (l1 ++ k ++ l2)) m m' /\ names m <= names m'.
Proof.
  intros Hv Hs Ht Hd. destruct (sized_splice_all_ok z m s t l1 l2 k Hv Hs Ht Hd) as (z1 & m1 & H1 & Hv1 & Hs1 & Ht1 & Hz1 & He1 & Hn1).
  destruct (destroy_ok m1 t [] Hv1 (proj1 Ht1)) as (m2 & H2 & Hv2 & Ho2 & He2 & Hn2). exists z1, m2.
  assert (Hts : ~ In t (s :: names_of (l1 ++ k ++ l2))).
  { intros Hi. assert (Hi' : In t (s :: names_of (l1 ++ l2)) \/ In t (names_of k)) by (rewrite !names_app in *; cbn in *; rewrite !in_app_iff in *; tauto).
    destruct Hi' as [Hi'|Hi']; [apply (Hd t Hi'); now left|]. destruct (proj1 Ht) as (_ & _ & N & _). apply nodup_cons in N as (_ & N). exact (N Hi'). }
  split; [exact (sfinally_returned _ _ _ _ _ _ _ _ _ H1 (lift_returned _ z1 _ _ _ H2))|]. split; [exact Hv2|]. split; [split; [|apply Hs1]|].
  - eapply list_at_same; [apply Hs1|]. intros p Hp. apply He2. intros [<-|[]]. exact (Hts Hp).
  - split; [exact Hz1|]. split; [apply Ho2; now left|]. split; [|lia]. intros q Hq. rewrite He2, He1; [reflexivity| |].
    + intros Hi. apply Hq. rewrite !names_app in *. cbn in *. rewrite !in_app_iff in *. tauto.
    + intros [<-|[]]. apply Hq. right. now left.
Qed.
Lemma sized_insert_ok z (m : memory) s l1 l2 vs : valid m -> sized_at z m s (l1 ++ l2) ->
  match sized_insert s (first_of l2 s) vs z m with
  | SReturned r z' m' => r = first_of l2 s /\ exists k, map snd k = vs /\ (forall p, In p (names_of k) -> object_at m p = None) /\ valid m' /\ sized_at z' m' s (l1 ++ k ++ l2) /\ below [s] m z z' /\
      same_except (s :: names_of (l1 ++ k ++ l2)) m m'
  | SThrew z' m' => valid m' /\ (forall q, object_at m' q = object_at m q) /\ below [] m z z'
  | SUndefined => False
  end.
Proof.
  intros Hv Hl. unfold sized_insert. pose proof (sized_from_ok z m vs Hv) as H. destruct (sized_from vs z m) as [t z1 m1|z1 m1|] eqn:E; [| |contradiction].
  - destruct H as (k & Ek & -> & Hk & Hv1 & Ht1 & Hz1 & Hs1 & Hn1). rewrite (sbind_returned _ _ _ _ _ _ _ E). set (t := names m) in *.
    assert (Hb : forall p, In p (s :: names_of (l1 ++ l2)) -> p < t) by (intros p Hp; exact (names_below m s _ p Hv (proj1 Hl) Hp)).
    assert (Hb' : forall p, In p (t :: names_of k) -> t <= p) by (intros p [<-|Hp]; [lia | specialize (Hk p Hp); lia]).
    assert (Hl1 : sized_at z1 m1 s (l1 ++ l2)).
    { split; [|rewrite Hz1; [apply Hl|intros []|apply Hb; now left]]. eapply list_at_same; [apply Hl|]. intros p Hp. apply Hs1. intros Hi. specialize (Hb _ Hp). specialize (Hb' _ Hi). lia. }
    destruct (give_ok z1 m1 s t l1 l2 k Hv1 Hl1 Ht1) as (z2 & m2 & H2 & Hv2 & Hl2 & Hz2 & Ho2 & Hs2 & Hn2).
    { intros p Hp Hp'. specialize (Hb _ Hp). specialize (Hb' _ Hp'). lia. }
    rewrite (sbind_returned _ _ _ _ _ _ _ H2). split; [reflexivity|]. exists k. split; [exact Ek|]. split; [|split; [exact Hv2|split; [exact Hl2|split]]].
    + intros p Hp. destruct (object_at m p) eqn:Eo; [|reflexivity]. exfalso. specialize (Hv p). rewrite Eo in Hv. specialize (Hv ltac:(discriminate)). specialize (Hk p Hp). subst t. lia.
    + intros q Hq Hn. rewrite Hz2, Hz1; auto; [|subst t; lia]. intros ->. apply Hq. now left.
    + intros q Hq. destruct (Nat.eq_dec q t) as [->|Hne]; [rewrite Ho2; symmetry; apply fresh, Hv|]. rewrite Hs2, Hs1; [reflexivity| |].
      * intros [|Hi]; [congruence|]. apply Hq. right. rewrite !names_app, !in_app_iff. tauto.
      * intros [Hi|[Hi|Hi]]; [|congruence|]; apply Hq; [now left | now right].
  - rewrite (sbind_threw _ _ _ _ _ _ E). exact H.
Qed.
Lemma sized_push_front_ok z (m : memory) s l v : valid m -> sized_at z m s l ->
  match sized_push_front s v z m with
  | SReturned p z' m' => object_at m p = None /\ valid m' /\ sized_at z' m' s ((p, v) :: l) /\ below [s] m z z' /\ same_except (s :: names_of ((p, v) :: l)) m m'
  | SThrew z' m' => valid m' /\ (forall q, object_at m' q = object_at m q) /\ below [] m z z'
  | SUndefined => False
  end.
Proof.
  intros Hv Hl. unfold sized_push_front. destruct (default_run m z Hv) as (m0 & H0 & _ & Hn0 & Hv0 & Hs0 & Ht0). rewrite (sbind_returned _ _ _ _ _ _ _ H0). set (t := names m) in *. set (z0 := upd z t 0) in *.
  assert (Hb : forall p, In p (s :: names_of l) -> p < t) by (intros p Hp; exact (names_below m s _ p Hv (proj1 Hl) Hp)).
  pose proof (sized_push_back_ok z0 m0 t [] v Hv0 Ht0) as H. destruct (sized_push_back t v z0 m0) as [p z1 m1|z1 m1|] eqn:E; [| |contradiction].
  - destruct H as (-> & Hv1 & Ht1 & Hz1 & Hs1 & Hn1). set (p := names m0) in *. cbn [app] in Ht1.
    assert (Hl1 : sized_at z1 m1 s l).
    { split.
      - eapply list_at_same; [apply Hl|]. intros q Hq. specialize (Hb q Hq). rewrite Hs1, Hs0; [reflexivity | |]; cbn; lia.
      - specialize (Hb s ltac:(now left)). rewrite Hz1 by lia. subst z0. rewrite upd_other by lia. apply Hl. }
    destruct (give_ok z1 m1 s t [] l [(p, v)] Hv1 Hl1 Ht1) as (z2 & m2 & H2 & Hv2 & Hl2 & Hz2 & Ho2 & Hs2 & Hn2).
    { intros q Hq Hq'. specialize (Hb _ Hq). cbn in Hq'. lia. }
    cbn [app] in *.
    rewrite (sbind_returned _ _ z0 m0 tt z2 m2).
    + rewrite (lift_returned _ _ _ _ _ (begin_ok m2 s _ (proj1 Hl2))). cbn [first_of fst]. split; [|split; [exact Hv2|split; [exact Hl2|split]]].
      * destruct (object_at m p) eqn:Eo; [|reflexivity]. exfalso. specialize (Hv p). rewrite Eo in Hv. specialize (Hv ltac:(discriminate)). subst p t. lia.
      * intros q Hq Hn. assert (q <> s) by (intros ->; apply Hq; now left). rewrite Hz2, Hz1; try (subst t; lia). subst z0. rewrite upd_other; [reflexivity|subst t; lia].
      * intros q Hq. destruct (Nat.eq_dec q t) as [->|Hne]; [rewrite Ho2; symmetry; apply fresh, Hv|]. rewrite Hs2, Hs1, Hs0; [reflexivity| | |].
        -- cbn in *. intuition congruence.
        -- cbn in *. intuition congruence.
        -- cbn in *. intuition congruence.
    + unfold sfinally in H2 |- *. unfold sbind at 1. rewrite E. unfold sbind, lift. rewrite (begin_ok m1 s l (proj1 Hl1)). exact H2.
  - destruct H as (Hs1 & Hv1 & Hn1 & ->).
    assert (Ht1 : list_at m1 t []) by (eapply list_at_same; [apply Ht0|]; intros q _; apply Hs1; intros []).
    destruct (destroy_ok m1 t [] Hv1 Ht1) as (m2 & H2 & Hv2 & Ho2 & Hs2 & Hn2).
    assert (E2 : sbind (sized_push_back t v) (fun _ => sbind (lift (list_begin s)) (fun position => sized_splice_all s position t)) z0 m0 = SThrew z0 m1) by (unfold sbind at 1; now rewrite E).
    rewrite (sbind_threw _ _ _ _ _ _ (sfinally_threw _ _ _ _ _ _ _ _ E2 (lift_returned _ z0 _ _ _ H2))). split; [exact Hv2|]. split.
    + intros q. destruct (Nat.eq_dec q t) as [->|Hne]; [rewrite (Ho2 t (or_introl eq_refl)); symmetry; apply fresh, Hv|]. rewrite Hs2, Hs1, Hs0; auto; cbn; intuition congruence.
    + intros q _ Hn. subst z0. apply upd_other. subst t. lia.
Qed.

(** *** resize *)
Lemma sized_shrink_ok l2 : forall z (m : memory) s l1 fuel, valid m -> sized_at z m s (l1 ++ l2) -> (zlen (l1 ++ l2) < 2 ^ 64)%Z -> length l2 < fuel ->
  exists z' m', sized_shrink fuel s (zlen l1) z m = SReturned tt z' m' /\ valid m' /\ sized_at z' m' s l1 /\ (forall q, q <> s -> z' q = z q) /\
    (forall p, In p (names_of l2) -> object_at m' p = None) /\ same_except (s :: names_of (l1 ++ l2)) m m' /\ names m' = names m.
Proof.
  induction l2 as [|(p, v) l2 IH] using rev_ind; intros z m s l1 fuel Hv Hl Hb Hf; (destruct fuel as [|fuel]; [lia|]); cbn [sized_shrink]; rewrite size_bind, (proj2 Hl), Z.mod_small by lia.
  - rewrite app_nil_r in *. rewrite Z.eqb_refl. exists z, m. split; [reflexivity|]. split; [exact Hv|]. split; [exact Hl|]. split; [auto|]. split; [intros q []|]. split; [intros q _; reflexivity|reflexivity].
  - rewrite (proj2 (Z.eqb_neq _ _)) by (rewrite !app_length; cbn [length]; lia). rewrite app_assoc in *.
    destruct (sized_pop_back_ok z m s (l1 ++ l2) p v Hv Hl) as (z1 & m1 & H1 & _ & Hv1 & Hl1 & Hz1 & Ho1 & Hs1 & Hn1). rewrite (sbind_returned _ _ _ _ _ _ _ H1).
    rewrite app_length in Hf, Hb. cbn [length] in Hf. destruct (IH z1 m1 s l1 fuel Hv1 Hl1 ltac:(lia) ltac:(lia)) as (z2 & m2 & H2 & Hv2 & Hl2 & Hz2 & Ho2 & Hs2 & Hn2).
    exists z2, m2. split; [exact H2|]. split; [exact Hv2|]. split; [exact Hl2|]. split; [intros q Hq; rewrite Hz2, Hz1; auto|]. split; [|split; [|lia]].
    + intros q Hq. rewrite names_app in Hq. apply in_app_or in Hq as [Hq|[<-|[]]]; [now apply Ho2|]. cbn [fst]. rewrite Hs2; [exact Ho1|]. intros Hi.
      destruct (proj1 Hl) as (_ & _ & N & _). rewrite names_app in N. apply (NoDup_remove_2 (s :: names_of (l1 ++ l2)) [] p) in N. rewrite app_nil_r in N. exact (N Hi).
    + intros q Hq. rewrite names_app in Hq. cbn [In SpecList.names_of map fst] in Hq. rewrite in_app_iff in Hq. cbn [In] in Hq. rewrite Hs2, Hs1; [reflexivity| |]; cbn [In]; tauto.
Qed.
Lemma sized_resize_ok z (m : memory) s l n v : valid m -> sized_at z m s l -> (zlen l < 2 ^ 64)%Z ->
  match sized_resize s (Z.of_nat n) v z m with
  | SReturned _ z' m' => exists k, map snd k = repeat v (n - length l) /\ (forall p, In p (names_of k) -> object_at m p = None) /\ valid m' /\ sized_at z' m' s (firstn n l ++ k) /\ (forall q, q <> s -> z' q = z q) /\
      (forall p, In p (names_of (skipn n l)) -> object_at m' p = None) /\ same_except (s :: names_of (l ++ k)) m m'
  | SThrew z' m' => exists k, length l + length k < n /\ (forall e, In e k -> snd e = v /\ object_at m (fst e) = None) /\ valid m' /\ sized_at z' m' s (l ++ k) /\ (forall q, q <> s -> z' q = z q) /\ same_except (s :: names_of (l ++ k)) m m'
  | SUndefined => False
  end.
Proof.
  intros Hv Hl Hb. unfold sized_resize. rewrite size_bind, (proj2 Hl), Z.mod_small by lia.
  assert (F : forall p, names m <= p -> object_at m p = None) by (intros p Hp; destruct (object_at m p) eqn:Eo; [specialize (Hv p ltac:(congruence)); lia|reflexivity]).
  destruct (Z.leb_spec (Z.of_nat n) (zlen l)) as [Hn|Hn].
  - unfold swith_fuel. pose proof (list_length m s l Hv (proj1 Hl)) as Hlen. assert (El : l = firstn n l ++ skipn n l) by (symmetry; apply firstn_skipn).
    assert (Ln : length (firstn n l) = n) by (rewrite firstn_length; lia).
    destruct (sized_shrink_ok (skipn n l) z m s (firstn n l) (S (names m)) Hv) as (z' & m' & H1 & H2 & H3 & H4 & H5 & H6 & H7); [now rewrite <- El|now rewrite <- El|rewrite skipn_length; lia|].
    rewrite Ln in H1. rewrite H1. exists []. rewrite !app_nil_r. replace (n - length l) with 0 by lia. rewrite <- El in H6. split; [reflexivity|]. split; [intros p []|]. auto.
  - pose proof (sized_append_ok (repeat v (Z.to_nat (Z.of_nat n - zlen l))) z m s l Hv Hl) as H. replace (Z.to_nat (Z.of_nat n - zlen l)) with (n - length l) in * by lia.
    destruct (sized_append s (repeat v (n - length l)) z m) as [u z' m'|z' m'|]; [| |contradiction].
    + destruct H as (k & Ek & Hk & H1 & H2 & H3 & H4 & _). exists k. rewrite firstn_all2 by lia. rewrite skipn_all2 by lia. split; [exact Ek|]. split; [auto|]. split; [exact H1|]. split; [exact H2|]. split; [exact H3|]. split; [intros p []|exact H4].
    + destruct H as (k & (vs & Hne & Ek) & Hk & H1 & H2 & H3 & H4 & _). exists k. split; [|split; [|auto]].
      * apply (f_equal (@length V)) in Ek. rewrite app_length, map_length, repeat_length in Ek. destruct vs; [congruence|]. cbn [length] in Ek. lia.
      * intros e He. split; [|apply F, Hk; now apply in_map]. apply (in_map snd) in He. eapply repeat_spec. rewrite <- Ek. apply in_or_app. left. exact He.
Qed.

(** *** swap, copy *)
Lemma sized_swap_ok z (m : memory) s t l k : valid m -> sized_at z m s l -> sized_at z m t k -> (forall p, In p (s :: names_of l) -> In p (t :: names_of k) -> False) ->
  exists z' m', sized_swap s t z m = SReturned tt z' m' /\ valid m' /\ sized_at z' m' s k /\ sized_at z' m' t l /\ (forall q, q <> s -> q <> t -> z' q = z q) /\ same_except (s :: t :: names_of l ++ names_of k) m m'.
Proof.
  intros Hv (Hs & Hzs) (Ht & Hzt) Hd. destruct (swap_ok m s t l k Hv Hs Ht Hd) as (m' & H1 & H2 & H3 & H4 & H5). unfold sized_swap. rewrite (lift_bind _ _ _ _ _ _ H1), !size_bind, set_bind.
  assert (Hne : s <> t) by (intros ->; apply (Hd t); now left).
  exists (upd (upd z s (z t)) t (z s)), m'. split; [reflexivity|]. split; [exact H2|]. split; [split; [exact H3|]|split; [split; [exact H4|]|split; [|]]].
  - rewrite upd_other, upd_same, Hzt by congruence. apply wrap_wrap.
  - rewrite upd_same, Hzs. apply wrap_wrap.
  - intros q H6 H7. now rewrite !upd_other.
  - exact (proj1 H5).
Qed.
Lemma sized_copy_ok z (m : memory) t k : valid m -> sized_at z m t k ->
  match sized_copy t z m with
  | SReturned s z' m' => exists l, map snd l = map snd k /\ object_at m s = None /\ (forall p, In p (names_of l) -> object_at m p = None) /\ valid m' /\ sized_at z' m' s l /\ sized_at z' m' t k /\
      (forall q, q <> s -> z' q = z q) /\ same_except (s :: names_of l) m m'
  | SThrew z' m' => valid m' /\ (forall q, object_at m q <> None -> object_at m' q = object_at m q) /\ z' = z
  | SUndefined => False
  end.
Proof.
  intros Hv (Hl & Hz). unfold sized_copy. pose proof (copy_ok m t k Hv Hl) as H. destruct (list_copy t m) as [s m1|m1|] eqn:E; [| |contradiction].
  - rewrite (lift_bind _ _ _ _ _ _ E), size_bind, set_bind. unfold sret. destruct H as (l & H1 & H2 & H3 & H4 & H5 & H6 & H7). exists l. split; [exact H1|]. split; [exact H2|]. split; [exact H3|]. split; [exact H4|].
    assert (Hne : t <> s) by (intros ->; destruct Hl as ((j & Hj) & _); congruence).
    assert (Hlen : length l = length k) by (rewrite <- (map_length snd l), H1, map_length; reflexivity).
    split; [split; [exact H5|]|split; [split; [exact H6|]|split; [|exact H7]]].
    + rewrite upd_same, Hz, Hlen. apply wrap_wrap.
    + now rewrite upd_other.
    + intros q Hq. now apply upd_other.
  - rewrite (lift_threw _ _ _ _ _ E). destruct H. auto.
Qed.
End Proofs.
