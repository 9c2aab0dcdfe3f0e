(** * Proofs about flat maps: whole ranges *)

From Coq Require Import List Arith Bool Lia Permutation.
From Verif Require Import SpecSort SortLemmas Unique SpecUnique UniqueProofs UniqueProofs2 UniqueProofs3 FlatMap SpecMap FlatMapProofs.
Import ListNotations.
Local Open Scope nat_scope.

Lemma shape_one {V} (l : list V) h' : same_shape [l] h' -> exists l', h' = [l'] /\ length l' = length l.
Proof. unfold same_shape. destruct h' as [|l' [|x h']]; cbn; intros H; [discriminate| |discriminate]. injection H as H. eauto. Qed.
Lemma array_firstn {V} (l r : list V) : array_at [l] 0 0 r -> firstn (length r) l = r.
Proof.
  intros H. assert (Hr : forall k v, nth_error r k = Some v -> nth_error l k = Some v) by (intros k v Hk; apply (H k v Hk)). clear H.
  revert l Hr. induction r as [|v r IH]; intros l Hr; [reflexivity|].
  destruct l as [|a l]; [specialize (Hr 0 v eq_refl); discriminate|]. cbn. pose proof (Hr 0 v eq_refl) as H0. injection H0 as ->. f_equal. apply IH.
  intros k u Hk. apply (Hr (S k) u Hk).
Qed.
Lemma array_self {V} (l : list V) : array_at [l] 0 0 l.
Proof. intros k v Hk. exact Hk. Qed.

Section Maps.
Context {K M : Type} (key_less : K -> K -> bool) (Hlt : strict_weak_order key_less) (moved self_moved : K * M -> K * M)
  (ska_sort : list (K * M) -> option (list (K * M))).
Notation element := (K * M)%type.
Notation less := (@less K M key_less).
Notation same := (equivalent key_less).
Notation element_of := (@element_of K M same).
Notation flat := (@flat K M key_less).
Notation insert := (insert key_less moved self_moved ska_sort).
Notation merge := (merge_sorted_and_unsorted key_less moved self_moved ska_sort).
Notation lo := (@less_order K M key_less Hlt).

(** One of [l] that has the key, if there is one *)
Definition one_of (l : list element) (k : K) (o : option element) : Prop :=
  match o with
  | Some e => In e l /\ same k (fst e) = true
  | None => forall e, In e l -> same k (fst e) = false
  end.
Lemma one_of_perm l l' k : Permutation l l' -> one_of l k (element_of l' k).
Proof.
  intros H. unfold one_of. destruct (element_of l' k) as [e|] eqn:E.
  - destruct (element_in _ _ _ _ E). split; [eapply Permutation_in; [apply Permutation_sym, H|] | ]; auto.
  - rewrite element_none in E. intros e He. apply E. eapply Permutation_in; eauto.
Qed.

Lemma merge_ok (m tail : list element) : (forall e, self_moved e = e) -> flat m -> sorts key_less ska_sort tail ->
  exists m', merge (m ++ tail) (length m) = Some m' /\ flat m' /\
    forall k, match element_of m k with Some e => element_of m' k = Some e | None => one_of tail k (element_of m' k) end.
Proof.
  intros Hself Hm (tail' & Hs & Hp & Ho). unfold merge_sorted_and_unsorted.
  rewrite firstn_app, firstn_all, Nat.sub_diag, skipn_app, skipn_all, Nat.sub_diag. cbn [skipn firstn app]. rewrite app_nil_r, Hs.
  destruct (inplace_merge_ok moved self_moved less lo m tail' [m ++ tail'] 0 0) as (h' & r & Hr & HU & Hsh & Hat & _); auto.
  - right. exact Hself.
  - apply array_self.
  - rewrite app_length, (Permutation_length Hp), <- app_length. cbn [Nat.add] in Hr. rewrite Hr.
    destruct (shape_one _ _ Hsh) as (l' & -> & _). rewrite (array_firstn _ _ Hat). exists r. split; [reflexivity|].
    split; [apply HU|]. intros k. rewrite (uniques_elements key_less Hlt _ _ k HU), element_app.
    destruct (element_of m k) as [e|]; [reflexivity|]. apply one_of_perm, Hp.
Qed.
Lemma insert_ok (m init : list element) : (forall e, self_moved e = e) -> flat m -> sorts key_less ska_sort init ->
  exists m', insert m init = Some m' /\ flat m' /\
    forall k, match element_of m k with Some e => element_of m' k = Some e | None => one_of init k (element_of m' k) end.
Proof. apply merge_ok. Qed.

Lemma from_range_ok (key_equal : K -> K -> bool) (l : list element) : (forall a b, key_equal a b = same a b) -> sorts key_less ska_sort l ->
  exists m, from_range key_equal moved self_moved ska_sort l = Some m /\ flat m /\ forall k, one_of l k (element_of m k).
Proof.
  intros He (l' & Hs & Hp & Ho). unfold from_range, unique_ska_sort. rewrite Hs.
  destruct (unique_ok moved self_moved (fun a b => key_equal (fst a) (fst b)) l' [l'] 0 0) as (h' & Hr & Hsh & Hat & _).
  - apply array_self.
  - intros l1 u v l2 w -> Hw Hu. rewrite !He in *. apply same_eq; auto.
  - cbn [Nat.add] in Hr. rewrite Hr. destruct (shape_one _ _ Hsh) as (r & -> & _). rewrite (array_firstn _ _ Hat).
    assert (Hd : dedup (fun a b : element => key_equal (fst a) (fst b)) l' = dedup (not_less less) l').
    { destruct l' as [|a l']; [reflexivity|]. cbn [dedup]. f_equal. clear -Ho He Hlt. revert a Ho.
      induction l' as [|b l' IH]; intros a Ho; [reflexivity|]. cbn [keep].
      apply ordered_cons in Ho as (H1 & H2).
      assert (Hab : key_equal (fst a) (fst b) = not_less less a b).
      { rewrite He. unfold equivalent, not_less. change (key_less (fst b) (fst a)) with (by_key key_less b a). rewrite (H1 b) by now left.
        rewrite andb_true_r. reflexivity. }
      rewrite Hab. destruct (not_less less a b); [|f_equal; apply IH, H2].
      apply IH. apply ordered_cons. split; [intros c Hc; apply H1; now right|]. apply ordered_cons in H2. tauto. }
    rewrite Hd. pose proof (uniques_dedup less lo l' Ho) as HU. eexists. split; [reflexivity|]. split; [apply HU|].
    intros k. rewrite (uniques_elements key_less Hlt _ _ k HU). apply one_of_perm, Hp.
Qed.
Lemma from_unique_ok (l : list element) : distinct same l -> sorts key_less ska_sort l ->
  exists m, from_unique ska_sort l = Some m /\ flat m /\ Permutation l m.
Proof.
  intros Hd (m & Hs & Hp & Ho). exists m. split; [exact Hs|]. split; [|exact Hp].
  assert (Hd' : distinct same m).
  { intros i j a b Ha Hb Hab. destruct (Permutation_nth_error_bis l m) as (Hpn & _).
    destruct (Hpn Hp) as (f & Hinj & Hf & Hnth). rewrite Hnth in Ha, Hb.
    apply Hinj. apply (Hd _ _ a b Ha Hb Hab). }
  intros i j a b Hij Ha Hb. unfold by_key. destruct (key_less (fst a) (fst b)) eqn:E; [reflexivity|]. exfalso.
  assert (i = j); [|lia]. apply (Hd' i j a b Ha Hb). unfold equivalent. rewrite E. pose proof (Ho i j a b Hij Ha Hb) as H. unfold by_key in H. rewrite H. reflexivity.
Qed.

(** ** upsert *)
Definition absent (m : list element) (e : element) : bool := match element_of m (fst e) with None => true | Some _ => false end.
Notation upsert_loop := (upsert_loop key_less).

(** [update] of the elements of [m] with those of [other] *)
Definition updated (update : M -> M -> M) (other : list element) (e : element) : element :=
  match element_of other (fst e) with Some e' => (fst e, update (snd e) (snd e')) | None => e end.

Lemma distinct_cons (e : element) l : distinct same (e :: l) <-> (forall a, In a l -> same (fst e) (fst a) = false) /\ distinct same l.
Proof.
  split.
  - intros H. split.
    + intros a Ha. destruct (In_nth_error _ _ Ha) as (i & Hi). destruct (same (fst e) (fst a)) eqn:E; [|reflexivity].
      specialize (H 0 (S i) e a eq_refl Hi E). discriminate.
    + intros i j a b Ha Hb Hs. specialize (H (S i) (S j) a b Ha Hb Hs). lia.
  - intros (H1 & H2) [|i] [|j] a b Ha Hb Hs; auto.
    + injection Ha as <-. rewrite (H1 b) in Hs; [discriminate | eapply nth_error_In, Hb].
    + injection Hb as <-. rewrite same_sym, (H1 a) in Hs; [discriminate | eapply nth_error_In, Ha].
    + f_equal. eapply H2; eauto.
Qed.

Lemma map_keys_flat (f : element -> element) m : (forall e, fst (f e) = fst e) -> flat m -> flat (map f m).
Proof.
  intros Hf Hm i j a b Hij Ha Hb. rewrite nth_error_map in Ha, Hb.
  destruct (nth_error m i) as [x|] eqn:Ex; [|discriminate]. destruct (nth_error m j) as [y|] eqn:Ey; [|discriminate].
  injection Ha as <-. injection Hb as <-. unfold by_key. rewrite !Hf. apply (Hm i j x y); auto.
Qed.
Lemma element_map (f : element -> element) m k : (forall e, fst (f e) = fst e) ->
  element_of (map f m) k = option_map f (element_of m k).
Proof. intros Hf. induction m as [|e m IH]; cbn; [reflexivity|]. rewrite Hf, IH. destruct (same k (fst e)); reflexivity. Qed.

(** In an ordered list the elements before the one that [find] returns have other keys. *)
Lemma upsert_loop_ok update (other : list element) : forall (m added : list element),
  flat m -> distinct same (added ++ other) -> (forall e, In e added -> element_of m (fst e) = None) ->
  (forall l1 e l2, other = l1 ++ e :: l2 -> element_of m (fst e) <> None -> multi_flat key_less (m ++ added ++ filter (absent m) l1)) ->
  upsert_loop update (m ++ added) other =
  Some (map (updated update other) m ++ added ++ filter (absent m) other).
Proof.
  induction other as [|value other IH]; intros m added Hm Hd Ha Ho; cbn [FlatMap.upsert_loop filter].
  - f_equal. unfold updated. cbn. rewrite map_id, app_nil_r. reflexivity.
  - assert (Hadded : forall e, In e added -> same (fst value) (fst e) = false).
    { intros e He. destruct (In_nth_error _ _ He) as (i & Hi). destruct (same (fst value) (fst e)) eqn:E; [|reflexivity].
      assert (Hil : i < length added) by (apply nth_error_Some; congruence).
      assert (i = length added); [|lia]. apply (Hd i (length added) e value).
      - rewrite nth_error_app1; auto.
      - rewrite nth_error_app2, Nat.sub_diag; auto.
      - now rewrite same_sym. }
    assert (Hother : forall e, In e other -> same (fst value) (fst e) = false).
    { intros e He. destruct (In_nth_error _ _ He) as (i & Hi). destruct (same (fst value) (fst e)) eqn:E; [|reflexivity].
      assert (length added = length added + S i); [|lia]. apply (Hd _ _ value e).
      - rewrite nth_error_app2, Nat.sub_diag; auto.
      - rewrite nth_error_app2 by lia. replace (length added + S i - length added) with (S i) by lia. exact Hi.
      - exact E. }
    unfold lookup. unfold absent at 1. destruct (element_of m (fst value)) as [e|] eqn:E.
    + assert (Hol : multi_flat key_less (m ++ added)).
      { specialize (Ho [] value other eq_refl). cbn [filter] in Ho. rewrite app_nil_r in Ho. apply Ho. congruence. }
      destruct (find_ok key_less Hlt (m ++ added) (fst value) Hol) as (r & -> & Hrl & Hr). rewrite element_app, E in Hr.
      assert (Hrm : r < length m).
      { destruct (Nat.lt_ge_cases r (length m)) as [H|H]; [exact H|]. exfalso. rewrite nth_error_app2 in Hr by exact H.
        destruct (element_in _ _ _ _ E) as (_ & Hke). apply nth_error_In in Hr. rewrite (Hadded e Hr) in Hke. discriminate. }
      assert (Hrl' : r < length (m ++ added)) by (rewrite app_length; lia).
      rewrite (proj2 (Nat.eqb_neq _ _)) by lia. rewrite Hr. rewrite nth_error_app1 in Hr by exact Hrm.
      set (e1 := (fst e, update (snd e) (snd value))).
      assert (Hsplit : firstn r (m ++ added) ++ e1 :: skipn (S r) (m ++ added) = map (updated update [value]) m ++ added).
      { rewrite firstn_app, skipn_app. replace (r - length m) with 0 by lia. replace (S r - length m) with 0 by lia. cbn [firstn skipn].
        rewrite app_nil_r.
        assert (Hm' : map (updated update [value]) m = firstn r m ++ e1 :: skipn (S r) m).
        { rewrite <- (firstn_skipn r m) at 1. rewrite map_app. f_equal.
          - rewrite <- (map_id (firstn r m)) at 2. apply map_ext_in. intros a Hain. unfold updated. cbn [SpecMap.element_of].
            destruct (same (fst a) (fst value)) eqn:Es; [|reflexivity]. exfalso.
            destruct (In_nth_error _ _ Hain) as (i & Hi). rewrite firstn_skipn_nth in Hi. destruct (Nat.ltb_spec i r) as [Hir|]; [|discriminate].
            assert (i = r); [|lia]. apply (flat_distinct key_less m i r a e Hm Hi Hr). eapply same_trans; [exact Hlt | exact Es|].
            eapply element_in, E.
          - assert (Hsk : skipn r m = e :: skipn (S r) m).
            { clear -Hr. revert r Hr. induction m as [|a m IH]; intros [|r] Hr; try discriminate; cbn in *; [congruence | apply IH, Hr]. }
            rewrite Hsk. cbn [map]. f_equal.
            + unfold updated. cbn [SpecMap.element_of]. rewrite same_sym, (proj2 (element_in _ _ _ _ E)). reflexivity.
            + rewrite <- (map_id (skipn (S r) m)) at 2. apply map_ext_in. intros a Hain. unfold updated. cbn [SpecMap.element_of].
              destruct (same (fst a) (fst value)) eqn:Es; [|reflexivity]. exfalso.
              destruct (In_nth_error _ _ Hain) as (i & Hi). rewrite nth_skipn in Hi.
              assert (S r + i = r); [|lia]. apply (flat_distinct key_less m _ r a e Hm Hi Hr). eapply same_trans; [exact Hlt | exact Es|].
              eapply element_in, E. }
        rewrite Hm', <- app_assoc. reflexivity. }
      rewrite Hsplit.
      assert (Hkey : forall e, fst (updated update [value] e) = fst e) by (intros a; unfold updated; destruct (element_of [value] (fst a)); reflexivity).
      assert (Habs : forall e, absent (map (updated update [value]) m) e = absent m e).
      { intros a. unfold absent. rewrite element_map by exact Hkey. destruct (element_of m (fst a)); reflexivity. }
      rewrite IH.
      * f_equal. f_equal.
        -- rewrite map_map. apply map_ext. intros a. unfold updated. cbn [SpecMap.element_of].
           destruct (same (fst a) (fst value)) eqn:Es; cbn [fst snd]; [|reflexivity].
           rewrite (proj2 (element_none key_less other (fst a))); [reflexivity|]. intros b Hb. rewrite (same_eq key_less Hlt _ _ _ Es). auto.
        -- f_equal. apply filter_ext. exact Habs.
      * apply map_keys_flat; auto.
      * intros i j a b Hia Hjb Hab.
        set (up := fun n => if n <? length added then n else S n).
        assert (Hup : forall n x, nth_error (added ++ other) n = Some x -> nth_error (added ++ value :: other) (up n) = Some x).
        { intros n x Hn. unfold up. destruct (Nat.ltb_spec n (length added)) as [H|H].
          - rewrite nth_error_app1 in * by exact H. exact Hn.
          - rewrite nth_error_app2 in * by lia. replace (S n - length added) with (S (n - length added)) by lia. exact Hn. }
        pose proof (Hd _ _ a b (Hup _ _ Hia) (Hup _ _ Hjb) Hab) as H. unfold up in H.
        destruct (Nat.ltb_spec i (length added)), (Nat.ltb_spec j (length added)); lia.
      * intros a Hain. rewrite element_map by exact Hkey. rewrite Ha by exact Hain. reflexivity.
      * intros l1 a l2 -> Hne.
        specialize (Ho (value :: l1) a l2 eq_refl). cbn [filter] in Ho. unfold absent at 1 in Ho. rewrite E in Ho.
        rewrite element_map in Hne by exact Hkey.
        assert (Hne' : element_of m (fst a) <> None) by (destruct (element_of m (fst a)); cbn in *; congruence).
        specialize (Ho Hne'). rewrite (filter_ext _ _ Habs). clear -Ho Hkey.
        intros i j x y Hij Hx Hy.
        assert (Hex : forall n z, nth_error (map (updated update [value]) m ++ added ++ filter (absent m) l1) n = Some z ->
          exists z', nth_error (m ++ added ++ filter (absent m) l1) n = Some z' /\ fst z' = fst z).
        { intros n z Hz. destruct (Nat.lt_ge_cases n (length m)) as [H|H].
          - rewrite nth_error_app1 in * by (rewrite ?map_length; exact H). rewrite nth_error_map in Hz.
            destruct (nth_error m n) as [z'|]; [|discriminate]. injection Hz as <-. exists z'. rewrite Hkey. auto.
          - rewrite nth_error_app2 in * by (rewrite ?map_length; exact H). rewrite map_length in Hz. eauto. }
        destruct (Hex i x Hx) as (x' & Hx' & Ex). destruct (Hex j y Hy) as (y' & Hy' & Ey).
        unfold by_key. rewrite <- Ex, <- Ey. apply (Ho i j x' y' Hij Hx' Hy').
    + destruct (find_sound key_less (m ++ added) (fst value)) as (r & -> & Hrl & Hr).
      assert (Hend : r = length (m ++ added)).
      { destruct (Nat.eq_dec r (length (m ++ added))) as [H|H]; [exact H|]. exfalso.
        destruct (nth_error (m ++ added) r) as [e|] eqn:Er; [|apply nth_error_None in Er; lia]. specialize (Hr e eq_refl).
        apply nth_error_In, in_app_or in Er. destruct Er as [Er|Er]; [|rewrite Hadded in Hr; [discriminate | exact Er]].
        rewrite element_none in E. rewrite E in Hr; [discriminate | exact Er]. }
      rewrite (proj2 (Nat.eqb_eq _ _) Hend). rewrite <- app_assoc. cbn [app].
      rewrite IH.
      * f_equal. f_equal; [|rewrite <- app_assoc; reflexivity].
        apply map_ext_in. intros a Hain. unfold updated. cbn [SpecMap.element_of].
        rewrite element_none in E. rewrite same_sym, (E a Hain). reflexivity.
      * exact Hm.
      * rewrite <- app_assoc. exact Hd.
      * intros e He. apply in_app_or in He. destruct He as [He|[<-|[]]]; auto.
      * intros l1 e l2 -> Hne. specialize (Ho (value :: l1) e l2 eq_refl Hne). cbn [filter] in Ho. unfold absent at 1 in Ho. rewrite E in Ho.
        rewrite <- app_assoc. exact Ho.
Qed.

Lemma upsert_ok update (m other : list element) : (forall e, self_moved e = e) -> flat m -> distinct same other ->
  (forall l, incl l other -> length l <= length other -> sorts key_less ska_sort l) ->
  (forall l1 e l2, other = l1 ++ e :: l2 -> element_of m (fst e) <> None -> multi_flat key_less (m ++ filter (absent m) l1)) ->
  exists m', upsert key_less moved self_moved ska_sort update m other = Some m' /\ flat m' /\
    forall k, element_of m' k =
      match element_of m k, element_of other k with
      | Some e, Some e' => Some (fst e, update (snd e) (snd e'))
      | Some e, None => Some e
      | None, o => o
      end.
Proof.
  intros Hself Hm Hd Hs Ho. unfold upsert.
  pose proof (upsert_loop_ok update other m [] Hm) as HL. rewrite app_nil_r in HL. rewrite HL; auto; [|intros e []]. clear HL. cbn [app].
  assert (Hkey : forall e, fst (updated update other e) = fst e) by (intros a; unfold updated; destruct (element_of other (fst a)); reflexivity).
  rewrite <- (map_length (updated update other) m).
  assert (Hincl : incl (filter (absent m) other) other) by (intros e He; apply filter_In in He; tauto).
  assert (Hlen : length (filter (absent m) other) <= length other).
  { clear. induction other as [|a l IH]; cbn; [lia|]. destruct (absent m a); cbn; lia. }
  destruct (merge_ok (map (updated update other) m) (filter (absent m) other) Hself) as (m' & Hr & Hf & He).
  - apply map_keys_flat; auto.
  - apply Hs; auto.
  - exists m'. split; [exact Hr|]. split; [exact Hf|]. intros k. specialize (He k). rewrite element_map in He by exact Hkey.
    destruct (element_of m k) as [e|] eqn:E; cbn [option_map] in He.
    + rewrite He. unfold updated. rewrite (element_same key_less Hlt other (fst e) k); [|rewrite same_sym; eapply element_in, E].
      destruct (element_of other k); reflexivity.
    + unfold one_of in He. destruct (element_of m' k) as [e'|].
      * destruct He as (Hin & Hke). apply Hincl in Hin.
        destruct (element_some key_less other k) as (e2 & He2); [eauto|]. rewrite He2. f_equal.
        destruct (element_in _ _ _ _ He2) as (Hin2 & Hke2).
        destruct (In_nth_error _ _ Hin) as (i & Hi). destruct (In_nth_error _ _ Hin2) as (j & Hj).
        assert (i = j); [|congruence]. apply (Hd i j e' e2 Hi Hj). rewrite <- (same_eq key_less Hlt k); auto.
      * symmetry. apply element_none. intros a Hain. destruct (same k (fst a)) eqn:Es; [|reflexivity].
        rewrite <- Es. apply He. apply filter_In. split; [exact Hain|]. unfold absent.
        rewrite (element_same key_less Hlt m (fst a) k); [|now rewrite same_sym]. rewrite E. reflexivity.
Qed.

(** In any order: an element of [m] is left or updated, and the elements of [other] with new keys are added. *)
Lemma distinct_skip (l1 : list element) e l2 : distinct same (l1 ++ e :: l2) -> distinct same (l1 ++ l2).
Proof.
  intros Hd i j a b Hia Hjb Hab.
  set (up := fun n => if n <? length l1 then n else S n).
  assert (Hup : forall n x, nth_error (l1 ++ l2) n = Some x -> nth_error (l1 ++ e :: l2) (up n) = Some x).
  { intros n x Hn. unfold up. destruct (Nat.ltb_spec n (length l1)) as [H|H].
    - rewrite nth_error_app1 in * by exact H. exact Hn.
    - rewrite nth_error_app2 in * by lia. replace (S n - length l1) with (S (n - length l1)) by lia. exact Hn. }
  pose proof (Hd _ _ a b (Hup _ _ Hia) (Hup _ _ Hjb) Hab) as H. unfold up in H.
  destruct (Nat.ltb_spec i (length l1)), (Nat.ltb_spec j (length l1)); lia.
Qed.
Lemma distinct_middle (l1 : list element) e l2 a : distinct same (l1 ++ e :: l2) -> In a (l1 ++ l2) -> same (fst e) (fst a) = false.
Proof.
  intros Hd Ha. destruct (same (fst e) (fst a)) eqn:E; [|reflexivity]. apply in_app_or in Ha. destruct Ha as [Ha|Ha].
  - destruct (In_nth_error _ _ Ha) as (i & Hi). assert (Hil : i < length l1) by (apply nth_error_Some; congruence).
    assert (i = length l1); [|lia]. apply (Hd i (length l1) a e).
    + rewrite nth_error_app1; auto.
    + rewrite nth_error_app2, Nat.sub_diag; auto.
    + now rewrite same_sym.
  - destruct (In_nth_error _ _ Ha) as (i & Hi). assert (length l1 = length l1 + S i); [|lia]. apply (Hd _ _ e a).
    + rewrite nth_error_app2, Nat.sub_diag; auto.
    + rewrite nth_error_app2 by lia. replace (length l1 + S i - length l1) with (S i) by lia. exact Hi.
    + exact E.
Qed.
Definition kept (update : M -> M -> M) (other : list element) (e e' : element) : Prop :=
  fst e' = fst e /\ (e' = e \/ exists v, In v other /\ same (fst e) (fst v) = true /\ snd e' = update (snd e) (snd v)).
Lemma upsert_any_loop update (other : list element) : forall (m added : list element), distinct same (added ++ other) ->
  exists m' added', upsert_loop update (m ++ added) other = Some (m' ++ added') /\ length m' = length m /\
    (forall i e, nth_error m i = Some e -> exists e', nth_error m' i = Some e' /\ kept update other e e') /\
    incl added' (added ++ other) /\ length added' <= length added + length other /\ incl added added' /\
    (forall e, In e other -> element_of m (fst e) = None -> In e added').
Proof.
  induction other as [|value other IH]; intros m added Hd; cbn [FlatMap.upsert_loop].
  - exists m, added. split; [reflexivity|]. split; [reflexivity|]. split; [|rewrite app_nil_r; cbn; split; [apply incl_refl|]; split; [lia|]; split; [apply incl_refl | intros e []]].
    intros i e He. exists e. split; [exact He|]. split; auto.
  - unfold lookup. destruct (find_sound key_less (m ++ added) (fst value)) as (r & -> & Hrl & Hr).
    destruct (Nat.eqb_spec r (length (m ++ added))) as [Hend|Hend].
    + rewrite <- app_assoc. destruct (IH m (added ++ [value])) as (m' & added' & HL & Hlen & Hk & Hin & Hal & Hinc & Hnew); [rewrite <- app_assoc; exact Hd|].
      exists m', added'. split; [exact HL|]. split; [exact Hlen|]. split.
      { intros i e He. destruct (Hk i e He) as (e' & He' & H1 & H2). exists e'. split; [exact He'|]. split; [exact H1|].
        destruct H2 as [H2|(v & Hv & H2)]; [now left | right; exists v; split; [now right | exact H2]]. }
      rewrite <- app_assoc in Hin. split; [exact Hin|]. rewrite app_length in Hal. cbn [length] in *. split; [lia|].
      split; [intros a Ha; apply Hinc, in_or_app; now left|].
      intros e [<-|He] Hn; [apply Hinc, in_or_app; right; now left | auto].
    + destruct (nth_error (m ++ added) r) as [e|] eqn:Er; [|apply nth_error_None in Er; lia].
      specialize (Hr e eq_refl).
      assert (Hrm : r < length m).
      { destruct (Nat.lt_ge_cases r (length m)) as [H|H]; [exact H|]. exfalso. rewrite nth_error_app2 in Er by exact H.
        apply nth_error_In in Er. rewrite (distinct_middle added value other e Hd) in Hr; [discriminate | apply in_or_app; auto]. }
      rewrite nth_error_app1 in Er by exact Hrm.
      set (e1 := (fst e, update (snd e) (snd value))). set (m1 := firstn r m ++ e1 :: skipn (S r) m).
      replace (firstn r (m ++ added) ++ e1 :: skipn (S r) (m ++ added)) with (m1 ++ added)
        by (unfold m1; rewrite firstn_app, skipn_app; replace (r - length m) with 0 by lia; replace (S r - length m) with 0 by lia;
            cbn [firstn skipn]; rewrite app_nil_r, <- app_assoc; reflexivity).
      assert (Hlen1 : length m1 = length m) by (unfold m1; rewrite app_length, firstn_length; cbn [length]; rewrite skipn_length; lia).
      assert (Hm1 : forall i a, nth_error m i = Some a -> nth_error m1 i = Some (if i =? r then e1 else a)).
      { intros i a Ha. unfold m1. destruct (Nat.eqb_spec i r) as [Heq|Hne].
        - rewrite nth_error_app2; rewrite firstn_length, Nat.min_l by lia; [|lia]. rewrite Heq, Nat.sub_diag. reflexivity.
        - destruct (Nat.lt_ge_cases i r).
          + rewrite nth_error_app1 by (rewrite firstn_length; lia). rewrite firstn_skipn_nth.
            destruct (Nat.ltb_spec i r); [exact Ha | lia].
          + rewrite nth_error_app2; rewrite firstn_length, Nat.min_l by lia; [|lia].
            replace (i - r) with (S (i - S r)) by lia. cbn [nth_error]. rewrite nth_skipn. replace (S r + (i - S r)) with i by lia. exact Ha. }
      destruct (IH m1 added) as (m' & added' & HL & Hlen & Hk & Hin & Hal & Hinc & Hnew); [eapply distinct_skip, Hd|].
      exists m', added'. split; [exact HL|]. split; [lia|]. split; [|split; [|cbn [length]; split; [lia|]; split; [exact Hinc|]]].
      * intros i a Ha. destruct (Hk i _ (Hm1 i a Ha)) as (e' & He' & H1 & H2). exists e'. split; [exact He'|].
        destruct (Nat.eqb_spec i r) as [Heq|Hne].
        -- assert (a = e) by congruence. subst a. split; [exact H1|]. right. exists value. split; [now left|]. split; [now rewrite same_sym|].
           destruct H2 as [->|(v & Hv & H2 & _)]; [reflexivity|]. exfalso. cbn [fst e1] in H2.
           assert (E : same (fst value) (fst v) = false) by (apply (distinct_middle added value other v Hd), in_or_app; auto).
           rewrite (same_eq key_less Hlt _ _ (fst v) Hr) in E. congruence.
        -- split; [exact H1|]. destruct H2 as [H2|(v & Hv & H2)]; [now left | right; exists v; split; [now right | exact H2]].
      * intros a Ha. apply Hin in Ha. apply in_app_or in Ha. apply in_or_app. destruct Ha as [Ha|Ha]; [auto | right; now right].
      * intros a [<-|Ha] Hn.
        -- exfalso. rewrite element_none in Hn. rewrite (Hn e) in Hr; [discriminate | eapply nth_error_In, Er].
        -- apply Hnew; [exact Ha|]. apply element_none. intros b Hb. destruct (In_nth_error _ _ Hb) as (i & Hi).
           assert (Him : i < length m) by (rewrite <- Hlen1; apply nth_error_Some; congruence).
           destruct (nth_error m i) as [c|] eqn:Ec; [|apply nth_error_None in Ec; lia].
           rewrite (Hm1 i c Ec) in Hi. rewrite element_none in Hn.
           destruct (i =? r); injection Hi as <-; [apply (Hn e); eapply nth_error_In, Er | apply (Hn c); eapply nth_error_In, Ec].
Qed.
Lemma kept_element update other (m m' : list element) : length m' = length m ->
  (forall i e, nth_error m i = Some e -> exists e', nth_error m' i = Some e' /\ kept update other e e') ->
  (flat m -> flat m') /\
  forall k, match element_of m k with Some e => exists e', element_of m' k = Some e' /\ kept update other e e' | None => element_of m' k = None end.
Proof.
  intros Hlen H. split.
  - intros Hm i j a b Hij Ha Hb.
    assert (Hget : forall n x, nth_error m' n = Some x -> exists y, nth_error m n = Some y /\ fst y = fst x).
    { intros n x Hx. assert (n < length m) by (rewrite <- Hlen; apply nth_error_Some; congruence).
      destruct (nth_error m n) as [y|] eqn:Ey; [|apply nth_error_None in Ey; lia]. exists y. split; [reflexivity|].
      destruct (H n y Ey) as (e' & He' & (Hk & _)). congruence. }
    destruct (Hget i a Ha) as (a' & Ha' & Ea). destruct (Hget j b Hb) as (b' & Hb' & Eb). unfold by_key. rewrite <- Ea, <- Eb.
    apply (Hm i j a' b'); auto.
  - intros k. revert m' Hlen H. induction m as [|e m IH]; intros [|e' m'] Hlen H; try discriminate; cbn [SpecMap.element_of]; [reflexivity|].
    destruct (H 0 e eq_refl) as (e2 & He2 & Hk). cbn [nth_error] in He2. injection He2 as <-. rewrite (proj1 Hk).
    destruct (same k (fst e)); [eauto|]. apply IH; [cbn in Hlen; lia|]. intros i a Ha. exact (H (S i) a Ha).
Qed.
Lemma upsert_any update (m other : list element) : (forall e, self_moved e = e) -> flat m -> distinct same other ->
  (forall l, incl l other -> length l <= length other -> sorts key_less ska_sort l) ->
  exists m', upsert key_less moved self_moved ska_sort update m other = Some m' /\ flat m' /\
    forall k, match element_of m k with
              | Some e => element_of m' k = Some e \/
                          exists e', In e' other /\ same k (fst e') = true /\ element_of m' k = Some (fst e, update (snd e) (snd e'))
              | None => element_of m' k = element_of other k
              end.
Proof.
  intros Hself Hm Hd Hs. unfold upsert.
  destruct (upsert_any_loop update other m [] Hd) as (m1 & added & HL & Hlen & Hk & Hin & Hal & _ & Hnew). rewrite app_nil_r in HL. rewrite HL. clear HL.
  cbn [app length Nat.add] in *. rewrite <- Hlen. destruct (kept_element update other m m1 Hlen Hk) as (Hflat & Hel).
  destruct (merge_ok m1 added Hself) as (m' & Hr & Hf & He); [auto | apply Hs; auto|].
  exists m'. split; [exact Hr|]. split; [exact Hf|]. intros k. specialize (He k). specialize (Hel k).
  destruct (element_of m k) as [e|] eqn:E.
  - destruct Hel as (e' & He' & H1 & H2). rewrite He' in He. rewrite He. destruct H2 as [->|(v & Hv & H2 & H3)]; [now left|].
    right. exists v. split; [exact Hv|]. split.
    + rewrite <- H2. apply same_eq; auto. eapply element_in, E.
    + destruct e' as [k1 v1]. cbn [fst snd] in *. congruence.
  - rewrite Hel in He. unfold one_of in He. destruct (element_of m' k) as [e'|].
    + destruct He as (Hi & Hke). apply Hin in Hi.
      destruct (element_some key_less other k) as (e2 & He2); [eauto|]. rewrite He2. f_equal.
      destruct (element_in _ _ _ _ He2) as (Hin2 & Hke2).
      destruct (In_nth_error _ _ Hi) as (i & Hii). destruct (In_nth_error _ _ Hin2) as (j & Hj).
      assert (i = j); [|congruence]. apply (Hd i j e' e2 Hii Hj). rewrite <- (same_eq key_less Hlt k); auto.
    + symmetry. apply element_none. intros a Hain. destruct (same k (fst a)) eqn:Es; [|reflexivity].
      rewrite <- Es. apply He. apply Hnew; [exact Hain|].
      rewrite (element_same key_less Hlt m (fst a) k); [exact E | now rewrite same_sym].
Qed.

(** ** multimap *)
Lemma std_merge_ok (l1 l2 : list element) : multi_flat key_less l1 -> multi_flat key_less l2 ->
  Permutation (l1 ++ l2) (std_merge key_less l1 l2) /\ multi_flat key_less (std_merge key_less l1 l2).
Proof.
  revert l2. induction l1 as [|a l1 IH1]; intros l2 H1 H2; [cbn; split; auto|].
  induction l2 as [|b l2 IH2]; [cbn; rewrite app_nil_r; split; auto|].
  cbn [std_merge]. unfold multi_flat in *. destruct (less b a) eqn:E.
  - destruct IH2 as (Hp & Ho); [apply ordered_cons in H2; tauto|]. cbn [std_merge] in Hp, Ho. split.
    + rewrite <- Permutation_middle. apply perm_skip. exact Hp.
    + apply ordered_cons. split; [|exact Ho]. intros c Hc. apply (Permutation_in _ (Permutation_sym Hp)), in_app_or in Hc.
      apply ordered_cons in H1 as (H1 & _). apply ordered_cons in H2 as (H2 & _). destruct Hc as [[<-|Hc]|Hc].
      * apply (lt_asym _ lo). exact E.
      * eapply (ge_trans (by_key key_less) lo); [|apply H1, Hc]. apply (lt_asym _ lo). exact E.
      * apply H2, Hc.
  - destruct (IH1 (b :: l2)) as (Hp & Ho); [apply ordered_cons in H1; tauto | exact H2|]. split.
    + cbn [app]. apply perm_skip. exact Hp.
    + apply ordered_cons. split; [|exact Ho]. intros c Hc. apply (Permutation_in _ (Permutation_sym Hp)), in_app_or in Hc.
      apply ordered_cons in H1 as (H1 & _). apply ordered_cons in H2 as (H2 & _). destruct Hc as [Hc|[<-|Hc]].
      * apply H1, Hc.
      * exact E.
      * eapply (ge_trans (by_key key_less) lo); [exact E | apply H2, Hc].
Qed.
(** Stability: those with the same key stay in order, those of the first range before those of the second. *)
Lemma std_merge_stable k (l1 l2 : list element) : multi_flat key_less l1 ->
  filter (fun e => same k (fst e)) (std_merge key_less l1 l2) = filter (fun e => same k (fst e)) l1 ++ filter (fun e => same k (fst e)) l2.
Proof.
  revert l2. induction l1 as [|a l1 IH1]; intros l2 H1; [reflexivity|].
  induction l2 as [|b l2 IH2]; [cbn [std_merge]; rewrite app_nil_r; reflexivity|].
  cbn [std_merge]. unfold multi_flat in *. destruct (less b a) eqn:E.
  - cbn [std_merge] in IH2. cbn [filter] in IH2 |- *. destruct (same k (fst b)) eqn:Eb; [|exact IH2].
    assert (Hno : forall c, In c (a :: l1) -> same k (fst c) = false).
    { intros c Hc. apply ordered_cons in H1 as (H1 & _).
      assert (Hbc : less b c = true).
      { destruct Hc as [<-|Hc]; [exact E|]. exact (lt_ge_trans (by_key key_less) lo b a c E (H1 c Hc)). }
      destruct (same k (fst c)) eqn:Ec; [|reflexivity]. rewrite (same_eq key_less Hlt _ _ (fst c) Eb) in Ec.
      unfold equivalent in Ec. apply andb_true_iff in Ec as (Ec & _). apply negb_true_iff in Ec. unfold FlatMap.less in Hbc. congruence. }
    rewrite IH2. rewrite (Hno a) by now left.
    replace (filter (fun e => same k (fst e)) l1) with (@nil element); [reflexivity|].
    clear -Hno. induction l1 as [|c l IH]; [reflexivity|]. cbn [filter]. rewrite (Hno c) by (right; now left).
    apply IH. intros d [<-|Hd]; apply Hno; [now left | right; now right].
  - cbn [filter]. rewrite IH1 by (apply ordered_cons in H1; tauto). destruct (same k (fst a)); reflexivity.
Qed.
Lemma filter_perm {V} (f : V -> bool) l l' : Permutation l l' -> Permutation (filter f l) (filter f l').
Proof.
  induction 1 as [|x l l' H IH|x y l|l l' l'' H1 IH1 H2 IH2]; cbn; [constructor | destruct (f x); [now constructor | exact IH] | | etransitivity; eauto].
  destruct (f x), (f y); first [apply perm_swap | reflexivity].
Qed.
Lemma multi_insert_ok (m init : list element) : multi_flat key_less m -> sorts key_less ska_sort init ->
  exists m', multi_insert key_less ska_sort m init = Some m' /\ multi_flat key_less m' /\
    forall k, exists new, Permutation (filter (fun e => same k (fst e)) init) new /\
      filter (fun e => same k (fst e)) m' = filter (fun e => same k (fst e)) m ++ new.
Proof.
  intros Hm (tail' & Hs & Hp & Ho). unfold multi_insert, multi_merge_sorted_and_unsorted.
  rewrite firstn_app, firstn_all, Nat.sub_diag, skipn_app, skipn_all, Nat.sub_diag. cbn [skipn firstn app]. rewrite app_nil_r, Hs.
  eexists. split; [reflexivity|]. destruct (std_merge_ok m tail' Hm Ho) as (H1 & H2). split; [exact H2|].
  intros k. eexists. split; [|apply std_merge_stable, Hm]. apply filter_perm, Hp.
Qed.

(** ** erase *)
Lemma increasing_sub {V} (lt : V -> V -> bool) l f : increasing lt l -> increasing lt (filter f l).
Proof.
  induction l as [|a l IH]; intros H; cbn; [exact H|]. apply increasing_cons in H as (H1 & H2). destruct (f a); [|auto].
  apply increasing_cons. split; [|auto]. intros v Hv. apply filter_In in Hv. apply H1. tauto.
Qed.
Lemma erase_ok (m : list element) first last : flat m -> first <= last <= length m ->
  flat (erase m first last) /\
  forall e, In e (erase m first last) <-> exists i, nth_error m i = Some e /\ ~ (first <= i < last).
Proof.
  intros Hm Hb. unfold erase.
  assert (Hn : forall i, nth_error (firstn first m ++ skipn last m) i = if i <? first then nth_error m i else nth_error m (last + (i - first))).
  { intros i. destruct (Nat.ltb_spec i first) as [H|H].
    - rewrite nth_error_app1 by (rewrite firstn_length; lia). rewrite firstn_skipn_nth. now rewrite (proj2 (Nat.ltb_lt _ _) H).
    - rewrite nth_error_app2 by (rewrite firstn_length; lia). rewrite nth_skipn, firstn_length. f_equal. lia. }
  split.
  - intros i j a b Hij. rewrite !Hn. destruct (Nat.ltb_spec i first), (Nat.ltb_spec j first); try lia; intros Ha Hc; eapply Hm; [|eassumption|eassumption| |eassumption|eassumption| |eassumption|eassumption]; lia.
  - intros e. split.
    + intros He. destruct (In_nth_error _ _ He) as (i & Hi). rewrite Hn in Hi. destruct (Nat.ltb_spec i first); eexists; (split; [exact Hi | lia]).
    + intros (i & Hi & Ho). destruct (Nat.lt_ge_cases i first) as [H|H].
      * apply nth_error_In with i. rewrite Hn, (proj2 (Nat.ltb_lt _ _) H). exact Hi.
      * apply nth_error_In with (i - last + first). rewrite Hn, (proj2 (Nat.ltb_ge _ _)) by lia. rewrite <- Hi. f_equal. lia.
Qed.
Lemma erase_if_ok (m : list element) predicate : flat m -> flat (erase_if m predicate) /\
  forall e, In e (erase_if m predicate) <-> In e m /\ predicate e = false.
Proof.
  intros Hm. split; [apply increasing_sub, Hm|]. intros e. unfold erase_if. rewrite filter_In, negb_true_iff. tauto.
Qed.
End Maps.
