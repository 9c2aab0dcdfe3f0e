(** * Proofs for flat maps that are made from ranges, in memory *)

From Coq Require Import List Arith Bool Lia Permutation.
From Verif Require Import Mem MemLemmas SpecVec Vec DynArray SpecSort SpecUnique Unique UniqueProofs UniqueProofs2 UniqueProofs3 FlatMap SpecMap FlatMapProofs FlatMapProofs2 VecProofs VecProofs2 VecCost VecHistory
  FlatMemoryProofs FlatMemoryProofs2 LinearMemoryProofs UniqueMemory UniqueMemoryProofs SpecFlatRange.
From Verif Require Algo VecPrograms PropsVec PropsUnique.
Import ListNotations.
Local Open Scope nat_scope.

Section Range.
Context {V : Type} (moved self_moved : V -> V) (maxc : nat) (others : memory (V := V)).
Local Notation world := (world V).
Local Notation C := (bounded_vector (V := V) moved 0 maxc).

(** A vector with storage is one array. *)
Lemma vector_array P o l (w : world) b : is_vector 0 maxc o l others w -> u_pointer (b_storage o) = Some b -> Forall P l ->
  exists spare, good P [b] spare others [length l] [l] w /\
    forall l' w', good P [b] spare others [length l] [l'] w' -> is_vector 0 maxc o l' others w' /\ length l' = length l /\ Forall P l'.
Proof.
  intros [[Hz H] Hu] Hb Hp. rewrite Hb in H. destruct H as (Ho & (spare & Hm & Hc & Hr) & Hx). exists (fun _ => repeat None spare). split.
  - split; [split; [reflexivity|auto]|]. split; [reflexivity|]. split; [constructor; [auto|constructor]|]. split; [|split; [|exact Hu]].
    + intros [|k] b' l' Hb' Hl'; cbn in Hb', Hl'; [|destruct k; discriminate]. injection Hb' as <-. injection Hl' as <-. exact Hm.
    + intros b' Hb'. apply Hx. cbn in Hb'. intuition.
  - intros l' w' [[Hs Hp'] (_ & _ & A3 & A4 & A5)]. injection Hs as Hs. split; [|split; [exact Hs|now inversion Hp']]. split; [|exact A5]. split; [congruence|]. rewrite Hb.
    split; [exact Ho|]. split; [exists spare; rewrite Hs; split; [exact (A3 0 b l' eq_refl eq_refl)|auto]|]. intros b' Hb'. apply A4. cbn. intuition.
Qed.
Lemma array_vector (P : V -> Prop) o (l : list V) (w : world) (A : Type) (m : M V bvector A) h' a b spare :
  does P [b] spare others [length l] m o w h' a ->
  (forall l' w', good P [b] spare others [length l] [l'] w' -> is_vector 0 maxc o l' others w' /\ length l' = length l /\ Forall P l') ->
  ends (m o w) (fun o' a' w' => o' = o /\ a' = a /\ incl (script w') (script w) /\ exists l', h' = [l'] /\ is_vector 0 maxc o l' others w' /\ length l' = length l /\ Forall P l')
    (fun o' w' => o' = o /\ someone_throws w /\ exists l', is_vector 0 maxc o l' others w' /\ length l' = length l /\ Forall P l').
Proof.
  unfold does, ends. intros Hd Hb. assert (Hone : forall h w', good P [b] spare others [length l] h w' -> exists l', h = [l']).
  { intros h w' [[Hs _] _]. destruct h as [|l' [|]]; try discriminate. eauto. }
  destruct (m o w) as [x a' w'|x w'|]; auto.
  - destruct Hd as (-> & -> & Hg & Hi). split; [reflexivity|]. split; [reflexivity|]. split; [exact Hi|]. destruct (Hone _ _ Hg) as (l' & ->). exists l'. split; [reflexivity|]. now apply Hb.
  - destruct Hd as (-> & Ht & h'' & Hg). split; [reflexivity|]. split; [exact Ht|]. destruct (Hone _ _ Hg) as (l' & ->). exists l'. now apply Hb.
Qed.

Local Notation left_of := (remains moved self_moved).
Lemma all_remain l : Forall (left_of l) l.
Proof. apply Forall_forall. intros v Hv. now constructor. Qed.

Lemma unique_vector equal o l (w : world) l' n : is_vector 0 maxc o l others w -> unique moved self_moved equal [l] 0 0 (length l) = Some ([l'], n) ->
  ends (mem_unique moved self_moved equal (c_data C o) 0 (length l) o w)
    (fun o' n' w' => o' = o /\ n' = n /\ incl (script w') (script w) /\ is_vector 0 maxc o l' others w' /\ length l' = length l)
    (fun o' w' => o' = o /\ someone_throws w /\ exists l', is_vector 0 maxc o l' others w' /\ length l' = length l /\ Forall (left_of l) l').
Proof.
  intros Hv Hu. cbn [bounded_vector c_data]. unfold bv_data. destruct (u_pointer (b_storage o)) as [b|] eqn:Eb.
  - destruct (vector_array (left_of l) o l w b Hv Eb (all_remain l)) as (spare & Hg & Hback).
    pose proof (unique_does moved self_moved (left_of l) (was_moved _ _ l) (was_moved_to_itself _ _ l) [b] spare others [length l] equal (length l) [l] w 0 b 0 _ _ o Hg eq_refl Hu) as Hd.
    refine (FlatMemoryProofs2.ends_weaken _ _ _ _ _ (array_vector _ _ _ _ _ _ _ _ _ _ Hd Hback) _ _); cbv beta; [|tauto].
    intros x a w' (-> & -> & Hi & l2 & [= <-] & H1 & H2 & _). auto.
  - assert (l = []) as ->. { destruct Hv as [[_ H] _]. rewrite Eb in H. apply H. }
    cbn in Hu. injection Hu as <- <-. cbn. auto using incl_refl.
Qed.
Lemma merge_vector less o l1 l2 (w : world) l' n : is_vector 0 maxc o (l1 ++ l2) others w ->
  unique_inplace_merge moved self_moved less [l1 ++ l2] 0 0 (length l1) (length (l1 ++ l2)) = Some ([l'], n) ->
  ends (mem_unique_inplace_merge moved self_moved less (c_data C o) 0 (length l1) (length (l1 ++ l2)) o w)
    (fun o' n' w' => o' = o /\ n' = n /\ incl (script w') (script w) /\ is_vector 0 maxc o l' others w' /\ length l' = length (l1 ++ l2))
    (fun o' w' => o' = o /\ someone_throws w /\ exists l', is_vector 0 maxc o l' others w' /\ length l' = length (l1 ++ l2) /\ Forall (left_of (l1 ++ l2)) l').
Proof.
  intros Hv Hu. cbn [bounded_vector c_data]. unfold bv_data. destruct (u_pointer (b_storage o)) as [b|] eqn:Eb.
  - set (l := l1 ++ l2) in *. destruct (vector_array (left_of l) o l w b Hv Eb (all_remain l)) as (spare & Hg & Hback).
    pose proof (inplace_merge_does moved self_moved (left_of l) (was_moved _ _ l) (was_moved_to_itself _ _ l) spare others less b l w 0 (length l1) (length l) _ _ o Hg (Nat.le_0_l _) Hu) as Hd.
    refine (FlatMemoryProofs2.ends_weaken _ _ _ _ _ (array_vector _ _ _ _ _ _ _ _ _ _ Hd Hback) _ _); cbv beta; [|tauto].
    intros x a w' (-> & -> & Hi & l3 & [= <-] & H1 & H2 & _). auto.
  - assert (l1 ++ l2 = []) as E. { destruct Hv as [[_ H] _]. rewrite Eb in H. apply H. } apply app_eq_nil in E as [-> ->].
    cbn in Hu. injection Hu as <- <-. cbn. auto using incl_refl.
Qed.

(** ** Elements that are put in another order *)
Section Rearrange.
Context (P : V -> Prop) (b : nat) (spare : nat -> list (option V)).
Lemma set_middle {A} (l1 : list A) a a' l2 : set_nth (l1 ++ a :: l2) (length l1) a' = l1 ++ a' :: l2.
Proof. induction l1; cbn; congruence. Qed.
Lemma read_all {X} (x : X) (w : world) l1 l l2 : shown [b] spare others [l1 ++ l ++ l2] w ->
  read_elements (Some b) (length l1) (length l) x w = Ret x l w.
Proof.
  revert l1. induction l as [|a l IH]; intros l1 H; [reflexivity|]. cbn [length read_elements]. unfold bind.
  rewrite (shown_load [b] spare others [l1 ++ (a :: l) ++ l2] w 0 b (length l1) a x H eq_refl).
  - replace (S (length l1)) with (length (l1 ++ [a])) by (rewrite app_length; cbn; lia). rewrite IH; [reflexivity|]. rewrite <- app_assoc. exact H.
  - unfold read. cbn [nth_error]. rewrite nth_error_app2, Nat.sub_diag by lia. reflexivity.
Qed.
Lemma write_all {X} (x : X) l1 l l2 : forall l' (w : world), length l' = length l -> shown [b] spare others [l1 ++ l ++ l2] w ->
  exists w', write_elements (Some b) (length l1) l' x w = Ret x tt w' /\ shown [b] spare others [l1 ++ l' ++ l2] w' /\ script w' = script w.
Proof.
  revert l1. induction l as [|a l IH]; intros l1 [|a' l'] w Hl H; try discriminate; [exists w; auto|]. cbn [write_elements]. unfold bind.
  destruct (shown_store [b] spare others [l1 ++ (a :: l) ++ l2] w 0 b (length l1) a' [l1 ++ a' :: l ++ l2] x H eq_refl) as (w1 & Hw1 & H1 & H2).
  - unfold write. cbn [nth_error]. rewrite app_length. cbn [app length]. destruct (Nat.ltb_spec (length l1) (length l1 + S (length (l ++ l2)))); [|lia]. cbn [set_nth]. now rewrite set_middle.
  - rewrite Hw1. replace (S (length l1)) with (length (l1 ++ [a'])) by (rewrite app_length; cbn; lia). injection Hl as Hl.
    destruct (IH (l1 ++ [a']) l' w1 Hl) as (w2 & Hw2 & H3 & H4); [rewrite <- app_assoc; exact H1|]. exists w2. split; [exact Hw2|]. rewrite <- app_assoc in H3. split; [exact H3|congruence].
Qed.
Lemma fine_part l1 l l2 l' : length l' = length l -> (Forall P l -> Forall P l') -> fine P [length (l1 ++ l ++ l2)] [l1 ++ l ++ l2] -> fine P [length (l1 ++ l ++ l2)] [l1 ++ l' ++ l2].
Proof.
  intros Hl Hp [_ H]. split; [cbn; rewrite !app_length, Hl; reflexivity|]. inversion_clear H. constructor; [|constructor].
  apply Forall_app in H0 as [A1 A2]. apply Forall_app in A2 as [A2 A3]. apply Forall_app. split; [exact A1|]. apply Forall_app. split; [auto|exact A3].
Qed.
Lemma rearrange_does {X} (x : X) (w : world) result interrupted l1 l l2 l' : length (interrupted l) = length l -> (Forall P l -> Forall P (interrupted l)) -> result l = Some l' -> Permutation l' l ->
  good P [b] spare others [length (l1 ++ l ++ l2)] [l1 ++ l ++ l2] w ->
  does P [b] spare others [length (l1 ++ l ++ l2)] (mem_rearrange result interrupted (Some b) (length l1) (length l)) x w [l1 ++ l' ++ l2] tt.
Proof.
  intros Hi Hi2 Hr Hp [Hf Hs]. unfold does, mem_rearrange, bind. rewrite (read_all x w l1 l l2 Hs), Hr. unfold rethrow_after. pose proof (reading_may_throw x w) as Ht. unfold reading in Ht.
  destruct (may_throw x w) as [x1 [] w1|x1 w1|]; [| |contradiction].
  - destruct Ht as (-> & Hq & _). destruct (write_all x l1 l l2 l' w1 (Permutation_length Hp)) as (w2 & -> & H1 & H2); [eapply shown_quiet; eauto|]. cbn [ends].
    split; [reflexivity|]. split; [reflexivity|]. split; [split; [apply fine_part; [now apply Permutation_length|now rewrite Hp|exact Hf]|exact H1]|]. rewrite H2. apply Hq.
  - destruct Ht as (-> & Hq & Ht). destruct (write_all x l1 l l2 (interrupted l) w1 Hi) as (w2 & -> & H1 & H2); [eapply shown_quiet; eauto|]. cbn [ends].
    split; [reflexivity|]. split; [exact Ht|]. exists [l1 ++ interrupted l ++ l2]. split; [now apply fine_part|exact H1].
Qed.
End Rearrange.
Lemma quiet_vector o l (w w' : world) : is_vector 0 maxc o l others w -> quiet w w' -> is_vector 0 maxc o l others w'.
Proof. intros (H1 & H2) (Hh & Hn & _). split; [now rewrite Hh|]. unfold unused_names in *. now rewrite Hh, Hn. Qed.
Lemma remains_incl l l' v : incl l l' -> left_of l v -> left_of l' v.
Proof. intros Hi H. induction H; [apply was_there; auto|now apply was_moved|now apply was_moved_to_itself]. Qed.
Lemma rearrange_vector o l1 l (w : world) result interrupted l' : (forall l, length (interrupted l) = length l /\ Forall (left_of l) (interrupted l)) -> result l = Some l' -> Permutation l' l ->
  is_vector 0 maxc o (l1 ++ l) others w ->
  ends (mem_rearrange result interrupted (c_data C o) (length l1) (length l) o w)
    (fun o' _ w' => o' = o /\ incl (script w') (script w) /\ is_vector 0 maxc o (l1 ++ l') others w')
    (fun o' w' => o' = o /\ someone_throws w /\ exists q, is_vector 0 maxc o q others w' /\ length q = length (l1 ++ l) /\ Forall (left_of (l1 ++ l)) q).
Proof.
  intros Hi Hr Hp Hv. cbn [bounded_vector c_data]. unfold bv_data. destruct (u_pointer (b_storage o)) as [b|] eqn:Eb.
  - destruct (vector_array (left_of (l1 ++ l)) o (l1 ++ l) w b Hv Eb (all_remain _)) as (spare & Hg & Hback).
    pose proof (rearrange_does (left_of (l1 ++ l)) b spare o w result interrupted l1 l [] l' (proj1 (Hi l)) (fun _ => Forall_impl _ (fun v => remains_incl l (l1 ++ l) v (incl_appr _ (incl_refl _))) (proj2 (Hi l))) Hr Hp) as Hd. rewrite !app_nil_r in Hd. specialize (Hd Hg).
    refine (FlatMemoryProofs2.ends_weaken _ _ _ _ _ (array_vector _ _ _ _ _ _ _ _ _ _ Hd Hback) _ _); cbv beta; [|tauto].
    intros x a w' (-> & _ & Hi' & l3 & [= <-] & H1 & H2 & _). auto.
  - assert (l1 ++ l = []) as E. { destruct Hv as [[_ H] _]. rewrite Eb in H. apply H. } apply app_eq_nil in E as [-> ->].
    apply Permutation_sym, Permutation_nil in Hp as ->.
    assert (interrupted [] = []) as Ei by (apply length_zero_iff_nil, Hi).
    unfold mem_rearrange, bind, rethrow_after. cbn [length read_elements ret]. unfold ret. rewrite Hr, Ei. pose proof (reading_may_throw o w) as Ht. unfold reading in Ht.
    destruct (may_throw o w) as [x1 [] w1|x1 w1|]; [| |contradiction]; cbn.
    + destruct Ht as (-> & Hq & _). split; [reflexivity|]. split; [apply Hq|]. eapply quiet_vector; eauto.
    + destruct Ht as (-> & Hq & Ht). split; [reflexivity|]. split; [exact Ht|]. exists []. split; [eapply quiet_vector; eauto|]. auto.
Qed.
End Range.

Section Flat.
Context {K T : Type} (moved self_moved : K * T -> K * T) (key_less key_equal : K -> K -> bool).
Local Notation element := (K * T)%type.
Context (ska_sort : list element -> option (list element)) (interrupted : list element -> list element).
Context (Hlt : strict_weak_order key_less) (Hinter : forall l, length (interrupted l) = length l /\ Forall (remains moved self_moved l) (interrupted l)).
Local Notation less := (fun a b : element => key_less (fst a) (fst b)).
Local Notation left_of := (remains moved self_moved).
Local Notation keeps m k old news := (match element_of (equivalent key_less) old k with Some e => element_of (equivalent key_less) m k = Some e | None => one_of key_less news k (element_of (equivalent key_less) m k) end).

Lemma merge_sorted_vector maxc o m tail others (w : world element) : (forall e, self_moved e = e) -> flat key_less m -> sorts key_less ska_sort tail ->
  is_vector 0 maxc o (m ++ tail) others w ->
  ends (mem_merge_sorted_and_unsorted moved self_moved key_less ska_sort interrupted (bounded_vector moved 0 maxc) (length m) o w)
    (fun o' _ w' => exists m', is_vector 0 maxc o' m' others w' /\ flat key_less m' /\ forall k, keeps m' k m tail)
    (fun o' w' => someone_throws w /\ exists q, is_vector 0 maxc o' q others w' /\ length q = length (m ++ tail) /\ Forall (left_of (m ++ tail)) q).
Proof.
  intros Hself Hm (tail' & Hs & Hp & Ho) Hv. pose proof (@less_order K T key_less Hlt) as lo. unfold mem_merge_sorted_and_unsorted, bind, get.
  cbn [bounded_vector c_size]. rewrite (vec_size moved maxc others o _ w Hv : b_size o = length (m ++ tail)).
  replace (length (m ++ tail) - length m) with (length tail) by (rewrite app_length; lia).
  pose proof (rearrange_vector moved self_moved maxc others o m tail w ska_sort interrupted tail' Hinter Hs (Permutation_sym Hp) Hv) as H1. cbn [bounded_vector c_data] in *.
  destruct (mem_rearrange _ _ _ _ _ o w) as [o1 [] w1|o1 w1|]; cbn [ends] in H1; [| |contradiction].
  2: { destruct H1 as (-> & H1). exact H1. }
  destruct H1 as (-> & Hi1 & Hv1). replace (length (m ++ tail)) with (length (m ++ tail')) by (rewrite !app_length; f_equal; symmetry; now apply Permutation_length).
  destruct (inplace_merge_ok moved self_moved less lo m tail' [m ++ tail'] 0 0) as (h' & r & Hr & HU & Hsh & Hat & _); [right; exact Hself|exact Hm|exact Ho|apply array_self|].
  destruct (shape_one _ _ Hsh) as (l' & -> & Hl'). cbn [Nat.add] in Hr.
  pose proof (merge_vector moved self_moved maxc others less o m tail' w1 l' (length r) Hv1 Hr) as H2. cbn [bounded_vector c_data] in *.
  destruct (mem_unique_inplace_merge _ _ _ _ _ _ _ o w1) as [o2 n w2|o2 w2|]; cbn [ends] in H2; [| |contradiction].
  - destruct H2 as (-> & -> & Hi2 & Hv2 & _). pose proof (array_firstn _ _ Hat) as Hfr. rewrite <- (firstn_skipn (length r) l'), Hfr in Hv2.
    pose proof (vec_cut moved maxc others o r (skipn (length r) l') w2 Hv2) as H3. unfold bounded_vector in *.
    destruct (erase_to_end _ _ o w2) as [o3 [] w3|o3 w3|]; cbn [ends] in *; [|contradiction..]. exists r. split; [apply H3|]. split; [apply HU|].
    intros k. rewrite (uniques_elements key_less Hlt _ _ k HU), element_app. destruct (element_of (equivalent key_less) m k) as [e|]; [reflexivity|]. apply one_of_perm, Hp.
  - cbn [ends]. destruct H2 as (-> & Ht & q & Hq & Hl & Hf). split; [apply Hi1, Ht|]. exists q. split; [exact Hq|]. split; [exact Hl|].
    eapply Forall_impl; [|exact Hf]. intros v. apply remains_incl. apply incl_app; [apply incl_appl, incl_refl|]. apply incl_appr. intros e. apply Permutation_in. now symmetry.
Qed.
Lemma flat_insert_vector maxc o m elements others (w : world element) : 1 <= maxc -> (forall e, self_moved e = e) -> flat key_less m -> sorts key_less ska_sort elements ->
  is_vector 0 maxc o m others w ->
  ends (mem_flat_insert moved self_moved key_less ska_sort interrupted (bounded_vector moved 0 maxc) true elements o w)
    (fun o' _ w' => exists m', is_vector 0 maxc o' m' others w' /\ flat key_less m' /\ forall k, keeps m' k m elements)
    (fun o' w' => (is_vector 0 maxc o' m others w' /\ o' = o /\ (someone_throws w \/ capacity_of o < length m + length elements /\ maxc < grown o (length m + length elements))) \/
       (someone_throws w /\ exists q, is_vector 0 maxc o' q others w' /\ length q = length (m ++ elements) /\ Forall (left_of (m ++ elements)) q)).
Proof.
  intros H1 Hself Hm Hs Hv. pose proof (PropsVec.C33_append _ moved 0 maxc (map Supply elements) elements o m others w H1 Hv (supplies elements _)) as Ha.
  pose proof (evolves_append_sized moved _ less_script_evolution 0 maxc 1 (evolves_default _ less_script_evolution 0) (map Supply elements) o w) as He.
  unfold mem_flat_insert, bind, get. destruct (append moved _ _ o w) as [o1 [] w1|o1 w1|]; cbn [ends] in Ha; [| |contradiction].
  - destruct Ha as (Hv1 & _). cbn [bounded_vector c_size]. rewrite (vec_size moved maxc others o m w Hv : b_size o = length m).
    refine (FlatMemoryProofs2.ends_weaken _ _ _ _ _ (merge_sorted_vector maxc o1 m elements others w1 Hself Hm Hs Hv1) _ _); cbv beta; [auto|].
    intros o' w' (Ht & Hq). right. split; [apply He, Ht|exact Hq].
  - cbn [ends]. destruct Ha as (Hu & Ht). left. split; [assert (o1 = o) as -> by apply Hu; eapply untouched_vec; [exact Hv|exact Hu]|]. split; [apply Hu|]. now rewrite app_length in Ht.
Qed.
Lemma flat_from_vector maxc elements (w : world element) : (forall a b, key_equal a b = equivalent key_less a b) -> unused_names w -> length elements <= maxc -> sorts key_less ska_sort elements ->
  ends (mem_flat_from moved self_moved key_equal ska_sort interrupted maxc elements tt w)
    (fun _ o w' => exists m, is_vector 0 maxc o m (heap w) w' /\ flat key_less m /\ forall k, one_of key_less elements k (element_of (equivalent key_less) m k))
    (fun _ w' => same (heap w') (heap w) /\ someone_throws w).
Proof.
  intros He Hu Hl Hsorts.
  pose proof (from_range_ok key_less Hlt moved self_moved ska_sort key_equal elements He Hsorts) as (m' & Hfr & Hflat & Hone).
  pose proof (PropsVec.C38_from_range _ moved 0 maxc false (map Supply elements) elements w (Nat.le_0_l _) Hu (supplies elements _) Hl) as Hf.
  pose proof (VecPrograms.calm_from moved 0 maxc (Nat.le_0_l _) (map Supply elements) tt w) as Hs.
  unfold mem_flat_from. destruct (bv_from moved 0 maxc false _ tt w) as [x o w1|x w1|]; cbn [ends] in Hf; [| |contradiction].
  2: { cbn. destruct Hf as (Hf & Ht). auto. }
  destruct Hs as (Hs & _). destruct Hf as (Hv & _).
  assert (Hsort : ends (mem_unique_ska_sort moved self_moved key_equal ska_sort interrupted (bounded_vector moved 0 maxc) o w1)
    (fun o' _ w' => is_vector 0 maxc o' m' (heap w) w') (fun o' w' => someone_throws w1 /\ exists q, is_vector 0 maxc o' q (heap w) w')).
  { destruct Hsorts as (l' & Hss & Hp & Ho). unfold mem_unique_ska_sort, bind, get. cbn [bounded_vector c_size]. rewrite (vec_size moved maxc (heap w) o _ w1 Hv : b_size o = length elements).
    pose proof (rearrange_vector moved self_moved maxc (heap w) o [] elements w1 ska_sort interrupted l' Hinter Hss (Permutation_sym Hp) Hv) as H1. cbn [bounded_vector c_data length] in *.
    destruct (mem_rearrange _ _ _ _ _ o w1) as [o1 [] w2|o1 w2|]; cbn [ends] in H1; [| |contradiction].
    2: { destruct H1 as (-> & Ht & q & Hq & _). cbn. eauto. }
    destruct H1 as (-> & Hi1 & Hv1). cbn [app] in Hv1. rewrite (Permutation_length Hp).
    unfold from_range, unique_ska_sort in Hfr. rewrite Hss in Hfr. destruct (unique moved self_moved _ [l'] 0 0 (length l')) as [[h' n]|] eqn:Eu; [|discriminate].
    destruct (unique_ok moved self_moved (fun a b => key_equal (fst a) (fst b)) l' [l'] 0 0) as (h2 & Hr & Hsh & Hat & _).
    { apply array_self. } { intros l1 u v l2 ww -> Hw Huv. rewrite !He in *. apply (same_eq key_less Hlt); auto. }
    cbn [Nat.add] in Hr. rewrite Hr in Eu. injection Eu as -> <-. destruct (shape_one _ _ Hsh) as (l3 & -> & _). injection Hfr as <-. rewrite (array_firstn _ _ Hat) in *.
    pose proof (unique_vector moved self_moved maxc (heap w) (fun a b => key_equal (fst a) (fst b)) o l' w2 l3 _ Hv1 Hr) as H2. cbn [bounded_vector c_data] in *.
    destruct (mem_unique _ _ _ _ _ _ o w2) as [o2 n w3|o2 w3|]; cbn [ends] in H2; [| |contradiction].
    - destruct H2 as (-> & -> & Hi2 & Hv2 & _). pose proof (array_firstn _ _ Hat) as Hfr'. rewrite <- (firstn_skipn (length (dedup (fun a b : element => key_equal (fst a) (fst b)) l')) l3), Hfr' in Hv2.
      pose proof (vec_cut moved maxc (heap w) o _ _ w3 Hv2) as H3. unfold bounded_vector in *.
      destruct (erase_to_end _ _ o w3) as [o3 [] w4|o3 w4|]; cbn [ends] in *; [|contradiction..]. apply H3.
    - cbn [ends]. destruct H2 as (-> & Ht & q & Hq & _). split; [apply Hi1, Ht|eauto]. }
  destruct (mem_unique_ska_sort _ _ _ _ _ _ o w1) as [o2 [] w2|o2 w2|]; cbn [ends] in Hsort |- *; [| |contradiction].
  - exists m'. auto.
  - destruct Hsort as (Ht & q & Hq). pose proof (PropsVec.C38_destroy element 0 maxc o2 q (heap w) w2 Hq) as Hy.
    destruct (bv_destroy o2 w2) as [x3 [] w3|x3 w3|]; cbn [ends] in *; [|contradiction..]. split; [exact Hy|]. apply Hs, Ht.
Qed.
End Flat.
