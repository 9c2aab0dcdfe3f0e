(** * Linear and flat maps made from ranges whose size is not known: properties C144 and C146

    [is_vector 0 maximum o l others w] (SpecVec.v): the vector [o] has the elements [l], all of them alive, and the rest of the memory is [others].
    [Bad Lost] (Mem.v): storage was given back with living elements in it, which are never destroyed. *)

From Coq Require Import List Arith Bool Lia Permutation.
From Verif Require Import Mem MemLemmas SpecVec Vec DynArray SpecSort SpecUnique Unique UniqueProofs UniqueProofs2 UniqueProofs3 FlatMap SpecMap Keyed FlatMapProofs FlatMapProofs2 VecProofs VecProofs2 VecCost VecHistory
  FlatMemoryProofs FlatMemoryProofs2 LinearMap LinearMapProofs LinearMemory LinearMemoryProofs UniqueMemory UniqueMemoryProofs SpecFlatRange FlatRangeProofs MapUnsized.
From Verif Require VecPrograms PropsVec PropsUnique PropsUnsized PropsExactVector PropsRadix.
Import ListNotations.
Local Open Scope nat_scope.

(** The container: all elements, or an exception with all memory given back, or elements were lost because making one of them or its storage threw. *)
Lemma unsized_base {V} (moved : V -> V) maxc us (w : world V) : 1 <= maxc -> unused_names w -> 2 * length us <= maxc ->
  match bv_from moved 0 maxc false (Source (map Supply us) false) tt w with
  | Ret _ o w1 => is_vector 0 maxc o us (heap w) w1 /\ (someone_throws w1 -> someone_throws w)
  | Exc _ w1 => same (heap w1) (heap w) /\ someone_throws w
  | Bad f => f = Lost /\ someone_throws w
  end.
Proof.
  intros H1 Hu Hl. pose proof (PropsExactVector.C38_from_unsized_exactly V moved 0 maxc (map Supply us) us w H1 Hu (PropsUnsized.supplies_in us _) Hl) as H. cbv zeta in H.
  change (bv_default 0 tt w) with (Ret (V := V) tt (BVector storage_empty 0) w) in H. cbv iota in H.
  pose proof (PropsUnsized.append_less moved maxc (map Supply us) (BVector storage_empty 0) w H1) as Hi.
  destruct (append moved _ _ _ w) as [o' [] w'|o' w'|]; [| |contradiction].
  - destruct H as (-> & Hv). auto.
  - destruct H as (Ht & n & _ & _ & H). destruct (n =? 0); [destruct H as (w2 & -> & Hs); auto|]. rewrite H. auto.
Qed.

(** ** C144. The linear_map has one element for each key. When an exception leaves, all memory is given back. The third case is the defect of C38: a
    construction or an allocation threw and the elements before it are lost. It is what is missing. *)
Theorem C144_from_unsized_partial : forall K T (moved : K * T -> K * T) equal maximum elements w,
  equivalence equal -> 1 <= maximum -> unused_names w -> 2 * length elements <= maximum ->
  match mem_linear_from_unsized moved equal maximum elements tt w with
  | Ret _ o w' => exists m, is_vector 0 maximum o m (heap w) w' /\ distinct equal m /\ incl m elements /\
       forall e, In e elements -> exists e', In e' m /\ equal (fst e) (fst e') = true
  | Exc _ w' => same (heap w') (heap w) /\ someone_throws w
  | Bad f => f = Lost /\ someone_throws w /\ bv_from moved 0 maximum false (Source (map Supply elements) false) tt w = Bad Lost
  end.
Proof.
  intros K T moved equal maxc elements w Heq H1 Hu Hl. pose proof (unsized_base moved maxc elements w H1 Hu Hl) as Hf.
  unfold mem_linear_from_unsized. destruct (bv_from moved 0 maxc false _ tt w) as [x o w1|x w1|f]; [|exact Hf|destruct Hf as [-> Hf]; auto].
  destruct Hf as (Hv & Hs). rewrite (vec_size moved maxc (heap w) o _ w1 Hv : b_size o = length elements).
  destruct (remove_ok equal Heq (S (length elements)) [] elements [] (le_n _)) as (r & Hr & H2 & H3 & H4). { intros i j a b Hi. destruct i; discriminate. }
  cbn [app length Nat.add] in Hr. rewrite app_nil_r in Hr.
  pose proof (remove_vector moved equal maxc (heap w) o elements w1 0 r 0 Hv) as Hx. rewrite Nat.sub_0_r in Hx. specialize (Hx Hr (le_n _) (Nat.le_0_l _)).
  destruct (mem_remove_duplicates _ _ _ _ _ o w1) as [o2 [] w2|o2 w2|]; cbn [ends] in Hx |- *; [| |contradiction].
  - exists r. auto.
  - destruct Hx as (-> & Ht & q & Hq & _). pose proof (PropsVec.C38_destroy _ 0 maxc o q (heap w) w2 Hq) as Hy.
    destruct (bv_destroy o w2) as [x3 [] w3|x3 w3|]; cbn [ends] in *; [|contradiction..]. split; [exact Hy|]. apply Hs, Ht.
Qed.
Print Assumptions C144_from_unsized_partial.

(** ** C146, the same for flat maps *)
Theorem C146_from_unsized_partial : forall K T (moved self_moved : K * T -> K * T) key_less key_equal ska_sort interrupted maximum elements w,
  strict_weak_order key_less -> (forall a b, key_equal a b = equivalent key_less a b) ->
  (forall l, length (interrupted l) = length l /\ Forall (remains moved self_moved l) (interrupted l)) -> sorts key_less ska_sort elements ->
  1 <= maximum -> unused_names w -> 2 * length elements <= maximum ->
  match mem_flat_from_unsized moved self_moved key_equal ska_sort interrupted maximum elements tt w with
  | Ret _ o w' => exists m, is_vector 0 maximum o m (heap w) w' /\ flat key_less m /\
       forall k, match element_of (equivalent key_less) m k with
                 | Some e => In e elements /\ equivalent key_less k (fst e) = true
                 | None => forall e, In e elements -> equivalent key_less k (fst e) = false
                 end
  | Exc _ w' => same (heap w') (heap w) /\ someone_throws w
  | Bad f => f = Lost /\ someone_throws w /\ bv_from moved 0 maximum false (Source (map Supply elements) false) tt w = Bad Lost
  end.
Proof.
  intros K T moved self_moved key_less key_equal ska_sort interrupted maxc elements w Hlt He Hinter Hsorts H1 Hu Hl.
  pose proof (from_range_ok key_less Hlt moved self_moved ska_sort key_equal elements He Hsorts) as (m' & Hfr & Hflat & Hone).
  pose proof (unsized_base moved maxc elements w H1 Hu Hl) as Hf.
  unfold mem_flat_from_unsized. destruct (bv_from moved 0 maxc false _ tt w) as [x o w1|x w1|f]; [|exact Hf|destruct Hf as [-> Hf]; auto].
  destruct Hf as (Hv & Hs).
  assert (Hsort : ends (mem_unique_ska_sort moved self_moved key_equal ska_sort interrupted (bounded_vector moved 0 maxc) o w1)
    (fun o' _ w' => is_vector 0 maxc o' m' (heap w) w') (fun o' w' => someone_throws w1 /\ exists q, is_vector 0 maxc o' q (heap w) w')).
  { destruct Hsorts as (l' & Hss & Hp & Ho). unfold mem_unique_ska_sort, bind, get. cbn [bounded_vector c_size]. rewrite (vec_size moved maxc (heap w) o _ w1 Hv : b_size o = length elements).
    pose proof (rearrange_vector moved self_moved maxc (heap w) o [] elements w1 ska_sort interrupted l' Hinter Hss (Permutation_sym Hp) Hv) as H2. cbn [bounded_vector c_data length] in *.
    destruct (mem_rearrange _ _ _ _ _ o w1) as [o1 [] w2|o1 w2|]; cbn [ends] in H2; [| |contradiction].
    2: { destruct H2 as (-> & Ht & q & Hq & _). cbn. eauto. }
    destruct H2 as (-> & Hi1 & Hv1). cbn [app] in Hv1. rewrite (Permutation_length Hp).
    unfold from_range, unique_ska_sort in Hfr. rewrite Hss in Hfr. destruct (unique moved self_moved _ [l'] 0 0 (length l')) as [[h' n]|] eqn:Eu; [|discriminate].
    destruct (unique_ok moved self_moved (fun a b => key_equal (fst a) (fst b)) l' [l'] 0 0) as (h2 & Hr & Hsh & Hat & _).
    { apply array_self. } { intros l1 u v l2 ww -> Hw Huv. rewrite !He in *. apply (same_eq key_less Hlt); auto. }
    cbn [Nat.add] in Hr. rewrite Hr in Eu. injection Eu as -> <-. destruct (shape_one _ _ Hsh) as (l3 & -> & _). injection Hfr as <-. rewrite (array_firstn _ _ Hat) in *.
    pose proof (unique_vector moved self_moved maxc (heap w) (fun a b => key_equal (fst a) (fst b)) o l' w2 l3 _ Hv1 Hr) as H2. cbn [bounded_vector c_data] in *.
    destruct (mem_unique _ _ _ _ _ _ o w2) as [o2 n w3|o2 w3|]; cbn [ends] in H2; [| |contradiction].
    - destruct H2 as (-> & -> & Hi2 & Hv2 & _). pose proof (array_firstn _ _ Hat) as Hfr'. rewrite <- (firstn_skipn (length (dedup (fun a b : K * T => key_equal (fst a) (fst b)) l')) l3), Hfr' in Hv2.
      pose proof (vec_cut moved maxc (heap w) o _ _ w3 Hv2) as H3. unfold bounded_vector in *.
      destruct (erase_to_end _ _ o w3) as [o3 [] w4|o3 w4|]; cbn [ends] in *; [|contradiction..]. apply H3.
    - cbn [ends]. destruct H2 as (-> & Ht & q & Hq & _). split; [apply Hi1, Ht|eauto]. }
  destruct (mem_unique_ska_sort _ _ _ _ _ _ o w1) as [o2 [] w2|o2 w2|]; cbn [ends] in Hsort |- *; [| |contradiction].
  - exists m'. auto.
  - destruct Hsort as (Ht & q & Hq). pose proof (PropsVec.C38_destroy _ 0 maxc o2 q (heap w) w2 Hq) as Hy.
    destruct (bv_destroy o2 w2) as [x3 [] w3|x3 w3|]; cbn [ends] in *; [|contradiction..]. split; [exact Hy|]. apply Hs, Ht.
Qed.
Print Assumptions C146_from_unsized_partial.

(** Making the second element throws: the first is lost. *)
Theorem C144_from_unsized_refuted : exists elements (w : world (nat * nat)), unused_names w /\ 2 * length elements <= 20 /\
  mem_linear_from_unsized (fun e => e) Nat.eqb 20 elements tt w = Bad Lost.
Proof.
  exists [(1, 10); (2, 20)], (World (fun _ => None) 0 [false; false; true]). split; [intros b _; reflexivity|]. split; [cbn; lia|]. reflexivity.
Qed.
Print Assumptions C144_from_unsized_refuted.

(** Three entries, two for one key: nothing throws; no memory for the first; comparing two of them throws, after which all memory is given back. *)
Example C144_from_unsized_example :
  let w s := World (V := nat * nat) (fun _ => None) 0 s in
  let shown (r : out (nat * nat) unit bvector) := match r with
    | Ret _ o w' => Some (Some (b_size o), map (heap w') [0; 1; 2]) | Exc _ w' => Some (None, map (heap w') [0; 1; 2]) | Bad _ => None end in
  (forall s, unused_names (w s)) /\
  shown (mem_linear_from_unsized (fun e => e) Nat.eqb 20 [(1, 10); (2, 20); (1, 11)] tt (w [])) =
    Some (Some 2, [None; None; Some [Some (1, 10); Some (2, 20); None; None]]) /\
  shown (mem_linear_from_unsized (fun e => e) Nat.eqb 20 [(1, 10); (2, 20); (1, 11)] tt (w [true])) = Some (None, [None; None; None]) /\
  shown (mem_linear_from_unsized (fun e => e) Nat.eqb 20 [(1, 10); (2, 20); (1, 11)] tt (w (repeat false 6 ++ [true]))) = Some (None, [None; None; None]).
Proof. cbv zeta. split; [intros s b _; reflexivity|]. vm_compute. auto. Qed.
