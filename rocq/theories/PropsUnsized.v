(** * Linear and flat maps into which a range without a size is inserted: properties C144 and C146 *)

From Coq Require Import List Arith Bool Lia Permutation.
From Verif Require Import Mem MemLemmas SpecVec Vec SpecSort SpecUnique Unique SpecMap Keyed VecCost VecHistory FlatMapProofs2 FlatMemoryProofs2 LinearMap LinearMapProofs LinearMemory LinearMemoryProofs UniqueMemory SpecFlatRange FlatRangeProofs.
From Verif Require PropsVec FlatMap.
Import ListNotations.
Local Open Scope nat_scope.

Lemma push_backs_less {V} (moved : V -> V) maxc mks : forall o (w : world V),
  match each_push_back moved (bounded_vector moved 0 maxc) mks o w with Ret _ _ w' | Exc _ w' => someone_throws w' -> someone_throws w | Bad _ => True end.
Proof.
  induction mks as [|mk mks IH]; intros o w; cbn [each_push_back]; [cbn; auto|]. unfold bind.
  pose proof (evolves_push_back moved _ less_script_evolution 0 maxc 1 (evolves_default _ less_script_evolution 0) mk o w) as He. unfold push_back in He.
  destruct (lazy_push_back moved (bounded_vector moved 0 maxc) mk o w) as [o1 [] w1|o1 w1|]; [|exact (He true)|exact I].
  specialize (IH o1 w1). destruct (each_push_back moved (bounded_vector moved 0 maxc) mks o1 w1) as [o2 [] w2|o2 w2|]; auto; intros Ht; exact (He true (IH Ht)).
Qed.
Lemma append_less {V} (moved : V -> V) maxc mks o (w : world V) : 1 <= maxc ->
  match append moved (bounded_vector moved 0 maxc) (Source mks false) o w with Ret _ _ w' | Exc _ w' => someone_throws w' -> someone_throws w | Bad _ => True end.
Proof. intros H. unfold append. cbn [bounded_vector c_reserve s_sized s_elements]. destruct maxc; [lia|]. cbn [Nat.eqb]. apply push_backs_less. Qed.
Lemma supplies_in {V} (us : list V) (m : memory (V := V)) : Forall2 (makes m) (map Supply us) us.
Proof. induction us; constructor; [reflexivity|assumption]. Qed.

(** ** C144 for a range whose size is not known: as C144_insert_range_partial, but when making an element throws, those before it have been added.
    The limit is that of appending such ranges (C33). *)
Theorem C144_insert_unsized_partial : forall K T (moved : K * T -> K * T) equal maximum o m elements others w,
  equivalence equal -> 1 <= maximum -> is_vector 0 maximum o m others w -> distinct equal m -> 2 * (length m + length elements) <= maximum ->
  ends (mem_linear_insert moved equal (bounded_vector moved 0 maximum) false elements o w)
    (fun o' _ w' => exists new, is_vector 0 maximum o' (m ++ new) others w' /\ distinct equal (m ++ new) /\ incl new elements /\
       forall e, In e elements -> exists e', In e' (m ++ new) /\ equal (fst e) (fst e') = true)
    (fun o' w' => someone_throws w /\ exists n all, is_vector 0 maximum o' (m ++ all) others w' /\ Permutation all (firstn n elements)).
Proof.
  intros K T moved equal maximum o m elements others w Heq H1 Hv Hd Hl.
  pose proof (PropsVec.C33_append_unsized _ moved 0 maximum (map Supply elements) elements o m others w H1 Hv (supplies_in elements _) Hl) as Ha.
  pose proof (append_less moved maximum (map Supply elements) o w H1) as He.
  unfold mem_linear_insert, bind, get. destruct (append moved _ _ o w) as [o1 [] w1|o1 w1|]; cbn [ends] in Ha; [| |contradiction].
  - rename Ha into Hv1. cbn [bounded_vector c_size]. rewrite (vec_size moved maximum others o m w Hv : b_size o = length m), (vec_size moved maximum others o1 _ w1 Hv1 : b_size o1 = length (m ++ elements)).
    destruct (remove_ok equal Heq (S (length elements)) m elements [] (le_n _) Hd) as (r & Hr & H2 & H3 & H4). rewrite app_nil_r in Hr.
    replace (length m + length elements) with (length (m ++ elements)) in Hr by apply app_length.
    assert (length (m ++ elements) - length m = length elements) as El by (rewrite app_length; lia). rewrite <- El in Hr.
    refine (FlatMemoryProofs2.ends_weaken _ _ _ _ _ (remove_vector moved equal maximum others o1 (m ++ elements) w1 (length m) _ (length m) Hv1 Hr (le_n _) _) _ _); cbv beta.
    + rewrite app_length. lia.
    + intros o' _ w' Hv'. exists r. auto.
    + intros o' w' (-> & Ht & q & Hq & Hp & Hf). split; [apply He, Ht|]. rewrite firstn_app, Nat.sub_diag, firstn_all in Hf. cbn [firstn] in Hf. rewrite app_nil_r in Hf.
      rewrite <- (firstn_skipn (length m) q) in Hq, Hp. rewrite Hf in Hq, Hp. exists (length elements), (skipn (length m) q). split; [exact Hq|]. rewrite firstn_all. now apply Permutation_app_inv_l in Hp.
  - cbn [ends]. destruct Ha as (Ht & n & _ & Ha). split; [exact Ht|]. exists n, (firstn n elements). auto.
Qed.
Print Assumptions C144_insert_unsized_partial.

(** ** C146 for a range whose size is not known *)
Theorem C146_insert_unsized_partial : forall K T (moved self_moved : K * T -> K * T) key_less ska_sort interrupted maximum o m elements others w,
  strict_weak_order key_less -> (forall l, length (interrupted l) = length l /\ Forall (remains moved self_moved l) (interrupted l)) ->
  (forall e, self_moved e = e) -> sorts key_less ska_sort elements -> 1 <= maximum -> is_vector 0 maximum o m others w -> flat key_less m ->
  2 * (length m + length elements) <= maximum ->
  ends (mem_flat_insert moved self_moved key_less ska_sort interrupted (bounded_vector moved 0 maximum) false elements o w)
    (fun o' _ w' => exists m', is_vector 0 maximum o' m' others w' /\ flat key_less m' /\
       forall k, match element_of (equivalent key_less) m k with
                 | Some e => element_of (equivalent key_less) m' k = Some e
                 | None => match element_of (equivalent key_less) m' k with
                           | Some e => In e elements /\ equivalent key_less k (fst e) = true
                           | None => forall e, In e elements -> equivalent key_less k (fst e) = false
                           end
                 end)
    (fun o' w' => someone_throws w /\
       ((exists n, n < length elements /\ is_vector 0 maximum o' (m ++ firstn n elements) others w') \/
        (exists all, is_vector 0 maximum o' all others w' /\ length all = length (m ++ elements) /\ Forall (remains moved self_moved (m ++ elements)) all))).
Proof.
  intros K T moved self_moved key_less ska_sort interrupted maximum o m elements others w Hlt Hi Hself Hs H1 Hv Hm Hl.
  pose proof (PropsVec.C33_append_unsized _ moved 0 maximum (map Supply elements) elements o m others w H1 Hv (supplies_in elements _) Hl) as Ha.
  pose proof (append_less moved maximum (map Supply elements) o w H1) as He.
  unfold mem_flat_insert, bind, get. destruct (append moved _ _ o w) as [o1 [] w1|o1 w1|]; cbn [ends] in Ha; [| |contradiction].
  - cbn [bounded_vector c_size]. rewrite (vec_size moved maximum others o m w Hv : b_size o = length m).
    refine (FlatMemoryProofs2.ends_weaken _ _ _ _ _ (merge_sorted_vector moved self_moved key_less ska_sort interrupted Hlt Hi maximum o1 m elements others w1 Hself Hm Hs Ha) _ _); cbv beta; [auto|].
    intros o' w' (Ht & Hq). split; [apply He, Ht|right; exact Hq].
  - cbn [ends]. destruct Ha as (Ht & Hq). split; [exact Ht|]. now left.
Qed.
Print Assumptions C146_insert_unsized_partial.

(** A map with the key 1 into which entries for 1 and 2 are inserted, by each kind of map: nothing throws; making the second entry throws (flat map: it is left with
    both entries for 1). *)
Example C144_unsized_example :
  let zeros (e : nat * nat) := (0, 0) in
  let o := BVector (Storage (Some 0) 2) 1 in
  let w s := World (fun b => if b =? 0 then Some [Some (1, 10); None] else None) 1 s in
  let shown (r : out (nat * nat) bvector unit) := match r with
    | Ret o' _ w' => Some (true, b_size o', heap w' 0, heap w' 1) | Exc o' w' => Some (false, b_size o', heap w' 0, heap w' 1) | Bad _ => None end in
  (forall s, is_vector 0 20 o [(1, 10)] (fun _ => None) (w s)) /\ distinct Nat.eqb [(1, 10)] /\ flat Nat.ltb [(1, 10)] /\
  shown (mem_linear_insert zeros Nat.eqb (bounded_vector zeros 0 20) false [(1, 11); (2, 20)] o (w [])) =
    Some (true, 2, None, Some [Some (1, 10); Some (2, 20); None; None]) /\
  shown (mem_linear_insert zeros Nat.eqb (bounded_vector zeros 0 20) false [(1, 11); (2, 20)] o (w [false; true])) =
    Some (false, 2, Some [Some (1, 10); Some (1, 11)], None) /\
  shown (mem_flat_insert zeros (fun e => e) Nat.ltb (fun l => Some l) (fun l => l) (bounded_vector zeros 0 20) false [(1, 11); (2, 20)] o (w [])) =
    Some (true, 2, None, Some [Some (1, 10); Some (2, 20); None; None]).
Proof.
  cbv zeta. split; [|split; [|split; [|split; [vm_compute; reflexivity|split; vm_compute; reflexivity]]]].
  - intros s. split; [split; [reflexivity|]|].
    + cbn. split; [reflexivity|]. split; [exists 1; repeat split; cbn; lia|]. intros b Hb. now rewrite (proj2 (Nat.eqb_neq b 0) Hb).
    + intros b Hb. cbn in *. rewrite (proj2 (Nat.eqb_neq b 0)); [reflexivity|lia].
  - intros [|[|]] [|[|]] a b Ha Hb _; try discriminate; reflexivity.
  - intros [|i] [|[|j]] a b Hij Ha Hb; try discriminate; lia.
Qed.
