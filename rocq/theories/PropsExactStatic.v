(** * C43, exactly: what the constructor of a static_vector from an expiring, smaller static_vector does *)

From Coq Require Import List Arith Bool Lia.
From Verif Require Import Mem Vec SpecVec MemLemmas VecProofs.
From Verif Require DynProofs ConcatProofs PropsVec.
Import ListNotations.

(** For every source whose elements are relocated, both vectors are empty afterwards. Every element is alive in the storage of the new vector,
    in order and from its first place on, but is not one of its elements; so the destructor of the new vector ends with living elements in its
    storage whenever the source had any. Nothing else changes and nothing throws. *)
Theorem C43_exactly_what_happens : forall V (moved : V -> V) small large o vs others w,
  small <= large -> is_static_vector small o vs others w ->
  ends (sv_from_expiring moved large o w)
    (fun o' t w' => v_size o' = 0 /\ v_size t = 0 /\
       heap w (v_place t) = None /\ heap w' (v_place t) = Some (map Some vs ++ repeat None (large - length vs)) /\
       v_place o' = v_place o /\ heap w' (v_place o) = Some (repeat None small) /\
       (forall b, b <> v_place t -> b <> v_place o -> heap w' b = heap w b) /\
       (vs <> [] -> sv_destroy large t w' = Bad Lost))
    (fun _ _ => False).
Proof.
  intros V moved small large o vs others w Hle ((Hs & Hg & (k & Hb & Hk) & Hm) & Hu). apply DynProofs.wp_ends.
  unfold sv_from_expiring. apply wp_bind. eapply wp_new_block; [apply at_start; exact Hu|]. intros w1 b Hn H1.
  assert (v_place o <> b) as Hne by congruence.
  apply wp_bind, wp_get. apply wp_bind. unfold wp, uninitialized_copy. rewrite (ConcatProofs.copy_relocate moved 0 1 Nat.lt_0_1).
  refine (wp_uninitialized_relocate moved (calm w) (v_place o) 0 b (0 + 0) vs [] (repeat None k) [] (repeat None (large - length vs)) _ o w1 _ _ (v_size o) H1 Hne _ eq_refl Hs _ eq_refl _).
  - rewrite upd_other by exact Hne. exact Hb.
  - rewrite upd_same, Hs. cbn [app]. rewrite <- repeat_plus. do 2 f_equal. lia.
  - cbn [app]. intros w2 H2. destruct (at_here _ _ _ H2) as [He _].
    cbn [v_size v_place bind put get ret require Nat.leb].
    assert (heap w2 b = Some (map Some vs ++ repeat None (large - length vs))) as Ht by now rewrite <- He, upd_same.
    repeat (split; [solve [reflexivity|assumption]|]). split; [|split].
    + rewrite <- He, upd_other, upd_same by exact Hne. rewrite <- repeat_plus. do 2 f_equal. lia.
    + intros c Hc Hc'. now rewrite <- He, !upd_other by assumption.
    + intros Hvs. unfold sv_destroy, bind, get, deallocate. cbn. rewrite Ht. rewrite app_length, map_length, repeat_length.
      replace (length vs + (large - length vs) =? large) with true by (symmetry; apply Nat.eqb_eq; lia).
      destruct vs; [congruence|reflexivity].
Qed.
Print Assumptions C43_exactly_what_happens.
Example C43_exactly_case : is_static_vector 2 (SVector 0 2) [5; 6] (fun _ => None)
  (World (fun b => if b =? 0 then Some [Some 5; Some 6] else None) 1 []).
Proof.
  split; [repeat split|].
  - exists 0. auto.
  - intros b H. cbn in *. destruct b; [lia|reflexivity].
  - intros b H. cbn in *. destruct (Nat.eqb_spec b 0); [lia|auto].
Qed.
