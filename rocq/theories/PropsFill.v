(** * Which vectors can be filled one by one: more about property C40 *)

From Coq Require Import List Arith Bool Lia.
From Verif Require Import Mem SpecVec Vec FlatMemoryProofs2 VecFill.
Import ListNotations.
Local Open Scope nat_scope.

(** An empty vector without storage to which the elements of a range without a size are appended, that is, by one push_back after the other: there is
    room for as many as the type allows exactly when their number is a power of two. *)
Theorem C40_exactly : forall V (moved : V -> V) (v : V) maxc, 1 <= maxc ->
  (forall o vs others w, is_vector 0 maxc o [] others w -> capacity_of o = 0 -> ~ someone_throws w -> length vs <= maxc ->
     ends (append moved (bounded_vector moved 0 maxc) (Source (map Supply vs) false) o w)
       (fun o' _ w' => is_vector 0 maxc o' vs others w') (fun _ _ => False)) <->
  exists k, maxc = 2 ^ k.
Proof.
  intros V moved v maxc Hpos.
  assert (Ea : forall vs, append moved (bounded_vector moved 0 maxc) (Source (map Supply vs) false) = each_push_back moved (bounded_vector moved 0 maxc) (map Supply vs)).
  { intros vs. unfold append. cbn [c_reserve bounded_vector s_sized s_elements]. destruct (Nat.eqb_spec 0 maxc); [lia|reflexivity]. }
  split.
  - intros H. set (o := BVector (Storage None 0) 0). set (w := World (V := V) (fun _ => None) 0 []).
    assert (is_vector 0 maxc o [] (fun _ => None) w) as Hv. { split; [|intros b _; reflexivity]. repeat split; cbn; auto; lia. }
    specialize (H o (repeat v maxc) (fun _ => None) w Hv eq_refl (fun Hx => Hx)). rewrite repeat_length in H. specialize (H (le_n _)). rewrite Ea in H.
    destruct (each_push_back _ _ _ o w) as [o' [] w'|o' w'|] eqn:E; cbn [ends] in H; [|contradiction..].
    destruct (filled_power moved maxc Hpos (repeat v maxc) o [] (fun _ => None) w o' w' Hv (or_introl eq_refl) (fun Hx => Hx) E) as [H1 Hz].
    pose proof (fit maxc Hpos _ _ _ _ H1) as Hf. cbn [app] in Hf. rewrite repeat_length in Hf. assert (capacity_of o' = maxc) as Ec by lia. rewrite Ec in Hz.
    destruct Hz as [Hz|Hz]; [lia|exact Hz].
  - intros (k & Hk) o vs others w Hv Hc Hw Hl. rewrite Ea.
    destruct (fill_fits moved maxc Hpos k Hk vs o [] others w Hv (or_introl Hc) Hw Hl) as (o' & w' & -> & H). exact H.
Qed.
Print Assumptions C40_exactly.
(** And a push_back into a full vector is undefined exactly when twice the capacity is too much; otherwise, unless something throws, it succeeds. *)
Theorem C40_push_back_exactly : forall V (moved : V -> V) maxc v o vs others w, 1 <= maxc ->
  is_vector 0 maxc o vs others w -> ~ someone_throws w ->
  if (length vs =? capacity_of o) && (maxc <? 2 * length vs)
  then push_back moved (bounded_vector moved 0 maxc) (Supply v) o w = Bad Broken
  else exists o' w', push_back moved (bounded_vector moved 0 maxc) (Supply v) o w = Ret o' tt w' /\ is_vector 0 maxc o' (vs ++ [v]) others w'.
Proof.
  intros V moved maxc v o vs others w Hpos Hv Hw. pose proof (fit maxc Hpos _ _ _ _ Hv) as Hf.
  destruct (Nat.eqb_spec (length vs) (capacity_of o)) as [Hc|Hc], (Nat.ltb_spec maxc (2 * length vs)) as [Hm|Hm]; cbn [andb].
  1: exact (push_too_many moved maxc Hpos o vs v others w Hv Hc Hm).
  all: destruct (push_calm moved maxc Hpos o vs v others w Hv Hw) as (o' & w' & E & H & _); [lia|]; exists o', w'; split; [exact E|exact H].
Qed.
Print Assumptions C40_push_back_exactly.

Example C40_exactly_example :
  let fill maxc vs := append (fun n : nat => n) (bounded_vector (fun n => n) 0 maxc) (Source (map Supply vs) false) (BVector (Storage None 0) 0) (World (fun _ => None) 0 []) in
  match fill 4 [1; 2; 3; 4] with Ret o' _ _ => b_size o' = 4 /\ capacity_of o' = 4 | _ => False end /\
  match fill 3 [1; 2; 3] with Bad f => f = Broken | _ => False end.
Proof. vm_compute. repeat split. Qed.
