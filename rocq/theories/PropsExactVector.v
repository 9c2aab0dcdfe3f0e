(** * C38, exactly: what the constructor of a vector from a range whose size is not known loses *)

From Coq Require Import List Arith Bool Lia.
From Verif Require Import Mem Vec SpecVec.
From Verif Require PropsVec.
Import ListNotations.

(** The constructor does what default construction followed by appending the range does. When that throws before there is an element, all memory
    is given back and the exception is passed on. When there are elements, none of them is ever destroyed: the storage is given back with
    living elements in it. *)
Theorem C38_from_unsized_exactly : forall V (moved : V -> V) minc maxc mks us w,
  minc < maxc -> unused_names w -> Forall2 (makes (heap w)) mks us -> 2 * length us <= maxc ->
  let constructed := bv_from moved minc maxc false (Source mks false) tt w in
  match bv_default minc tt w with
  | Ret _ o w1 =>
      match append moved (bounded_vector moved minc maxc) (Source mks false) o w1 with
      | Ret o' _ w' => constructed = Ret tt o' w' /\ is_vector minc maxc o' us (heap w) w'
      | Exc o' w' => someone_throws w1 /\ exists n, n < length us /\ is_vector minc maxc o' (firstn n us) (heap w) w' /\
                     if n =? 0 then exists w2, constructed = Exc tt w2 /\ same (heap w2) (heap w) else constructed = Bad Lost
      | Bad _ => False
      end
  | Exc _ w1 => constructed = Exc tt w1 /\ same (heap w1) (heap w) /\ someone_throws w
  | Bad _ => False
  end.
Proof.
  intros V moved minc maxc mks us w Hlt Hu Hmk Hl. cbv zeta. unfold bv_from. cbn [s_sized]. unfold constructor.
  change (bind (bv_initial_storage minc) (fun st => ret (BVector st 0)) tt w) with (bv_default (V := V) minc tt w).
  pose proof (PropsVec.C38_default V minc maxc w (Nat.lt_le_incl _ _ Hlt) Hu) as Hd. unfold ends in Hd.
  destruct (bv_default minc tt w) as [[] o w1|[] w1|]; [|tauto|contradiction]. destruct Hd as [Hv _].
  pose proof (PropsVec.C33_append_unsized V moved minc maxc mks us o [] (heap w) w1 Hlt Hv Hmk Hl) as Ha. cbn [app] in Ha.
  assert (Hsame : assign_to_empty moved (bounded_vector moved minc maxc) false (Source mks false) o w1 = append moved (bounded_vector moved minc maxc) (Source mks false) o w1).
  { unfold assign_to_empty, append. cbn [bounded_vector c_reserve c_size s_sized]. replace (minc =? maxc) with false by (symmetry; apply Nat.eqb_neq; lia).
    unfold bind, get, require. destruct Hv as [[Hs _] _]. cbn in Hs. rewrite Hs. reflexivity. }
  rewrite Hsame. unfold ends in Ha. destruct (append moved _ _ o w1) as [o' [] w'|o' w'|]; [auto| |contradiction].
  destruct Ha as (Ht & n & Hn & Hv'). split; [exact Ht|]. exists n. split; [exact Hn|]. split; [exact Hv'|].
  destruct Hv' as [[Hs' Hm'] Hu']. unfold deallocate_storage, deallocate.
  assert (Hf : length (firstn n us) = n) by (rewrite firstn_length; lia).
  destruct (u_pointer (b_storage o')) as [b|].
  - destruct Hm' as (Hb & (k & Hc & Hz & _) & Ho). rewrite Hc, app_length, map_length, repeat_length, Hz, Nat.eqb_refl. cbn [negb].
    destruct n as [|n]; cbn [firstn map app Nat.eqb].
    + match goal with |- context [forallb ?f (repeat None k)] => assert (forallb f (repeat None k) = true) as -> by (clear; induction k; cbn; auto) end.
      eexists. split; [reflexivity|]. intros c. cbn. destruct (Nat.eqb_spec c b) as [->|Hne]; [now rewrite Hb|now apply Ho].
    + destruct us as [|u us]; [cbn in Hn; lia|]. reflexivity.
  - destruct Hm' as (He & _ & _ & Hsm). rewrite He in Hf. cbn in Hf. subst n. cbn. eexists. split; [reflexivity|exact Hsm].
Qed.
Print Assumptions C38_from_unsized_exactly.
Example C38_exactly_case :
  let w s := World (V := nat) (fun _ => None) 0 s in
  let constructed s := bv_from (fun n => n) 0 20 false (Source [Supply 1; Supply 2] false) tt (w s) in
  unused_names (w []) /\ Forall2 (makes (heap (w []))) [Supply 1; Supply 2] [1; 2] /\
  (exists w2, constructed [true] = Exc tt w2) /\ constructed [false; false; true] = Bad Lost.
Proof. cbv zeta. split; [intros b _; reflexivity|]. split; [repeat constructor|]. split; [eexists|]; reflexivity. Qed.
