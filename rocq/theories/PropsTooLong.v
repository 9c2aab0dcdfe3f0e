(** * Exactly what static_vector does when elements do not fit (C36, C39, C120) *)

From Coq Require Import List Arith Bool Lia.
From Verif Require Import Mem Vec SpecVec MemLemmas VecLemmas VecInst VecProofs VecProofs2 VecProofs3 VecLemmas3 PropsVec.
From Verif Require SboCalm StaticPrograms StdVec.
Import ListNotations.
Local Open Scope nat_scope.

Section Static.
Context {V : Type} (moved : V -> V).
Lemma copy_loop_app {X} p from a : forall d b (x : X) (w : world V), copy_loop moved p from d (a ++ b) x w = bind (copy_loop moved p from d a) (fun _ => copy_loop moved p from (d + length a) b) x w.
Proof.
  induction a as [|mk a IH]; intros d b x w; cbn [app copy_loop length].
  - unfold bind, ret. now rewrite Nat.add_0_r.
  - unfold bind at 1 2 3. destruct (rethrow_after _ _ x w) as [x1 [] w1|x1 w1|f]; [|reflexivity|reflexivity]. rewrite IH. unfold bind. now rewrite Nat.add_succ_r.
Qed.
Lemma checked_loop_app p from a : forall d b count (x : svector) (w : world V), length a <= count ->
  checked_copy_loop moved p from d (a ++ b) count x w = bind (copy_loop moved p from d a) (fun _ => checked_copy_loop moved p from (d + length a) b (count - length a)) x w.
Proof.
  induction a as [|mk a IH]; intros d b count x w Hc; cbn [app copy_loop checked_copy_loop length].
  - unfold bind, ret. now rewrite Nat.add_0_r, Nat.sub_0_r.
  - cbn in Hc. destruct count as [|count]; [lia|]. cbn [checked_copy_loop]. unfold bind at 1 2 3. destruct (rethrow_after _ _ x w) as [x1 [] w1|x1 w1|f]; [|reflexivity|reflexivity].
    rewrite IH by lia. unfold bind. now rewrite Nat.add_succ_r.
Qed.
(** The elements that fit are constructed, unless something throws. *)
Lemma copy_fits capacity mks us o vs others (w : world V) : is_static_vector capacity o vs others w -> Forall2 (makes (heap w)) mks us -> length vs + length us = capacity ->
  match copy_loop moved (Some (v_place o)) (length vs) 0 mks o w with
  | Ret o' _ w' => o' = o /\ exists cs, heap w' (v_place o) = Some cs /\ length cs = capacity
  | Exc o' w' => untouched o o' w w' /\ someone_throws w
  | Bad _ => False
  end.
Proof.
  intros ((Hs & Hg & (k & Hb & Hk) & Hm) & Hu) Hmk Hc. apply makes_all in Hmk. pose proof (Forall2_len _ _ _ Hmk) as Hlen.
  assert (T : wp (Mem.uninitialized_copy moved (Some (v_place o)) (length vs) mks) o w (fun o' _ w' => o' = o /\ exists cs, heap w' (v_place o) = Some cs /\ length cs = capacity) (fun o' w' => untouched o o' w w' /\ someone_throws w)).
  { eapply wp_uninitialized_copy with (l1 := map Some vs) (l2 := []); [exact (at_start w Hu)| | |exact Hmk| |].
    - rewrite Hb, app_nil_r. repeat f_equal. lia.
    - now rewrite map_length.
    - intros w' H'. split; [reflexivity|]. destruct (at_here _ _ _ H') as [He _]. eexists. rewrite <- He, upd_same. split; [reflexivity|]. rewrite app_nil_r, app_length, !map_length. exact Hc.
    - intros w' Hq H'. split; [eapply untouched_intro; eauto|now apply not_calm]. }
  unfold wp, Mem.uninitialized_copy in T. exact T.
Qed.
Lemma past_the_end {X} b capacity i mk (w : world V) cs (x : X) h : heap w b = Some cs -> length cs = capacity -> capacity <= i -> rethrow_after (construct_at moved (Some b) i mk) h x w = Bad Outside.
Proof.
  intros Hb Hl Hi. unfold rethrow_after, construct_at, bind, require_raw, find_cell. rewrite Hb, (proj2 (nth_error_None cs i)) by lia. reflexivity.
Qed.
Lemma split_at {A} n (l : list A) : n < length l -> exists a x b, l = a ++ x :: b /\ length a = n.
Proof.
  intros H. destruct (skipn n l) as [|x b] eqn:E; [apply (f_equal (@length A)) in E; rewrite skipn_length in E; cbn in E; lia|].
  exists (firstn n l), x, b. split; [rewrite <- E; symmetry; apply firstn_skipn|]. rewrite firstn_length. lia.
Qed.
Lemma Forall2_take {A B} (R : A -> B -> Prop) a : forall b us, Forall2 R (a ++ b) us -> Forall2 R a (firstn (length a) us).
Proof. induction a as [|x a IH]; intros b us H; [constructor|]. inversion H; subst. cbn. constructor; eauto. Qed.
End Static.

(** ** C36. Elements that do not fit, although they would fit an empty vector, are written behind the end of the array unless one of those that fit throws; *)
Theorem C36_append_exactly : forall V (moved : V -> V) capacity mks us o vs others w,
  is_static_vector capacity o vs others w -> Forall2 (makes (heap w)) mks us -> length us <= capacity < length vs + length us ->
  match append moved (static_vector capacity) (Source mks true) o w with
  | Bad f => f = Outside
  | Ret _ _ _ => False
  | Exc o' w' => untouched o o' w w' /\ someone_throws w
  end.
Proof.
  intros V moved capacity mks us o vs others w Hv Hm [H1 H2]. pose proof (Forall2_len _ _ _ Hm) as Hlen.
  pose proof Hv as ((Hs & _ & (k & _ & Hk) & _) & _). destruct (split_at k mks ltac:(lia)) as (a & mk & b & -> & Ha).
  pose proof (copy_fits moved capacity a (firstn (length a) us) o vs others w Hv (Forall2_take _ _ _ _ Hm) ltac:(rewrite firstn_length; lia)) as C.
  unfold append, checked_uninitialized_copy, uninitialized_copy. cbn [static_vector c_reserve c_capacity c_data c_size s_sized s_elements]. unfold get, ret, sv_data. unfold bind at 1 2 3 4.
  rewrite (proj2 (Nat.ltb_ge capacity _)) by lia. rewrite copy_loop_app. unfold bind at 1. rewrite Hs.
  destruct (copy_loop moved (Some (v_place o)) (length vs) 0 a o w) as [o1 [] w1|o1 w1|f]; [|exact C|contradiction].
  destruct C as (-> & cs & Hb & Hl). cbn [copy_loop]. unfold bind. rewrite (past_the_end moved _ capacity _ _ w1 cs) by (try exact Hb; lia). reflexivity.
Qed.
Print Assumptions C36_append_exactly.
(** the same for a source whose size is not known in advance, however long it is; *)
Theorem C36_append_unsized_exactly : forall V (moved : V -> V) capacity mks us o vs others w,
  is_static_vector capacity o vs others w -> Forall2 (makes (heap w)) mks us -> vs <> [] -> capacity < length vs + length us ->
  match append moved (static_vector capacity) (Source mks false) o w with
  | Bad f => f = Outside
  | Ret _ _ _ => False
  | Exc o' w' => untouched o o' w w' /\ someone_throws w
  end.
Proof.
  intros V moved capacity mks us o vs others w Hv Hm Hne H2. pose proof (Forall2_len _ _ _ Hm) as Hlen.
  pose proof Hv as ((Hs & _ & (k & _ & Hk) & _) & _). assert (0 < length vs) by (destruct vs; [congruence|cbn; lia]).
  destruct (split_at k mks ltac:(lia)) as (a & mk & b & -> & Ha).
  pose proof (copy_fits moved capacity a (firstn (length a) us) o vs others w Hv (Forall2_take _ _ _ _ Hm) ltac:(rewrite firstn_length; lia)) as C.
  unfold append, checked_uninitialized_copy. cbn [static_vector c_reserve c_capacity c_data c_size s_sized s_elements]. unfold get, ret, sv_data. unfold bind at 1 2 3.
  rewrite checked_loop_app by lia. unfold bind at 1. rewrite Hs.
  destruct (copy_loop moved (Some (v_place o)) (length vs) 0 a o w) as [o1 [] w1|o1 w1|f]; [|exact C|contradiction].
  destruct C as (-> & cs & Hb & Hl). destruct (capacity - length a) as [|n] eqn:E; [lia|]. cbn [checked_copy_loop]. unfold bind.
  rewrite (past_the_end moved _ capacity _ _ w1 cs) by (try exact Hb; lia). reflexivity.
Qed.
Print Assumptions C36_append_unsized_exactly.
(** resize to more than the capacity does the same when it adds at most capacity elements, and otherwise throws and changes nothing. *)
Theorem C36_resize_exactly : forall V (moved : V -> V) capacity mk v new_size o vs others w,
  is_static_vector capacity o vs others w -> makes (heap w) mk v -> capacity < new_size ->
  match resize moved (static_vector capacity) new_size mk o w with
  | Bad f => f = Outside /\ new_size - length vs <= capacity
  | Ret _ _ _ => False
  | Exc o' w' => untouched o o' w w' /\ (someone_throws w \/ capacity < new_size - length vs)
  end.
Proof.
  intros V moved capacity mk v n o vs others w Hv Hm Hn. pose proof Hv as ((Hs & _ & (k & _ & Hk) & _) & Hu).
  assert (Hr : resize moved (static_vector capacity) n mk o w = append moved (static_vector capacity) (Source (repeat mk (n - length vs)) true) o w).
  { unfold resize, bind, get. cbn [static_vector c_size]. rewrite Hs, (proj2 (Nat.leb_gt n (length vs))) by lia. reflexivity. }
  rewrite Hr. destruct (le_lt_dec (n - length vs) capacity) as [Hc|Hc].
  - assert (F : Forall2 (makes (heap w)) (repeat mk (n - length vs)) (repeat v (n - length vs))) by (clear Hr Hc; induction (n - length vs); constructor; auto).
    pose proof (C36_append_exactly V moved capacity _ _ o vs others w Hv F ltac:(rewrite repeat_length; lia)) as A.
    destruct append; [exact A|destruct A; auto|auto].
  - rewrite (append_too_long_svec moved capacity _ o vs others w Hv) by (now rewrite repeat_length).
    split; [split; [reflexivity|split; [intros b; reflexivity|exact Hu]]|auto].
Qed.
Print Assumptions C36_resize_exactly.
(** Five places, three used, and three more elements: the third is written behind the end; if the second throws, the first is destroyed again and nothing has changed. *)
Example C36_exactly_example :
  let v := SVector 0 3 in
  is_static_vector 5 v [1; 2; 3] nothing (alone (some123 ++ [None; None]) []) /\
  append forget (static_vector 5) (Source [Supply 4; Supply 5; Supply 6] true) v (alone (some123 ++ [None; None]) []) = Bad Outside /\
  append forget (static_vector 5) (Source (repeat (Supply 4) 100) false) v (alone (some123 ++ [None; None]) []) = Bad Outside /\
  resize forget (static_vector 5) 8 (Supply 9) v (alone (some123 ++ [None; None]) []) = Bad Outside /\
  (exists w, resize forget (static_vector 5) 9 (Supply 9) v (alone (some123 ++ [None; None]) []) = Exc v w) /\
  (exists w, append forget (static_vector 5) (Source [Supply 4; Supply 5; Supply 6] true) v (alone (some123 ++ [None; None]) [false; true]) = Exc v w /\
     heap w 0 = Some (some123 ++ [None; None])).
Proof.
  cbv zeta. split; [|repeat split; try reflexivity; eexists; try split; reflexivity].
  split; [|intros b Hb; cbn in *; destruct b; [lia|reflexivity]]. split; [reflexivity|]. split; [reflexivity|].
  split; [|intros b Hb; now destruct b]. exists 2. cbn. auto.
Qed.

Section Assign.
Context {V : Type} (moved : V -> V).
Lemma truncate_first {O} p n : forall from mks d, copy_truncate (O := O) moved p from n (firstn n mks) d = copy_truncate moved p from n mks d.
Proof. induction n as [|n IH]; intros from [|mk mks] d; cbn; auto. now rewrite IH. Qed.
Lemma truncate_count {O} p n : forall from mks d (o : O) (w : world V) o' k w', copy_truncate moved p from n mks d o w = Ret o' k w' -> k = d + Nat.min n (length mks).
Proof.
  induction n as [|n IH]; intros from [|mk mks] d o w o' k w' H; cbn in H; try (injection H as <- <- <-; cbn; lia).
  unfold bind in H. destruct (assign_at _ _ _ _ o w) as [o1 [] w1| |]; try discriminate. apply IH in H. cbn. lia.
Qed.
Lemma append_nothing capacity (o o' : svector) (w w' : world V) : append moved (static_vector capacity) (Source [] true) o w = Ret o' tt w' -> o' = o /\ w' = w.
Proof.
  unfold append, checked_uninitialized_copy, uninitialized_copy. cbn. unfold bind, get, ret, sv_set_size, require. cbn.
  unfold bind, ret. cbn. rewrite Nat.add_0_r. destruct (v_size o <=? capacity); cbn; [|discriminate].
  unfold ret, put. intros [= <- <-]. now destruct o.
Qed.
(** assign of a long range is assign of as many elements as there are and append of the others. *)
Lemma assign_split capacity fits mks (o : svector) (w : world V) : v_size o <= length mks ->
  match assign moved (static_vector capacity) false fits (Source (firstn (v_size o) mks) true) o w with
  | Ret o1 _ w1 => assign moved (static_vector capacity) false fits (Source mks true) o w = append moved (static_vector capacity) (Source (skipn (v_size o) mks) true) o1 w1
  | Exc o1 w1 => assign moved (static_vector capacity) false fits (Source mks true) o w = Exc o1 w1 \/ exists o2 w2, append moved (static_vector capacity) (Source [] true) o2 w2 = Exc o1 w1
  | Bad _ => True
  end.
Proof.
  intros Hl. unfold assign. cbn [s_elements s_sized static_vector c_data c_size]. unfold bind, get. rewrite truncate_first.
  destruct (copy_truncate moved (sv_data o) 0 (v_size o) mks 0 o w) as [o1 n w1|o1 w1|f] eqn:E; auto.
  apply truncate_count in E. assert (n = v_size o) as -> by lia.
  destruct (erase_to_end (static_vector capacity) (v_size o) o1 w1) as [o2 [] w2|o2 w2|f]; auto.
  rewrite skipn_all2 by (rewrite firstn_length; lia).
  destruct (append moved (static_vector capacity) (Source [] true) o2 w2) as [o3 [] w3|o3 w3|f] eqn:E2; auto.
  - apply append_nothing in E2 as [-> ->]. reflexivity.
  - eauto.
Qed.
Lemma nothing_thrown capacity (o o' : svector) (w w' : world V) : append moved (static_vector capacity) (Source [] true) o w <> Exc o' w'.
Proof.
  unfold append, checked_uninitialized_copy, uninitialized_copy. cbn. unfold bind, get, ret, sv_set_size, require. cbn.
  unfold bind, ret. cbn. destruct (v_size o + 0 <=? capacity); cbn; discriminate.
Qed.
End Assign.

(** ** C39. assign of more elements than the capacity assigns to the elements that exist and then appends the others: they are written behind the end of the
    array if they would fit an empty vector, and otherwise an exception leaves the first new elements. *)
Theorem C39_assign_static_exactly : forall V (moved : V -> V) capacity fits mks us o vs others w,
  is_static_vector capacity o vs others w -> Forall2 (makes others) mks us -> capacity < length us ->
  match assign moved (static_vector capacity) false fits (Source mks true) o w with
  | Bad f => f = Outside /\ length us - length vs <= capacity
  | Ret _ _ _ => False
  | Exc o' w' => (someone_throws w \/ capacity < length us - length vs) /\
      exists n, n <= length vs /\ is_static_vector capacity o' (firstn n us ++ skipn n vs) others w'
  end.
Proof.
  intros V moved capacity fits mks us o vs others w Hv Hm Hl. pose proof (Forall2_len _ _ _ Hm) as Hlen.
  pose proof Hv as ((Hs & _ & (k & _ & Hk) & _) & _).
  pose proof (assign_svec moved capacity (firstn (v_size o) mks) (firstn (length vs) us) o vs others w Hv) as A.
  rewrite Hs in A at 1. specialize (A ltac:(rewrite <- (firstn_skipn (length vs) mks) in Hm; apply Forall2_take in Hm; rewrite firstn_length, Nat.min_l in Hm by lia; exact Hm) ltac:(rewrite firstn_length; lia) fits).
  pose proof (assign_split moved capacity fits mks o w ltac:(lia)) as S.
  pose proof (StaticPrograms.calm_assign moved capacity fits (firstn (v_size o) mks) o w) as L. unfold ends in A.
  destruct (assign moved (static_vector capacity) false fits (Source (firstn (v_size o) mks) true) o w) as [o1 [] w1|o1 w1|f]; [| |contradiction].
  - rewrite S, Hs. clear S. destruct L as [L _].
    assert (Forall2 (makes (heap w1)) (skipn (length vs) mks) (skipn (length vs) us)) as Hr.
    { apply Forall2_skipn. eapply Forall2_weaken; [|exact Hm]. intros mk v. destruct A as ((_ & Hg & _ & Ho) & _).
      destruct mk as [v'|[b|] i|[b|] i|[b|] i]; cbn; auto; intros (cs & Hc & Hi); exists cs; (split; [rewrite Ho; [exact Hc|congruence]|exact Hi]). }
    assert (forall o' w', untouched o1 o' w1 w' -> exists n, n <= length vs /\ is_static_vector capacity o' (firstn n us ++ skipn n vs) others w') as U.
    { intros o' w' (-> & Hh & Hu'). exists (length vs). split; [lia|]. rewrite skipn_all, app_nil_r. split; [|exact Hu'].
      eapply StaticPrograms.in_same; [|exact (proj1 A)]. intros b. symmetry. apply Hh. }
    destruct (le_lt_dec (length us - length vs) capacity) as [Hc|Hc].
    + pose proof (C36_append_exactly V moved capacity _ _ o1 _ others w1 A Hr ltac:(rewrite skipn_length, firstn_length; lia)) as X.
      destruct append; [exact X| |auto]. destruct X as [X T]. split; [left; apply L, T|eauto].
    + rewrite (append_too_long_svec moved capacity _ o1 _ others w1 A) by (rewrite skipn_length; lia).
      split; [auto|]. apply U. split; [reflexivity|]. split; [intros b; reflexivity|exact (proj2 A)].
  - destruct S as [S|(o2 & w2 & S)]; [|now apply nothing_thrown in S]. rewrite S. destruct A as (T & n & Hn & Hn' & A). split; [auto|].
    exists n. split; [exact Hn|]. rewrite firstn_firstn in A. rewrite Nat.min_l in A by exact Hn. exact A.
Qed.
Print Assumptions C39_assign_static_exactly.
Example C39_assign_static_example :
  let w := alone (some123 ++ [None]) [] in
  is_static_vector 4 (SVector 0 3) [1; 2; 3] nothing w /\
  assign forget (static_vector 4) false false (Source (map Supply [7; 8; 9; 10; 11]) true) (SVector 0 3) w = Bad Outside /\
  (exists w', assign forget (static_vector 4) false false (Source (map Supply [7; 8; 9; 10; 11; 12; 13; 14]) true) (SVector 0 3) w = Exc (SVector 0 3) w' /\
     heap w' 0 = Some [Some 7; Some 8; Some 9; None]).
Proof. cbv zeta. split; [apply static_is_vector|]. split; [reflexivity|]. eexists. split; reflexivity. Qed.

(** ** C120. The same for resize of inplace_vector, whose value may be an element of the vector. *)
Theorem C120_inplace_resize_exactly : forall V (moved : V -> V) capacity count p i v o vs others w,
  is_static_vector capacity o vs others w -> makes (heap w) (CopyOf p i) v -> capacity < count ->
  match StdVec.std_resize moved (static_vector capacity) count p i o w with
  | Bad f => f = Outside /\ count - length vs <= capacity
  | Ret _ _ _ => False
  | Exc o' w' => untouched o o' w w' /\ (someone_throws w \/ capacity < count - length vs)
  end.
Proof. intros V moved capacity count p i v o vs others w Hv Hm Hc. exact (C36_resize_exactly V moved capacity (CopyOf p i) v count o vs others w Hv Hm Hc). Qed.
Print Assumptions C120_inplace_resize_exactly.
