(** * Proofs about several objects in one memory *)

From Coq Require Import List Arith Bool Lia.
From Verif Require Import Mem MemLemmas Vec SpecVec SpecSeveral.
Import ListNotations.

Section Positions.
Context {A : Type}.
Implicit Types (l : list A).
Lemma replace_S i x a l : replace_at (S i) x (a :: l) = a :: replace_at i x l. Proof. reflexivity. Qed.
Lemma remove_S i a l : remove_at (S i) (a :: l) = a :: remove_at i l. Proof. reflexivity. Qed.
Lemma length_replace i x l : i < length l -> length (replace_at i x l) = length l.
Proof. intros H. unfold replace_at. rewrite !app_length, firstn_length, skipn_length. cbn. lia. Qed.
Lemma nth_replace i x l : i < length l -> nth_error (replace_at i x l) i = Some x.
Proof. revert l. induction i as [|i IH]; intros [|a l] H; cbn in *; try lia; auto. apply IH. lia. Qed.
Lemma nth_replace_other i j x l : i < length l -> j <> i -> nth_error (replace_at i x l) j = nth_error l j.
Proof.
  revert j l. induction i as [|i IH]; intros j [|a l] H Hj; cbn [length] in *; try lia.
  - destruct j; [lia|]. reflexivity.
  - destruct j; [reflexivity|]. rewrite replace_S. cbn [nth_error]. apply IH; lia.
Qed.
Lemma replace_same i x l : nth_error l i = Some x -> replace_at i x l = l.
Proof.
  revert l. induction i as [|i IH]; intros [|a l] H; cbn in H; try discriminate.
  - now injection H as ->.
  - rewrite replace_S. f_equal. now apply IH.
Qed.
Lemma replace_twice i x y l : i < length l -> replace_at i y (replace_at i x l) = replace_at i y l.
Proof.
  revert l. induction i as [|i IH]; intros [|a l] H; cbn [length] in *; try lia; auto. rewrite !replace_S. f_equal. apply IH. lia.
Qed.
Lemma In_replace i x l : i < length l -> In x (replace_at i x l).
Proof. intros H. eapply nth_error_In, nth_replace, H. Qed.
End Positions.

Section Several.
Context {V O L : Type} (is_in : O -> L -> memory (V := V) -> memory (V := V) -> Prop).
Context (is_in_same : forall o l r m m', same m m' -> is_in o l r m -> is_in o l r m').
Context (is_in_swap : forall o l t u others mid m,
  is_in o l mid m -> is_in t u others mid -> exists mid', is_in t u mid' m /\ is_in o l others mid').
Local Notation several_in := (several_in is_in).
Local Notation several := (several is_in).
Local Notation memory := (@memory V).
Local Notation world := (world V).

Lemma several_same os ls (others m m' : memory) : same m m' -> several_in os ls others m -> several_in os ls others m'.
Proof.
  intros Hs. destruct os as [|o os], ls as [|l ls]; cbn; auto.
  - intros H b. now rewrite <- Hs.
  - intros (r & H1 & H2). exists r. split; auto. eapply is_in_same; eauto.
Qed.
Lemma several_lengths os : forall ls others m, several_in os ls others m -> length os = length ls.
Proof. induction os as [|o os IH]; intros [|l ls] others m; cbn; try contradiction; auto. intros (r & _ & H). f_equal. eauto. Qed.
Lemma several_map {B} (f : O -> B) (g : L -> B) : (forall o l r m, is_in o l r m -> f o = g l) ->
  forall os ls others m, several_in os ls others m -> map f os = map g ls.
Proof.
  intros Hfg. induction os as [|o os IH]; intros [|l ls] others m; cbn; try contradiction; auto.
  intros (r & H1 & H2). f_equal; eauto.
Qed.

(** One of them: the others are in the rest of the memory. *)
Lemma focus_one i : forall os ls others m, i < length os -> several_in os ls others m ->
  exists o l rest, nth_error os i = Some o /\ nth_error ls i = Some l /\ is_in o l rest m /\
    several_in (remove_at i os) (remove_at i ls) others rest /\
    (forall o' l' m', is_in o' l' rest m' -> several_in (replace_at i o' os) (replace_at i l' ls) others m').
Proof.
  induction i as [|i IH]; intros [|o os] [|l ls] others m Hi H; cbn in Hi, H; try lia; try contradiction.
  - destruct H as (rest & H1 & H2). exists o, l, rest. split; auto. split; auto. split; auto. split; auto.
    intros o' l' m' H'. cbn. eauto.
  - destruct H as (rest & H1 & H2).
    destruct (IH _ _ _ _ (proj2 (Nat.succ_lt_mono _ _) Hi) H2) as (t & u & rest' & Hno & Hnl & Ht & Hr & Hback).
    destruct (is_in_swap _ _ _ _ _ _ _ H1 Ht) as (mid & H3 & H4).
    exists t, u, mid. split; auto. split; auto. split; auto. split. { rewrite !remove_S. cbn. eauto. }
    intros o' l' m' H'. rewrite !replace_S. cbn. destruct (is_in_swap _ _ _ _ _ _ _ H' H4) as (mid' & H5 & H6). eauto.
Qed.
Lemma several_end o os l ls others rest m :
  is_in o l rest m -> several_in os ls others rest -> several_in (os ++ [o]) (ls ++ [l]) others m.
Proof.
  revert ls rest m. induction os as [|t os IH]; intros [|u ls] rest m H1 H2; cbn in H2; try contradiction; cbn.
  - exists rest. auto.
  - destruct H2 as (r & H3 & H4). destruct (is_in_swap _ _ _ _ _ _ _ H1 H3) as (mid & H5 & H6). exists mid. split; auto. eapply IH; eauto.
Qed.
Lemma nth_remove {A} i j (l : list A) : i < length l -> j <> i -> nth_error (remove_at i l) (if j <? i then j else j - 1) = nth_error l j.
Proof.
  revert j l. induction i as [|i IH]; intros j [|a l] H Hj; cbn [length] in *; try lia.
  - destruct j; [lia|]. cbn. now rewrite Nat.sub_0_r.
  - rewrite remove_S. destruct j as [|j]; [reflexivity|]. change (S j <? S i) with (j <? i). specialize (IH j l ltac:(lia) ltac:(lia)).
    destruct (Nat.ltb_spec j i); cbn [nth_error]; auto. replace (S j - 1) with (S (j - 1)) by lia. exact IH.
Qed.
Lemma replace_remove {A} i j x (l : list A) : i < length l -> j < length l -> j <> i ->
  replace_at (if j <? i then j else j - 1) x (remove_at i l) = remove_at i (replace_at j x l).
Proof.
  revert j l. induction i as [|i IH]; intros j [|a l] H Hl Hj; cbn [length] in *; try lia.
  - destruct j; [lia|]. cbn. rewrite Nat.sub_0_r. reflexivity.
  - rewrite remove_S. destruct j as [|j]; [reflexivity|]. change (S j <? S i) with (j <? i). specialize (IH j l ltac:(lia) ltac:(lia) ltac:(lia)).
    rewrite replace_S, remove_S. destruct (Nat.ltb_spec j i); [rewrite replace_S; now f_equal|].
    replace (S j - 1) with (S (j - 1)) by lia. rewrite replace_S. now f_equal.
Qed.
Lemma length_remove {A} i (l : list A) : i < length l -> length (remove_at i l) = length l - 1.
Proof. intros H. unfold remove_at. rewrite app_length, firstn_length, skipn_length. lia. Qed.
Lemma unfocus i : forall os ls others rest m o l, i < length os -> i < length ls ->
  several_in (remove_at i os) (remove_at i ls) others rest -> is_in o l rest m ->
  several_in (replace_at i o os) (replace_at i l ls) others m.
Proof.
  induction i as [|i IH]; intros [|o os] [|l ls] others rest m o' l' Ho Hl H1 H2; cbn [length] in *; try lia.
  - cbn in *. eauto.
  - rewrite !remove_S in H1. rewrite !replace_S. cbn in H1. destruct H1 as (r & H3 & H4). destruct (is_in_swap _ _ _ _ _ _ _ H2 H3) as (mid & H5 & H6).
    cbn. exists mid. split; auto. eapply IH; eauto; lia.
Qed.

(** Two of them. *)
Lemma focus_two i j os ls others m : i < length os -> j < length os -> j <> i -> several_in os ls others m ->
  exists o l t u mid rest, nth_error os i = Some o /\ nth_error ls i = Some l /\ nth_error os j = Some t /\ nth_error ls j = Some u /\
    is_in o l mid m /\ is_in t u rest mid /\
    (forall o' l' mid' m', is_in o' l' mid' m' -> is_in t u rest mid' -> several_in (replace_at i o' os) (replace_at i l' ls) others m') /\
    (forall o' l' t' u' mid' m', is_in o' l' mid' m' -> is_in t' u' rest mid' ->
       several_in (replace_at j t' (replace_at i o' os)) (replace_at j u' (replace_at i l' ls)) others m').
Proof.
  intros Hi Hj Hij H. pose proof (several_lengths _ _ _ _ H) as Hlen.
  destruct (focus_one i os ls others m Hi H) as (o & l & mid & Hno & Hnl & Ho & Hr & _).
  set (k := if j <? i then j else j - 1) in *.
  assert (Hk : k < length (remove_at i os)). { rewrite length_remove by assumption. unfold k. destruct (Nat.ltb_spec j i); lia. }
  destruct (focus_one k _ _ others mid Hk Hr) as (t & u & rest & Hnt & Hnu & Ht & _ & Hback).
  unfold k in Hnt, Hnu. rewrite nth_remove in Hnt by assumption. rewrite nth_remove in Hnu by lia.
  exists o, l, t, u, mid, rest. repeat (split; [assumption|]).
  assert (Hall : forall o' l' t' u' mid' m', is_in o' l' mid' m' -> is_in t' u' rest mid' ->
            several_in (replace_at i o' (replace_at j t' os)) (replace_at i l' (replace_at j u' ls)) others m').
  { intros o' l' t' u' mid' m' H1 H2. eapply (unfocus i); rewrite ?length_replace; try lia; [|exact H1].
    rewrite <- !replace_remove by lia. fold k. now apply Hback. }
  assert (Hc : forall A (a b : A) (x : list A), i < length x -> j < length x -> replace_at j b (replace_at i a x) = replace_at i a (replace_at j b x)).
  { clear - Hij. revert j Hij. induction i as [|i' IH]; intros j Hij A a b [|x0 x] H1 H2; cbn [length] in *; try lia.
    - destruct j; [lia|]. reflexivity.
    - destruct j as [|j]; [reflexivity|]. rewrite !replace_S. f_equal. apply IH; lia. }
  split.
  - intros o' l' mid' m' H1 H2. specialize (Hall o' l' t u mid' m' H1 H2). now rewrite (replace_same j t os), (replace_same j u ls) in Hall.
  - intros o' l' t' u' mid' m' H1 H2. rewrite !Hc by lia. eapply Hall; eauto.
Qed.

Lemma another_ok (m : M V unit O) os ls others (w : world) l (T : Prop) :
  several os ls others w ->
  ends (m tt w) (fun _ o w' => is_in o l (heap w) (heap w') /\ unused_names w') (fun _ w' => same (heap w') (heap w) /\ unused_names w' /\ T) ->
  ends (another m os w) (fun os' _ w' => several os' (ls ++ [l]) others w') (fun os' w' => T /\ several os' ls others w').
Proof.
  intros [Ha Hu] Hm. unfold another, on_unit, bind, get, put. unfold ends in *. destruct (m tt w) as [x o w1|x w1|]; try contradiction.
  - destruct Hm as [H1 H2]. split; auto. eapply several_end; eauto.
  - destruct Hm as (H1 & H2 & H3). split; auto. split; auto. eapply several_same; [|exact Ha]. intros b. symmetry. apply H1.
Qed.
Lemma one_of_ok {A} i (m : M V O A) os ls others (w : world) (Q : A -> L -> Prop) (E : L -> Prop) (T : Prop) :
  i < length os -> several os ls others w ->
  (forall o l rest, nth_error os i = Some o -> nth_error ls i = Some l -> is_in o l rest (heap w) ->
     several_in (remove_at i os) (remove_at i ls) others rest ->
     ends (m o w) (fun o' a w' => exists l', Q a l' /\ is_in o' l' rest (heap w') /\ unused_names w')
       (fun o' w' => T /\ exists l', E l' /\ is_in o' l' rest (heap w') /\ unused_names w')) ->
  ends (one_of i m os w)
    (fun os' a w' => exists l', Q a l' /\ several os' (replace_at i l' ls) others w')
    (fun os' w' => T /\ exists l', E l' /\ several os' (replace_at i l' ls) others w').
Proof.
  intros Hi [Ha Hu] Hm. destruct (focus_one i _ _ _ _ Hi Ha) as (o & l & rest & Hno & Hnl & Hin & Hr & Hback).
  unfold one_of. rewrite Hno. specialize (Hm o l rest Hno Hnl Hin Hr). unfold ends in *.
  destruct (m o w) as [o1 a w1|o1 w1|]; try contradiction.
  - destruct Hm as (l1 & HQ & H1 & H2). exists l1. split; auto. split; auto.
  - destruct Hm as (HT & l1 & HE & H1 & H2). split; auto. exists l1. split; auto. split; auto.
Qed.
End Several.
