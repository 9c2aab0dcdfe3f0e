(** * tv::tuple: proofs *)

From Coq Require Import List Arith Bool Lia.
From Verif Require Import Tuple.
Import ListNotations.

Section Lemmas.
Context {A : Type}.

Lemma spaceship_from_app compare (pre_l pre_r l r : list A) c :
  length pre_l = length pre_r -> length l = length r ->
  spaceship_from compare (seq (length pre_l) (length l)) (pre_l ++ l) (pre_r ++ r) c =
  Some ((fix go i (l r : list A) c := match l, r with
         | a :: l, b :: r => match compare i a b with Eq => go (S i) l r Eq | d => d end
         | _, _ => c end) (length pre_l) l r c).
Proof.
  revert pre_l pre_r r c. induction l as [|a l IH]; intros pre_l pre_r [|b r] c Hp Hl; try discriminate; [reflexivity|].
  cbn [length seq spaceship_from]. unfold element.
  rewrite nth_error_app2, Nat.sub_diag by lia. cbn [nth_error].
  rewrite Hp, nth_error_app2, Nat.sub_diag by lia. cbn [nth_error].
  rewrite <- Hp. destruct (compare (length pre_l) a b); try reflexivity.
  specialize (IH (pre_l ++ [a]) (pre_r ++ [b]) r Eq). rewrite !app_length in IH. cbn [length] in IH.
  rewrite <- !app_assoc in IH. cbn [app] in IH. rewrite Nat.add_1_r in IH. apply IH; cbn in *; lia.
Qed.

(** The direct definition: compare from position [i] on. *)
Fixpoint lex (compare : nat -> A -> A -> comparison) (i : nat) (l r : list A) : comparison :=
  match l, r with
  | a :: l, b :: r => match compare i a b with Eq => lex compare (S i) l r | d => d end
  | _, _ => Eq
  end.
Lemma spaceship_lex compare (l r : list A) : length l = length r -> spaceship compare l r = Some (lex compare 0 l r).
Proof.
  intros H. unfold spaceship. rewrite H, Nat.eqb_refl, <- H.
  etransitivity; [exact (spaceship_from_app compare [] [] l r Eq eq_refl H)|]. f_equal. cbn [length].
  generalize 0 as i. clear H. revert r. induction l as [|a l IH]; intros [|b r] i; cbn; auto.
  destruct (compare i a b); auto.
Qed.
Lemma lex_eq compare (l r : list A) i : length l = length r ->
  (lex compare i l r = Eq <-> forall k a b, nth_error l k = Some a -> nth_error r k = Some b -> compare (i + k) a b = Eq).
Proof.
  revert r i. induction l as [|a l IH]; intros [|b r] i H; try discriminate; cbn [lex].
  - split; auto. intros _ [|k]; discriminate.
  - split.
    + destruct (compare i a b) eqn:E; try discriminate. intros Hl [|k] a' b' Ha Hb.
      * cbn in Ha, Hb. rewrite Nat.add_0_r. congruence.
      * replace (i + S k) with (S i + k) by lia. apply (proj1 (IH r (S i) ltac:(cbn in H; lia)) Hl k); auto.
    + intros Hk. pose proof (Hk 0 a b eq_refl eq_refl) as H0. rewrite Nat.add_0_r in H0. rewrite H0.
      apply IH; [auto|]. intros k a' b' Ha Hb. specialize (Hk (S k) a' b' Ha Hb).
      now replace (S i + k) with (i + S k) by lia.
Qed.
Lemma lex_first compare (l r : list A) i c : length l = length r -> c <> Eq ->
  (lex compare i l r = c <->
   exists k a b, nth_error l k = Some a /\ nth_error r k = Some b /\ compare (i + k) a b = c /\
     forall j a' b', j < k -> nth_error l j = Some a' -> nth_error r j = Some b' -> compare (i + j) a' b' = Eq).
Proof.
  revert r i. induction l as [|a l IH]; intros [|b r] i H Hc; try discriminate; cbn [lex].
  - split; [congruence|]. intros ([|k] & a & b & Ha & _); discriminate.
  - split.
    + intros Hl. destruct (compare i a b) eqn:E.
      * apply IH in Hl; [|auto|auto]. destruct Hl as (k & a' & b' & Ha & Hb & Hk & Hj).
        exists (S k), a', b'. split; [exact Ha|]. split; [exact Hb|].
        split. { now replace (i + S k) with (S i + k) by lia. }
        intros [|j] x y Hjk Hx Hy.
        -- cbn in Hx, Hy. rewrite Nat.add_0_r. congruence.
        -- replace (i + S j) with (S i + j) by lia. apply (Hj j); auto. lia.
      * exists 0, a, b. rewrite Nat.add_0_r. repeat split; auto; try congruence. intros; lia.
      * exists 0, a, b. rewrite Nat.add_0_r. repeat split; auto; try congruence. intros; lia.
    + intros (k & a' & b' & Ha & Hb & Hk & Hj). destruct k as [|k].
      * cbn in Ha, Hb. injection Ha as <-. injection Hb as <-. rewrite Nat.add_0_r in Hk. rewrite Hk.
        destruct c; congruence.
      * pose proof (Hj 0 a b ltac:(lia) eq_refl eq_refl) as H0. rewrite Nat.add_0_r in H0. rewrite H0.
        apply IH; [auto|auto|]. exists k, a', b'. split; [exact Ha|]. split; [exact Hb|].
        split. { now replace (S i + k) with (i + S k) by lia. }
        intros j x y Hjk Hx Hy. replace (S i + j) with (i + S j) by lia. apply (Hj (S j)); auto. lia.
Qed.
Lemma lex_opp compare (l r : list A) i :
  (forall k a b, compare k b a = CompOpp (compare k a b)) -> lex compare i r l = CompOpp (lex compare i l r).
Proof.
  intros H. revert r i. induction l as [|a l IH]; intros [|b r] i; cbn; auto.
  rewrite (H i a b). destruct (compare i a b); cbn; auto.
Qed.
(** Comparison results that a chain of two allows. *)
Lemma lex_trans compare (l m r : list A) i :
  (forall k a b c x, compare k a b = x -> compare k b c = x -> compare k a c = x) ->
  (forall k a b c, compare k a b = Eq -> compare k a c = compare k b c) ->
  (forall k a b c, compare k b c = Eq -> compare k a c = compare k a b) ->
  length l = length m -> length m = length r ->
  forall x, lex compare i l m = x -> lex compare i m r = x -> lex compare i l r = x.
Proof.
  intros T E1 E2. revert m r i. induction l as [|a l IH]; intros [|b m] [|c r] i H1 H2 x; try discriminate; cbn [lex]; auto.
  intros Hx Hy. destruct (compare i a b) eqn:Eab.
  - rewrite (E1 i a b c Eab). destruct (compare i b c); auto. apply (IH m r (S i)); cbn in *; auto.
  - destruct (compare i b c) eqn:Ebc.
    + rewrite (E2 i a b c Ebc), Eab. auto.
    + rewrite (T i a b c Lt Eab Ebc). auto.
    + congruence.
  - destruct (compare i b c) eqn:Ebc.
    + rewrite (E2 i a b c Ebc), Eab. auto.
    + congruence.
    + rewrite (T i a b c Gt Eab Ebc). auto.
Qed.

Lemma equal_from_app eqb (pre_l pre_r l r : list A) :
  length pre_l = length pre_r -> length l = length r ->
  exists x, equal_from eqb (seq (length pre_l) (length l)) (pre_l ++ l) (pre_r ++ r) = Some x /\
  (x = true <-> forall k a b, nth_error l k = Some a -> nth_error r k = Some b -> eqb (length pre_l + k) a b = true).
Proof.
  revert pre_l pre_r r. induction l as [|a l IH]; intros pre_l pre_r [|b r] Hp Hl; try discriminate.
  { exists true. cbn. split; [reflexivity|]. split; auto. intros _ [|k]; discriminate. }
  cbn [length seq equal_from]. unfold element.
  rewrite nth_error_app2, Nat.sub_diag by lia. cbn [nth_error].
  rewrite Hp, nth_error_app2, Nat.sub_diag by lia. cbn [nth_error].
  rewrite <- Hp. destruct (eqb (length pre_l) a b) eqn:E.
  - specialize (IH (pre_l ++ [a]) (pre_r ++ [b]) r). rewrite !app_length in IH. cbn [length] in IH.
    rewrite <- !app_assoc in IH. cbn [app] in IH. rewrite Nat.add_1_r in IH.
    destruct IH as (x & Hx & Hiff); [cbn in *; lia..|]. exists x. split; [exact Hx|]. rewrite Hiff. split.
    + intros H [|k] a' b' Ha Hb. * cbn in Ha, Hb. rewrite Nat.add_0_r. congruence.
      * rewrite <- plus_n_Sm. apply (H k); auto.
    + intros H k a' b' Ha Hb. specialize (H (S k) a' b' Ha Hb). now rewrite <- plus_n_Sm in H.
  - exists false. split; [reflexivity|]. split; [discriminate|]. intros H. specialize (H 0 a b eq_refl eq_refl).
    rewrite Nat.add_0_r in H. congruence.
Qed.

(** tuple_cat *)
Lemma all_of_ext {B C} (f g : B -> option C) l : (forall x, In x l -> f x = g x) -> all_of f l = all_of g l.
Proof.
  induction l as [|x l IH]; intros H; cbn; auto. rewrite (H x) by now left. rewrite IH; auto. intros y Hy. apply H. now right.
Qed.
Lemma all_of_map {B C D} (f : C -> option D) (g : B -> C) l : all_of f (map g l) = all_of (fun x => f (g x)) l.
Proof. induction l as [|x l IH]; cbn; auto. now rewrite IH. Qed.
Lemma all_of_app {B C} (f : B -> option C) l1 l2 r1 r2 :
  all_of f l1 = Some r1 -> all_of f l2 = Some r2 -> all_of f (l1 ++ l2) = Some (r1 ++ r2).
Proof.
  revert r1. induction l1 as [|x l1 IH]; intros r1 H1 H2; cbn in *.
  - injection H1 as <-. exact H2.
  - destruct (f x); [|discriminate]. destruct (all_of f l1); [|discriminate]. injection H1 as <-.
    now rewrite (IH l eq_refl H2).
Qed.
Lemma all_of_nth {B} (l : list B) : all_of (fun j => nth_error l j) (seq 0 (length l)) = Some l.
Proof.
  assert (H : forall pre, all_of (fun j => nth_error (pre ++ l) j) (seq (length pre) (length l)) = Some l).
  { induction l as [|x l IH]; intros pre; cbn [length seq all_of]; auto.
    rewrite nth_error_app2, Nat.sub_diag by lia. cbn [nth_error].
    specialize (IH (pre ++ [x])). rewrite app_length, <- app_assoc in IH. cbn [length app] in IH.
    rewrite Nat.add_1_r in IH. now rewrite IH. }
  apply (H []).
Qed.
Lemma all_of_indexes {B C} (f : B -> option C) l :
  all_of (fun j => match nth_error l j with Some p => f p | None => None end) (seq 0 (length l)) = all_of f l.
Proof.
  assert (H : forall pre, all_of (fun j => match nth_error (pre ++ l) j with Some p => f p | None => None end) (seq (length pre) (length l)) = all_of f l).
  { induction l as [|x l IH]; intros pre; cbn [length seq all_of]; auto.
    rewrite nth_error_app2, Nat.sub_diag by lia. cbn [nth_error].
    specialize (IH (pre ++ [x])). rewrite app_length, <- app_assoc in IH. cbn [length app] in IH.
    rewrite Nat.add_1_r in IH. now rewrite IH. }
  apply (H []).
Qed.
Lemma make_indexes_read (pre tuples : list (list A)) :
  all_of (fun p => match nth_error (pre ++ tuples) (fst p) with Some t => element t (snd p) | None => None end)
    (make_indexes (length pre) (map (@length A) tuples)) = Some (concat tuples).
Proof.
  revert pre. induction tuples as [|t tuples IH]; intros pre; cbn [map make_indexes concat]; [reflexivity|].
  apply all_of_app.
  - unfold add_pack. rewrite all_of_map. cbn [fst snd].
    etransitivity; [|exact (all_of_nth t)]. apply all_of_ext. intros i _.
    rewrite nth_error_app2, Nat.sub_diag by lia. reflexivity.
  - specialize (IH (pre ++ [t])). rewrite app_length, <- app_assoc in IH. cbn [length app] in IH.
    rewrite Nat.add_1_r in IH. exact IH.
Qed.
Lemma tuple_cat_concat (tuples : list (list A)) : tuple_cat tuples = Some (concat tuples).
Proof. unfold tuple_cat. rewrite all_of_indexes. apply (make_indexes_read [] tuples). Qed.

(** transform *)
Lemma all_of_total {B C} (f : B -> option C) (g : B -> C) l : (forall x, In x l -> f x = Some (g x)) -> all_of f l = Some (map g l).
Proof.
  induction l as [|x l IH]; intros H; cbn; auto. rewrite (H x) by now left. rewrite IH; auto. intros y Hy. apply H. now right.
Qed.
Lemma transform_elements {B} (f : list A -> B) (tuples : list (list A)) n d :
  (forall t, In t tuples -> length t = n) -> tuples <> [] ->
  transform f tuples = Some (map (fun i => f (map (fun t => nth i t d) tuples)) (seq 0 n)).
Proof.
  intros Hn Hne. unfold transform.
  assert (Hs : match tuples with [] => 0 | t :: _ => length t end = n).
  { destruct tuples as [|t ts]; [congruence|]. apply Hn. now left. }
  rewrite Hs. replace (forallb (fun t => length t =? n) tuples) with true.
  - apply all_of_total. intros i Hi. apply in_seq in Hi.
    rewrite (all_of_total _ (fun t => nth i t d)); [reflexivity|].
    intros t Ht. unfold element. apply nth_error_nth'. rewrite (Hn t Ht). lia.
  - symmetry. apply forallb_forall. intros t Ht. apply Nat.eqb_eq. auto.
Qed.
End Lemmas.
