(** * Proofs about linear maps *)

From Coq Require Import List Arith Bool Lia.
From Verif Require Import Mem MemLemmas SpecUnique LinearMap SpecMap.
Import ListNotations.
Local Open Scope nat_scope.

Section LinearMap.
Context {K M : Type} (equal : K -> K -> bool) (Heq : equivalence equal).
Notation element := (K * M)%type.
Notation element_of := (@element_of K M equal).
Notation distinct := (@distinct K M equal).

Lemma equal_refl a : equal a a = true.
Proof. apply Heq. Qed.
Lemma equal_sym a b : equal a b = equal b a.
Proof. apply Heq. Qed.
Lemma equal_trans a b c : equal a b = true -> equal b c = true -> equal a c = true.
Proof. apply Heq. Qed.

Lemma distinct_app l1 l2 : distinct (l1 ++ l2) <->
  distinct l1 /\ distinct l2 /\ forall a b, In a l1 -> In b l2 -> equal (fst a) (fst b) = false.
Proof.
  split.
  - intros H. split; [|split].
    + intros i j a b Ha Hb. apply H; rewrite nth_error_app1; auto; apply nth_error_Some; congruence.
    + intros i j a b Ha Hb Hs. assert (length l1 + i = length l1 + j); [|lia].
      apply (H _ _ a b); auto; rewrite nth_error_app2 by lia; [rewrite <- Ha | rewrite <- Hb]; f_equal; lia.
    + intros a b Ha Hb. destruct (equal (fst a) (fst b)) eqn:E; [|reflexivity].
      destruct (In_nth_error _ _ Ha) as (i & Hi). destruct (In_nth_error _ _ Hb) as (j & Hj).
      assert (Hil : i < length l1) by (apply nth_error_Some; congruence).
      assert (i = length l1 + j); [|lia]. apply (H _ _ a b); auto; [rewrite nth_error_app1; auto|].
      rewrite nth_error_app2 by lia. rewrite <- Hj. f_equal. lia.
  - intros (H1 & H2 & H3) i j a b Ha Hb Hs.
    destruct (Nat.lt_ge_cases i (length l1)) as [Hi|Hi], (Nat.lt_ge_cases j (length l1)) as [Hj|Hj];
      rewrite ?nth_error_app1 in Ha by exact Hi; rewrite ?nth_error_app2 in Ha by exact Hi;
      rewrite ?nth_error_app1 in Hb by exact Hj; rewrite ?nth_error_app2 in Hb by exact Hj.
    + apply (H1 i j a b Ha Hb Hs).
    + rewrite (H3 a b) in Hs; [discriminate | eapply nth_error_In; eauto | eapply nth_error_In; eauto].
    + rewrite equal_sym, (H3 b a) in Hs; [discriminate | eapply nth_error_In; eauto | eapply nth_error_In; eauto].
    + pose proof (H2 _ _ a b Ha Hb Hs). lia.
Qed.
Lemma distinct_one e : distinct [e].
Proof. intros i j a b Ha Hb _. destruct i as [|[|]], j as [|[|]]; try discriminate; reflexivity. Qed.

Lemma swap_ok (p q z : list element) e w : 
  swap_elements (p ++ e :: q ++ w :: z) (length p) (length p + S (length q)) = Some (p ++ w :: q ++ e :: z).
Proof.
  unfold swap_elements. rewrite nth_error_app2, Nat.sub_diag by lia. cbn [nth_error].
  rewrite nth_error_app2 by lia. replace (length p + S (length q) - length p) with (S (length q)) by lia. cbn [nth_error].
  rewrite nth_error_app2, Nat.sub_diag by lia. cbn [nth_error]. rewrite set_nth_app by reflexivity.
  change (p ++ w :: q ++ w :: z) with (p ++ (w :: q) ++ w :: z). rewrite app_assoc, set_nth_app by (rewrite app_length; reflexivity).
  rewrite <- app_assoc. reflexivity.
Qed.

Lemma remove_ok fuel : forall (p q z : list element), length q < fuel -> distinct p ->
  exists r, remove_duplicates equal fuel (p ++ q ++ z) (length p) (length p + length q) = Some (p ++ r) /\ distinct (p ++ r) /\
    incl r q /\ forall e, In e q -> exists e', In e' (p ++ r) /\ equal (fst e) (fst e') = true.
Proof.
  induction fuel as [|fuel IH]; intros p q z Hf Hd; [lia|]. cbn [remove_duplicates].
  destruct q as [|e q].
  - cbn [length app]. rewrite Nat.add_0_r, Nat.eqb_refl, firstn_app, Nat.sub_diag, firstn_all. cbn [firstn]. exists []. rewrite app_nil_r.
    split; [reflexivity|]. split; [exact Hd|]. split; [apply incl_refl|]. intros a [].
  - cbn [length app] in *. rewrite (proj2 (Nat.eqb_neq _ _)) by lia. rewrite nth_error_app2, Nat.sub_diag by lia. cbn [nth_error].
    rewrite firstn_app, Nat.sub_diag, firstn_all. cbn [firstn]. rewrite app_nil_r.
    destruct (existsb (fun verified => equal (fst e) (fst verified)) p) eqn:Ex.
    + apply existsb_exists in Ex as (e' & He' & Ee'). replace (length p + S (length q)) with (S (length p + length q)) by lia.
      destruct q as [|w q _] using rev_ind.
      * cbn [length app]. rewrite Nat.add_0_r, Nat.eqb_refl, firstn_app, Nat.sub_diag, firstn_all. cbn [firstn].
        exists []. rewrite app_nil_r. split; [reflexivity|]. split; [exact Hd|]. split; [intros a []|]. intros a [<-|[]]. eauto.
      * rewrite app_length in *. cbn [length] in *. rewrite (proj2 (Nat.eqb_neq _ _)) by lia.
        replace (length p + (length q + 1)) with (length p + S (length q)) by lia. rewrite <- app_assoc. cbn [app]. rewrite swap_ok.
        destruct (IH p (w :: q) (e :: z)) as (r & Hr & H1 & H2 & H3); [cbn; lia | exact Hd|]. cbn [length app] in Hr. rewrite Hr.
        exists r. split; [reflexivity|]. split; [exact H1|]. split.
        -- intros a Ha. apply H2 in Ha. destruct Ha as [<-|Ha]; right; apply in_or_app; [right; now left | now left].
        -- intros a [<-|Ha]; [exists e'; split; [apply in_or_app; now left | exact Ee']|].
           apply H3. apply in_app_or in Ha. destruct Ha as [Ha|[<-|[]]]; [now right | now left].
    + destruct (IH (p ++ [e]) q z) as (r & Hr & H1 & H2 & H3).
      * lia.
      * apply distinct_app. split; [exact Hd|]. split; [apply distinct_one|]. intros a b Ha [<-|[]].
        rewrite equal_sym. destruct (equal (fst e) (fst a)) eqn:E; [|reflexivity]. rewrite <- Ex. symmetry. apply existsb_exists. eauto.
      * rewrite app_length in Hr. cbn [length] in Hr. rewrite <- app_assoc in Hr. cbn [app] in Hr.
        replace (length p + S (length q)) with (length p + 1 + length q) by lia. replace (S (length p)) with (length p + 1) by lia. rewrite Hr.
        rewrite <- app_assoc in *. cbn [app] in *. exists (e :: r). split; [reflexivity|]. split; [exact H1|]. split.
        -- intros a [<-|Ha]; [now left | right; auto].
        -- intros a [<-|Ha]; [exists e; split; [apply in_or_app; right; now left | apply equal_refl] | auto].
Qed.

Lemma linear_element_none (m : list element) k : element_of m k = None <-> forall e, In e m -> equal k (fst e) = false.
Proof.
  induction m as [|a m IH]; cbn; [split; [intros _ e [] | reflexivity]|]. destruct (equal k (fst a)) eqn:E.
  - split; [discriminate|]. intros H. rewrite (H a) in E; [discriminate | now left].
  - rewrite IH. split; [intros H e [<-|He]; auto | intros H e He; apply H; now right].
Qed.
Lemma linear_element_in (m : list element) k e : element_of m k = Some e -> In e m /\ equal k (fst e) = true.
Proof.
  induction m as [|a m IH]; cbn; [discriminate|]. destruct (equal k (fst a)) eqn:E.
  - intros H. injection H as <-. auto.
  - intros H. destruct (IH H). auto.
Qed.
Lemma linear_find_ok (m : list element) k : linear_find equal m k <= length m /\ nth_error m (linear_find equal m k) = element_of m k.
Proof.
  induction m as [|a m (IH1 & IH2)]; cbn; [auto|]. destruct (equal k (fst a)); cbn; [split; [lia | reflexivity] | split; [lia | exact IH2]].
Qed.
Lemma linear_app (m m' : list element) k : element_of (m ++ m') k = match element_of m k with Some e => Some e | None => element_of m' k end.
Proof. induction m as [|e m IH]; cbn; [reflexivity|]. destruct (equal k (fst e)); auto. Qed.

Lemma linear_lazy_insert_ok (m : list element) key mapped : distinct m ->
  exists m' p inserted, linear_lazy_insert equal m key mapped = (m', p, inserted) /\ distinct m' /\
    match element_of m key with
    | Some e => inserted = false /\ m' = m /\ nth_error m p = Some e
    | None => inserted = true /\ m' = m ++ [(key, mapped)] /\ p = length m
    end.
Proof.
  intros Hd. unfold linear_lazy_insert. destruct (linear_find_ok m key) as (H1 & H2).
  destruct (Nat.eqb_spec (linear_find equal m key) (length m)) as [E|E]; cbn [negb].
  - do 3 eexists. split; [reflexivity|]. rewrite E in H2. rewrite (proj2 (nth_error_None m (length m))) in H2 by lia. rewrite <- H2.
    split; [|auto]. apply distinct_app. split; [exact Hd|]. split; [apply distinct_one|]. intros a b Ha [<-|[]]. rewrite equal_sym.
    symmetry in H2. rewrite linear_element_none in H2. apply H2, Ha.
  - do 3 eexists. split; [reflexivity|]. split; [exact Hd|]. destruct (nth_error m (linear_find equal m key)) as [e|] eqn:En; [|apply nth_error_None in En; lia].
    rewrite <- H2. auto.
Qed.
Lemma linear_insert_ok (m init : list element) : distinct m ->
  exists r, linear_insert equal m init = Some (m ++ r) /\ distinct (m ++ r) /\ incl r init /\
    forall e, In e init -> exists e', In e' (m ++ r) /\ equal (fst e) (fst e') = true.
Proof.
  intros Hd. unfold linear_insert. destruct (remove_ok (S (length init)) m init [] ltac:(lia) Hd) as (r & Hr & H).
  rewrite app_nil_r in Hr. rewrite app_length, Hr. eauto.
Qed.
Lemma linear_from_range_ok (l : list element) :
  exists r, linear_from_range equal l = Some r /\ distinct r /\ incl r l /\
    forall e, In e l -> exists e', In e' r /\ equal (fst e) (fst e') = true.
Proof.
  unfold linear_from_range. destruct (remove_ok (S (length l)) [] l [] ltac:(lia)) as (r & Hr & H).
  - intros i j a b Ha. destruct i; discriminate.
  - rewrite app_nil_r in Hr. cbn [length Nat.add app] in Hr. rewrite Hr. eauto.
Qed.
Lemma linear_erase_ok (m : list element) first last : distinct m -> first <= last <= length m ->
  distinct (linear_erase m first last) /\
  exists removed, m = firstn first m ++ removed ++ skipn last m /\ length removed = last - first /\
    linear_erase m first last = firstn first m ++ skipn last m.
Proof.
  intros Hd Hb. unfold linear_erase.
  assert (Hm : m = firstn first m ++ firstn (last - first) (skipn first m) ++ skipn last m).
  { replace (skipn last m) with (skipn (last - first) (skipn first m)).
    - now rewrite firstn_skipn, firstn_skipn.
    - clear -Hb. replace last with (last - first + first) at 2 by lia. generalize (last - first). intros n. clear Hb. revert m n.
      induction first as [|f IH]; intros m n; [rewrite Nat.add_0_r; reflexivity|].
      destruct m as [|a m]; [now rewrite !skipn_nil|]. replace (n + S f) with (S (n + f)) by lia. cbn [skipn]. apply IH. }
  split.
  - rewrite Hm in Hd. apply distinct_app in Hd as (H1 & H2 & H3). apply distinct_app in H2 as (_ & H2 & _).
    apply distinct_app. split; [exact H1|]. split; [exact H2|]. intros a b Ha Hb'. apply H3; auto. apply in_or_app. now right.
  - exists (firstn (last - first) (skipn first m)). split; [exact Hm|]. split; [|reflexivity]. rewrite firstn_length, skipn_length. lia.
Qed.
End LinearMap.
