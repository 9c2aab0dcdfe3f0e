(** * Bytes: proofs *)

From Coq Require Import List ZArith Bool Lia.
From Verif Require Import Range Strings SpecStrings StringsProofs Bytes SpecBytes.
From Verif Require Cxx Core Spec CoreLemmas.
Import ListNotations.
Local Open Scope Z_scope.

(** ** Shifts *)

Lemma wrap_u8 z : Cxx.wrap Cxx.U8 z = z mod 256.
Proof. unfold Cxx.wrap. cbn [Cxx.ty_min Cxx.ty_card]. change (Cxx.ty_card Cxx.U8) with 256. change (Cxx.ty_min Cxx.U8) with 0. rewrite Z.sub_0_r, Z.add_0_r. reflexivity. Qed.
Lemma wrap_u32 z : Cxx.wrap Cxx.U32 z = z mod 2 ^ 32.
Proof. unfold Cxx.wrap. change (Cxx.ty_card Cxx.U32) with (2 ^ 32). change (Cxx.ty_min Cxx.U32) with 0. rewrite Z.sub_0_r, Z.add_0_r. reflexivity. Qed.
Lemma mod_mod z : (z mod 2 ^ 32) mod 256 = z mod 256.
Proof.
  change (2 ^ 32) with (256 * 2 ^ 24). rewrite (Z.rem_mul_r z 256 (2 ^ 24)) by lia.
  rewrite Z.mul_comm, Z.mod_add by lia. apply Z.mod_mod. lia.
Qed.
Lemma cast_byte b : 0 <= b <= 255 -> Cxx.cast Cxx.U32 (Cxx.TV Cxx.U8 b) = Cxx.TV Cxx.U32 b.
Proof. intro H. unfold Cxx.cast. cbn [Cxx.vl]. rewrite wrap_u32, Z.mod_small by lia. reflexivity. Qed.
Lemma value_ok B n : Spec.valid B -> Spec.holds_value B n -> exists t, Core.value B n = Cxx.Ok (Cxx.TV t n).
Proof. intros H Hn. destruct (CoreLemmas.ivalue_spec (Core.Bounded B) n H Hn) as (t & E & _). exists t. exact E. Qed.
Lemma std_shl b t n : 0 <= b <= 255 -> 0 <= n -> std_byte_shl b (Cxx.TV t n) = if n <? 32 then Cxx.Ok ((b * 2 ^ n) mod 256) else Cxx.UB.
Proof.
  intros Hb Hn. unfold std_byte_shl. rewrite cast_byte by exact Hb. unfold Cxx.cshl. cbn [Cxx.promote Cxx.ty Cxx.vl].
  change (Cxx.ty_bits Cxx.U32) with 32. rewrite (proj2 (Z.leb_le 0 n) Hn). cbn [andb]. destruct (n <? 32); [|reflexivity].
  cbn [Cxx.bind Cxx.vl Cxx.cast]. rewrite wrap_u8, wrap_u32, mod_mod. reflexivity.
Qed.
Lemma std_shr b t n : 0 <= b <= 255 -> 0 <= n -> std_byte_shr b (Cxx.TV t n) = if n <? 32 then Cxx.Ok (b / 2 ^ n) else Cxx.UB.
Proof.
  intros Hb Hn. unfold std_byte_shr. rewrite cast_byte by exact Hb. unfold Cxx.cshr. cbn [Cxx.promote Cxx.ty Cxx.vl].
  change (Cxx.ty_bits Cxx.U32) with 32. rewrite (proj2 (Z.leb_le 0 n) Hn). cbn [andb]. destruct (n <? 32); [|reflexivity].
  cbn [Cxx.bind Cxx.vl Cxx.cast]. rewrite wrap_u8, Z.mod_small; [reflexivity|].
  pose proof (Z.pow_pos_nonneg 2 n ltac:(lia) Hn). split; [apply Z.div_pos; lia|].
  apply Z.le_lt_trans with b; [apply Z.div_le_upper_bound; nia|lia].
Qed.

(** ** Memory *)

Lemma holds_middle m p pre cs post : holds m p (pre ++ cs ++ post) -> p <> None -> exists q, advance m p (Z.of_nat (length pre)) = Val q /\ holds m q cs /\
  q = option_map (fun '(b, offset) => (b, offset + Z.of_nat (length pre))) p.
Proof.
  destruct p as [[b offset]|]; [|congruence]. intros H _. exists (Some (b, offset + Z.of_nat (length pre))). split; [|split; [|reflexivity]].
  - destruct H as (before & after & E & ->). unfold advance. rewrite E. rewrite !app_length.
    rewrite (proj2 (Z.leb_le _ _)), (proj2 (Z.leb_le _ _)) by lia. reflexivity.
  - apply holds_skip in H. exact (holds_app _ _ _ _ H).
Qed.
Lemma holds_replaced m p cs : holds m p cs -> p <> None -> replaced m p cs cs m.
Proof.
  destruct p as [[b offset]|]; [|congruence]. intros (before & after & E & ->) _. destruct (nth_error_split m b E) as (l1 & l2 & -> & <-).
  exists l1, before, after, l2. auto.
Qed.
Lemma write_one m p pre v post w : replaced m p (pre ++ v :: post) (pre ++ v :: post) m -> p <> None ->
  exists m', write m p (Z.of_nat (length pre)) w = Val m' /\ replaced m p (pre ++ v :: post) (pre ++ w :: post) m'.
Proof.
  destruct p as [[b offset]|]; [|congruence]. intros (l1 & before & after & l2 & E & -> & -> & _) _.
  eexists. split; [|exists l1, before, after, l2; repeat split; exact E].
  unfold write. rewrite E, nth_error_app2, Nat.sub_diag by lia. cbn [nth_error]. rewrite !app_length. cbn [length].
  rewrite (proj2 (Z.leb_le _ _)), (proj2 (Z.ltb_lt _ _)) by (cbn [length]; lia). cbn [andb assume].
  assert (Ef : forall X (u w : list X), firstn (length u) (u ++ w) = u) by (intros X u w'; rewrite firstn_app, Nat.sub_diag, firstn_all; cbn [firstn]; apply app_nil_r).
  assert (Es : forall X (u w : list X) x, skipn (S (length u)) (u ++ x :: w) = w).
  { intros X u w' x. rewrite skipn_app, (skipn_all2 u) by lia. replace (S (length u) - length u)%nat with 1%nat by lia. reflexivity. }
  assert (Eb : forall x, before ++ (pre ++ x :: post) ++ after = (before ++ pre) ++ x :: (post ++ after)) by (intro x; rewrite <- !app_assoc; reflexivity).
  rewrite !Eb. replace (Z.to_nat (Z.of_nat (length before) + Z.of_nat (length pre))) with (length (before ++ pre)) by (rewrite app_length; lia).
  rewrite !Ef, !Es. reflexivity.
Qed.
Lemma replaced_self m p a b m' : replaced m p a b m' -> p <> None -> replaced m' p b b m'.
Proof. destruct p as [[x o]|]; [|congruence]. intros (l1 & be & af & l2 & E & E1 & E2 & ->) _. exists l1, be, af, l2. auto. Qed.
Lemma replaced_trans m p a b c m1 m2 : length a = length b -> replaced m p a b m1 -> replaced m1 p b c m2 -> p <> None -> replaced m p a c m2.
Proof.
  destruct p as [[x o]|]; [|congruence]. intros L (l1 & be & af & l2 & -> & -> & -> & ->) (l1' & be' & af' & l2' & E & E1 & E2 & ->) _.
  assert (l1 = l1' /\ be = be' /\ af = af' /\ l2 = l2') as (<- & <- & <- & <-).
  { assert (A : forall (X : Type) (u u' v v' : list X), length u = length u' -> u ++ v = u' ++ v' -> u = u' /\ v = v').
    { induction u as [|h u IH]; intros [|h' u'] v v' Hl He; try discriminate; [auto|]. cbn in Hl, He. injection He as -> He. injection Hl as Hl.
      destruct (IH _ _ _ Hl He) as [-> ->]. auto. }
    apply A in E; [|exact E1]. destruct E as [-> E]. injection E as E ->. apply A in E; [|lia]. destruct E as [-> E]. apply A in E; [|reflexivity]. destruct E. auto. }
  exists l1, be, af, l2. auto.
Qed.
Lemma write_all_spec p : p <> None -> forall new old pre m, length old = length new -> replaced m p (pre ++ old) (pre ++ old) m ->
  exists m', write_all m p (Z.of_nat (length pre)) new = Val m' /\ replaced m p (pre ++ old) (pre ++ new) m'.
Proof.
  intro Hp. induction new as [|w new IH]; intros [|v old] pre m L H; try discriminate; [exists m; auto|].
  destruct (write_one m p pre v old w H Hp) as (m1 & E1 & H1). cbn [write_all]. rewrite E1. cbn [bind].
  destruct (IH old (pre ++ [w]) m1) as (m2 & E2 & H2); [now injection L|rewrite <- app_assoc; exact (replaced_self _ _ _ _ _ H1 Hp)|].
  exists m2. split.
  - rewrite <- E2. f_equal. rewrite app_length. cbn. lia.
  - rewrite <- !app_assoc in H2. cbn [app] in H2. apply (replaced_trans m p _ (pre ++ w :: old) _ m1 m2); [rewrite !app_length; reflexivity|exact H1|exact H2|exact Hp].
Qed.
Lemma replaced_sub m p pre x post x' m' q : q = option_map (fun '(b, offset) => (b, offset + Z.of_nat (length pre))) p -> p <> None ->
  holds m p (pre ++ x ++ post) -> replaced m q x x' m' -> replaced m p (pre ++ x ++ post) (pre ++ x' ++ post) m'.
Proof.
  destruct p as [[b offset]|]; [|congruence]. cbn [option_map]. intros -> _ H (l1 & be & af & l2 & E & Eb & Eo & ->).
  destruct H as (before & after & Em & ->). rewrite E, Eb, nth_error_app2, Nat.sub_diag in Em by lia. cbn in Em. injection Em as Em.
  assert (A : forall (X : Type) (u u' v v' : list X), length u = length u' -> u ++ v = u' ++ v' -> u = u' /\ v = v').
  { induction u as [|h u IH]; intros [|h' u'] v v' Hl He; try discriminate; [auto|]. cbn in Hl, He. injection He as -> He. injection Hl as Hl.
    destruct (IH _ _ _ Hl He) as [-> ->]. auto. }
  rewrite <- !app_assoc in Em. rewrite (app_assoc before pre) in Em. apply A in Em; [|rewrite app_length; lia]. destruct Em as [-> Em].
  apply A in Em; [|reflexivity]. destruct Em as [_ ->].
  exists l1, before, after, l2. rewrite E, <- !app_assoc. auto.
Qed.

(** ** Elements *)

Lemma concat_length s (xs : list (list Z)) : Forall (fun x => Z.of_nat (length x) = s) xs -> Z.of_nat (length (concat xs)) = s * Z.of_nat (length xs).
Proof. induction 1 as [|x xs Hx H IH]; cbn [concat length]; [lia|]. rewrite app_length. lia. Qed.
Lemma concat_split (xs : list (list Z)) i x : nth_error xs i = Some x -> concat xs = concat (firstn i xs) ++ x ++ concat (skipn (S i) xs) /\
  xs = firstn i xs ++ x :: skipn (S i) xs /\ length (firstn i xs) = i.
Proof.
  intro H. destruct (nth_error_split xs i H) as (l1 & l2 & E & Hl). 
  assert (firstn i xs = l1 /\ skipn (S i) xs = l2) as [-> ->].
  { rewrite E, <- Hl. rewrite firstn_app, Nat.sub_diag, firstn_all, skipn_app, skipn_all2 by lia. cbn [firstn]. rewrite app_nil_r.
    replace (S (length l1) - length l1)%nat with 1%nat by lia. auto. }
  rewrite E, concat_app. auto.
Qed.
Lemma Forall_firstn {X} (P : X -> Prop) n xs : Forall P xs -> Forall P (firstn n xs).
Proof. intro H. rewrite <- (firstn_skipn n xs) in H. apply Forall_app in H. tauto. Qed.
Lemma elements_at s m p xs i x : elements s m p xs -> nth_error xs i = Some x ->
  exists q, advance m p (Z.of_nat i * s) = Val q /\ holds m q x /\ q = element_at s p i /\ p <> None /\ Z.of_nat (length x) = s /\
    q = option_map (fun '(b, offset) => (b, offset + Z.of_nat (length (concat (firstn i xs))))) p /\ q <> None.
Proof.
  intros (Hs & Hf & H) Hi. destruct (concat_split xs i x Hi) as (E & _ & Hl).
  assert (Hx : Z.of_nat (length x) = s) by (rewrite Forall_forall in Hf; apply Hf; eapply nth_error_In; eassumption).
  assert (Hp : p <> None). { intros ->. cbn in H. rewrite H in E. symmetry in E. apply app_eq_nil in E. destruct E as [_ E]. apply app_eq_nil in E. destruct E as [-> _]. cbn in Hx. lia. }
  rewrite E in H. destruct (holds_middle m p _ _ _ H Hp) as (q & Eq & Hq & Q).
  rewrite (concat_length s) in Eq by (apply Forall_firstn; exact Hf). rewrite Hl in Eq.
  exists q. split; [rewrite Z.mul_comm; exact Eq|]. split; [exact Hq|]. split; [|split; [exact Hp|split; [exact Hx|split; [exact Q|]]]].
  - rewrite Q. unfold element_at. rewrite (concat_length s) by (apply Forall_firstn; exact Hf). rewrite Hl. reflexivity.
  - rewrite Q. destruct p as [[b o]|]; [discriminate|congruence].
Qed.
Lemma load_spec s m p xs i x : elements s m p xs -> nth_error xs i = Some x -> load s m p (Z.of_nat i) = Val x.
Proof.
  intros H Hi. destruct (elements_at s m p xs i x H Hi) as (q & E & Hq & _ & _ & Hx & _). unfold load. rewrite E. cbn [bind].
  rewrite <- Hx, Nat2Z.id. apply read_all_spec. intros k c Hk. apply (holds_read m q x); assumption.
Qed.
Lemma store_spec s m p xs i x x' : elements s m p xs -> nth_error xs i = Some x -> Z.of_nat (length x') = s ->
  exists m', store s m p (Z.of_nat i) x' = Val m' /\ replaced m p (concat xs) (concat (firstn i xs ++ x' :: skipn (S i) xs)) m'.
Proof.
  intros H Hi Hx'. destruct (elements_at s m p xs i x H Hi) as (q & E & Hq & _ & Hp & Hx & Q & Hqn). unfold store. rewrite E. cbn [bind].
  destruct (write_all_spec q Hqn x' x [] m) as (m' & E' & H'); [lia|apply holds_replaced; assumption|]. cbn [length Z.of_nat app] in *.
  exists m'. split; [exact E'|]. destruct (concat_split xs i x Hi) as (Ec & _ & _). rewrite concat_app. cbn [concat]. rewrite Ec.
  apply (replaced_sub m p _ _ _ _ m' q Q Hp); [rewrite <- Ec; apply H|exact H'].
Qed.
Lemma replaced_holds m p a b m' : replaced m p a b m' -> p <> None -> holds m' p b.
Proof.
  destruct p as [[x o]|]; [|congruence]. intros (l1 & be & af & l2 & _ & -> & -> & ->) _. exists be, af. rewrite nth_error_app2, Nat.sub_diag by lia. auto.
Qed.
Lemma concat_singles {X} (l : list X) : concat (map (fun b => [b]) l) = l.
Proof. induction l; cbn; congruence. Qed.
Lemma elements_bytes s m p xs : elements s m p xs -> elements 1 m p (map (fun b => [b]) (concat xs)).
Proof. intros (Hs & Hf & H). split; [lia|]. split; [|rewrite concat_singles; exact H]. apply Forall_map, Forall_forall. reflexivity. Qed.
Lemma nth_concat s : forall (xs : list (list Z)) i j x v, Forall (fun x => Z.of_nat (length x) = s) xs -> nth_error xs i = Some x -> nth_error x j = Some v ->
  nth_error (concat xs) (Z.to_nat (Z.of_nat i * s + Z.of_nat j)) = Some v.
Proof.
  intros xs i j x v Hf Hi Hj. destruct (concat_split xs i x Hi) as (-> & _ & Hl).
  pose proof (concat_length s _ (Forall_firstn _ i xs Hf)) as L. rewrite Hl in L.
  assert (Hjl : (j < length x)%nat) by (apply nth_error_Some; congruence).
  rewrite nth_error_app2 by lia. replace (Z.to_nat (Z.of_nat i * s + Z.of_nat j) - length (concat (firstn i xs)))%nat with j by lia.
  rewrite nth_error_app1 by exact Hjl. exact Hj.
Qed.
Lemma max_bytes s n : 0 < s -> n <= max_count s -> n * s <= max_count 1.
Proof. intros Hs Hn. unfold max_count in *. rewrite Z.div_1_r. pose proof (Z.mul_div_le (2 ^ 52 - 1) s Hs). nia. Qed.
