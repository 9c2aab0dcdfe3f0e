(** * Proofs about zip and concatenate_view *)

From Coq Require Import List ZArith Bool Lia.
From Verif Require Import Range SpecRange Views RangeProofs ViewProofs.
Import ListNotations.
Local Open Scope nat_scope.

(** ** Rows *)
Fixpoint least {A} (xss : list (list A)) : nat :=
  match xss with [] => 0 | [xs] => length xs | xs :: xss => Nat.min (length xs) (least xss) end.
Lemma rows_length {A} (xss : list (list A)) : length (rows xss) = least xss.
Proof.
  induction xss as [|xs [|ys xss] IH]; [reflexivity|cbn; apply map_length|].
  change (length (map (fun p => fst p :: snd p) (combine xs (rows (ys :: xss)))) = Nat.min (length xs) (least (ys :: xss))).
  now rewrite map_length, combine_length, IH.
Qed.
Lemma combine_nth_error {X Y} (xs : list X) (ys : list Y) i x y : nth_error xs i = Some x -> nth_error ys i = Some y ->
  nth_error (combine xs ys) i = Some (x, y).
Proof. revert ys i. induction xs as [|a xs IH]; intros [|b ys] [|i] Hx Hy; cbn in *; try discriminate; [congruence|now apply IH]. Qed.
Lemma rows_nth {A} (xss : list (list A)) i : i < length (rows xss) -> exists row, nth_error (rows xss) i = Some row /\ row_of xss i row.
Proof.
  induction xss as [|xs [|ys xss] IH]; intros Hi.
  - cbn in Hi. lia.
  - cbn in *. rewrite map_length in Hi. destruct (nth_error_below _ _ Hi) as [x Hx]. exists [x]. split; [now rewrite nth_error_map, Hx|].
    now repeat constructor.
  - change (rows (xs :: ys :: xss)) with (map (fun p => fst p :: snd p) (combine xs (rows (ys :: xss)))) in *.
    rewrite map_length, combine_length in Hi. destruct (IH ltac:(lia)) as (row & Hrow & Hof).
    destruct (nth_error_below xs i ltac:(lia)) as [x Hx]. exists (x :: row).
    rewrite nth_error_map, (combine_nth_error _ _ _ _ _ Hx Hrow). split; [reflexivity|]. now constructor.
Qed.
Lemma rows_row {A} (xss : list (list A)) i row : nth_error (rows xss) i = Some row -> row_of xss i row.
Proof.
  intros Hr. destruct (rows_nth xss i (nth_error_in_length _ _ _ Hr)) as (row' & Hr' & Hof). congruence.
Qed.
Lemma least_le {A} (xss : list (list A)) : Forall (fun xs => least xss <= length xs) xss.
Proof.
  induction xss as [|xs [|ys xss] IH]; constructor.
  - cbn. lia.
  - constructor.
  - change (least (xs :: ys :: xss)) with (Nat.min (length xs) (least (ys :: xss))). lia.
  - change (least (xs :: ys :: xss)) with (Nat.min (length xs) (least (ys :: xss))). revert IH. apply Forall_impl. intros zs. lia.
Qed.
Lemma least_hit {A} (xss : list (list A)) : xss <> [] -> Exists (fun xs => length xs = least xss) xss.
Proof.
  induction xss as [|xs [|ys xss] IH]; intros Hn; [easy|now constructor|].
  change (least (xs :: ys :: xss)) with (Nat.min (length xs) (least (ys :: xss))).
  destruct (Nat.le_gt_cases (length xs) (least (ys :: xss))) as [Hle|Hgt]; [constructor; lia|].
  apply Exists_cons_tl. rewrite Nat.min_r by lia. now apply IH.
Qed.
Lemma least_same {A} (xss : list (list A)) n : xss <> [] -> Forall (fun xs => length xs = n) xss -> least xss = n.
Proof.
  intros Hn Hf. pose proof (least_hit xss Hn) as He. apply Exists_exists in He. destruct He as (xs & Hin & Hl).
  rewrite Forall_forall in Hf. rewrite <- (Hf _ Hin). lia.
Qed.

(** ** Several ranges at once *)
Section Several.
Context {I A : Type}.
Inductive every : list (range I A) -> list (nat -> I) -> list (list A) -> Prop :=
| every_nil : every [] [] []
| every_cons r rs it its xs xss : lists_at r it xs -> every rs its xss -> every (r :: rs) (it :: its) (xs :: xss).
Lemma every_of rs xss : Forall2 lists rs xss -> exists its, every rs its xss.
Proof.
  induction 1 as [|r xs rs xss [it Hit] _ [its Hits]]; [exists []; constructor|]. exists (it :: its). now constructor.
Qed.
Local Notation all_at its i := (map (fun it : nat -> I => it i) its).

Lemma each_first rs its xss : every rs its xss -> each first rs = Val (all_at its 0).
Proof. induction 1 as [|r rs it its xs xss Hit _ IH]; cbn; [reflexivity|]. now rewrite (l_first _ _ _ Hit), IH. Qed.
Lemma zipped_get rs its xss i row : every rs its xss -> row_of xss i row -> zipped get rs (all_at its i) = Val row.
Proof.
  intros H. revert row. unfold zipped. induction H as [|r rs it its xs xss Hit _ IH]; intros row Hr; inversion Hr; subst; cbn; [reflexivity|].
  rewrite (l_get _ _ _ Hit) with (x := y) by auto. cbn. rewrite (IH l'); auto.
Qed.
Lemma zipped_next rs its xss i : every rs its xss -> Forall (fun xs => i < length xs) xss -> zipped next rs (all_at its i) = Val (all_at its (S i)).
Proof.
  intros H. unfold zipped. induction H as [|r rs it its xs xss Hit _ IH]; intros Hf; inversion Hf; subst; cbn; [reflexivity|].
  rewrite (l_next _ _ _ Hit) by auto. cbn. rewrite IH; auto.
Qed.
Lemma zipped_prev rs its xss i fs : every rs its xss -> Forall (fun xs => i < length xs) xss -> all_have prev rs = Some fs ->
  zipped (fun r it => match prev r with Some f => f it | None => Undefined end) rs (all_at its (S i)) = Val (all_at its i).
Proof.
  intros H. unfold zipped. revert fs. induction H as [|r rs it its xs xss Hit _ IH]; intros fs Hf Hfs; inversion Hf; subst; cbn; [reflexivity|].
  pose proof (l_prev _ _ _ Hit) as Hp. cbn in Hfs. destruct (prev r) as [f|]; [|discriminate]. destruct (all_have prev rs) as [fs'|]; [|discriminate].
  cbn in Hp. rewrite Hp by auto. cbn. erewrite IH; eauto.
Qed.
Lemma zipped_plus rs its xss i d fs : every rs its xss -> Forall (fun xs => i <= length xs /\ (0 <= Z.of_nat i + d <= Z.of_nat (length xs))%Z) xss ->
  forallb backward rs = true \/ (0 <= d)%Z -> all_have plus rs = Some fs ->
  zipped (fun r it => match plus r with Some f => f it d | None => Undefined end) rs (all_at its i) = Val (all_at its (Z.to_nat (Z.of_nat i + d))).
Proof.
  intros H. unfold zipped. revert fs. induction H as [|r rs it its xs xss Hit _ IH]; intros fs Hf Hb Hfs; inversion Hf; subst; cbn -[Z.of_nat]; [reflexivity|].
  pose proof (l_plus _ _ _ Hit) as Hp. cbn in Hfs. destruct (plus r) as [f|]; [|discriminate]. destruct (all_have plus rs) as [fs'|]; [|discriminate].
  cbn -[Z.of_nat] in Hp. assert (backward r = true \/ (0 <= d)%Z) as Hb1 by (destruct Hb as [Hb|Hb]; [left|right; auto]; cbn in Hb; now apply andb_prop in Hb).
  assert (forallb backward rs = true \/ (0 <= d)%Z) as Hb2 by (destruct Hb as [Hb|Hb]; [left|right; auto]; cbn in Hb; now apply andb_prop in Hb).
  rewrite Hp by (auto; lia). cbn -[Z.of_nat]. erewrite IH; eauto.
Qed.
Lemma tuple_equal_at rs its xss i j fs : every rs its xss -> Forall (fun xs => i <= length xs /\ j <= length xs) xss -> rs <> [] ->
  all_have same rs = Some fs -> tuple_equal fs (all_at its i) (all_at its j) = Val (i =? j).
Proof.
  intros H. revert fs. induction H as [|r rs it its xs xss Hit Hev IH]; intros fs Hf Hn Hfs; [easy|]. inversion Hf; subst.
  pose proof (l_same _ _ _ Hit) as Hp. cbn in Hfs. destruct (same r) as [f|]; [|discriminate]. destruct (all_have same rs) as [fs'|]; [|discriminate].
  injection Hfs as <-. cbn in *. rewrite Hp by apply H1. cbn. destruct (Nat.eqb_spec i j) as [->|Hij]; [|reflexivity].
  destruct rs as [|r' rs].
  - inversion Hev; subst. destruct fs'; reflexivity.
  - rewrite IH by (auto; easy). rewrite ?Nat.eqb_refl; reflexivity.
Qed.
Lemma tuple_compare_at rs its xss i j fs : every rs its xss -> Forall (fun xs => i <= length xs /\ j <= length xs) xss -> rs <> [] ->
  all_have order rs = Some fs -> tuple_compare fs (all_at its i) (all_at its j) = Val (Nat.compare i j).
Proof.
  intros H. revert fs. induction H as [|r rs it its xs xss Hit Hev IH]; intros fs Hf Hn Hfs; [easy|]. inversion Hf; subst.
  pose proof (l_order _ _ _ Hit) as Hp. cbn in Hfs. destruct (order r) as [f|]; [|discriminate]. destruct (all_have order rs) as [fs'|]; [|discriminate].
  injection Hfs as <-. cbn in *. rewrite Hp by apply H1. cbn. destruct (Nat.compare_spec i j) as [->|Hij|Hij]; [|reflexivity|reflexivity].
  destruct rs as [|r' rs].
  - inversion Hev; subst. destruct fs'; reflexivity.
  - rewrite IH by (auto; easy). rewrite ?Nat.compare_refl; reflexivity.
Qed.
Lemma all_stop rs its xss i : every rs its xss -> Forall (fun xs => i <= length xs) xss ->
  all_of (fun rx => stop (fst rx) (snd rx)) (combine rs (all_at its i)) = Val (forallb (fun xs => i =? length xs) xss).
Proof.
  induction 1 as [|r rs it its xs xss Hit _ IH]; intros Hf; inversion Hf; subst; cbn; [reflexivity|].
  rewrite (l_stop _ _ _ Hit) by auto. cbn. destruct (i =? length xs); cbn; auto.
Qed.
Lemma none_stop rs its xss i : every rs its xss -> Forall (fun xs => i <= length xs) xss ->
  all_of (fun rx => negated (stop (fst rx) (snd rx))) (combine rs (all_at its i)) = Val (forallb (fun xs => negb (i =? length xs)) xss).
Proof.
  induction 1 as [|r rs it its xs xss Hit _ IH]; intros Hf; inversion Hf; subst; cbn; [reflexivity|]. unfold negated in *.
  rewrite (l_stop _ _ _ Hit) by auto. cbn. destruct (i =? length xs); cbn; auto.
Qed.
Lemma any_stop rs its xss i : every rs its xss -> Forall (fun xs => i <= length xs) xss ->
  any_of (fun rx => stop (fst rx) (snd rx)) (combine rs (all_at its i)) = Val (existsb (fun xs => i =? length xs) xss).
Proof.
  induction 1 as [|r rs it its xs xss Hit _ IH]; intros Hf; inversion Hf; subst; cbn; [reflexivity|].
  rewrite (l_stop _ _ _ Hit) by auto. cbn. destruct (i =? length xs); cbn; auto.
Qed.
Lemma each_last rs its xss n ls : every rs its xss -> Forall (fun xs => length xs = n) xss -> all_have last rs = Some ls ->
  each (fun r => match last r with Some e => e | None => Undefined end) rs = Val (all_at its n).
Proof.
  intros H. revert ls. induction H as [|r rs it its xs xss Hit _ IH]; intros ls Hf Hls; inversion Hf; subst; cbn; [reflexivity|].
  pose proof (l_last _ _ _ Hit) as Hp. cbn in Hls. destruct (last r) as [e|]; [|discriminate]. destruct (all_have last rs) as [ls'|]; [|discriminate].
  cbn in Hp. subst e. cbn. erewrite IH; eauto.
Qed.
Lemma fold_min_le (rs : list (range I A)) m n : (n <= m)%Z -> Forall (fun r => n <= reach r)%Z rs -> (n <= fold_left (fun m r => Z.min m (reach r)) rs m)%Z.
Proof.
  revert m. induction rs as [|r rs IH]; intros m Hm Hf; cbn; [auto|]. inversion Hf; subst. apply IH; auto. lia.
Qed.
Lemma min_reach_le rs its xss n : every rs its xss -> xss <> [] -> Forall (fun xs => n <= length xs) xss -> (Z.of_nat n <= min_reach rs)%Z.
Proof.
  intros H Hn Hf. assert (Forall (fun r : range I A => Z.of_nat n <= reach r)%Z rs) as Hr.
  { clear Hn. induction H as [|r rs it its xs xss Hit _ IH]; inversion Hf; subst; constructor; auto. pose proof (l_reach _ _ _ Hit). lia. }
  destruct rs as [|r rs]; [inversion H; now subst|]. inversion Hr; subst. apply fold_min_le; auto.
Qed.
Lemma sizes_at rs its xss ss : every rs its xss -> sizes rs = Some ss -> ss = Val (map (fun xs => Z.of_nat (length xs)) xss).
Proof.
  unfold sizes. intros H. destruct (all_have size rs) as [es|] eqn:E; [|discriminate]. cbn. intros Hs. injection Hs as <-.
  revert es E. induction H as [|r rs it its xs xss Hit _ IH]; intros es E; cbn -[Z.of_nat] in E; [now injection E as <-|].
  pose proof (l_size _ _ _ Hit) as Hp. destruct (size r) as [s|]; [|discriminate]. destruct (all_have size rs) as [es'|]; [|discriminate].
  injection E as <-. cbn -[Z.of_nat] in *. subst s. cbn -[Z.of_nat]. now rewrite (IH es').
Qed.
Lemma every_nonempty rs its xss : every rs its xss -> xss <> [] -> rs <> [].
Proof. intros [] Hn; easy. Qed.

Definition ends_at (e : zip_end) (xss : list (list A)) : Prop :=
  match e with Smallest => True | _ => Forall (fun xs => length xs = least xss) xss end.
Lemma zip_view_lists_at e s rs its xss : every rs its xss -> xss <> [] -> ends_at e xss ->
  if_any s (fun s => s = Val (Z.of_nat (length (rows xss)))) -> lists_at (zip_view e s rs) (fun i => all_at its i) (rows xss).
Proof.
  intros H Hn He Hs. pose proof (least_le xss) as Hle. pose proof (least_hit xss Hn) as Hhit. pose proof (every_nonempty _ _ _ H Hn) as Hrs.
  assert (forall i, i <= least xss -> Forall (fun xs => i <= length xs) xss) as Hup by (intros i Hi; revert Hle; apply Forall_impl; intros; lia).
  assert (forall i j, i <= least xss -> j <= least xss -> Forall (fun xs => i <= length xs /\ j <= length xs) xss) as Hup2
    by (intros i j Hi Hj; revert Hle; apply Forall_impl; intros; lia).
  assert (forall i, i < least xss -> Forall (fun xs => i < length xs) xss) as Hup3 by (intros i Hi; revert Hle; apply Forall_impl; intros; lia).
  assert (forall i, i <= least xss -> ends_at All_sized xss -> forallb (fun xs => i =? length xs) xss = (i =? least xss)) as Hall.
  { intros i Hi Hsame. cbn in Hsame. destruct (Nat.eqb_spec i (least xss)) as [->|Hne].
    - apply forallb_forall. intros xs Hin. rewrite Forall_forall in Hsame. apply Nat.eqb_eq. now rewrite Hsame.
    - apply Exists_exists in Hhit. destruct Hhit as (xs & Hin & Hl). destruct (forallb _ xss) eqn:E; [|reflexivity].
      rewrite forallb_forall in E. specialize (E _ Hin). apply Nat.eqb_eq in E. lia. }
  constructor; cbn -[Z.of_nat zip_stop rows]; rewrite ?rows_length; auto.
  - now apply (each_first _ _ xss).
  - intros i Hi. destruct e; unfold zip_stop.
    + rewrite (all_stop _ _ xss) by auto. now rewrite Hall.
    + rewrite (none_stop _ _ xss) by auto. cbn. destruct (forallb (fun xs => negb (i =? length xs)) xss) eqn:E.
      * f_equal. symmetry. apply Nat.eqb_neq. intros ->. apply Exists_exists in Hhit. destruct Hhit as (xs & Hin & Hl).
        rewrite forallb_forall in E. specialize (E _ Hin). rewrite Hl, Nat.eqb_refl in E. discriminate.
      * rewrite (all_stop _ _ xss) by auto. cbn. rewrite Hall by auto. destruct (Nat.eqb_spec i (least xss)) as [->|Hne]; [reflexivity|].
        exfalso. assert (forallb (fun xs => negb (i =? length xs)) xss = true); [|congruence]. apply forallb_forall. intros xs Hin.
        rewrite Forall_forall in Hle. specialize (Hle _ Hin). destruct (Nat.eqb_spec i (length xs)); [lia|reflexivity].
    + rewrite (any_stop _ _ xss) by auto. f_equal. destruct (Nat.eqb_spec i (least xss)) as [->|Hne].
      * apply existsb_exists. apply Exists_exists in Hhit. destruct Hhit as (xs & Hin & Hl). exists xs. split; [auto|]. now apply Nat.eqb_eq.
      * destruct (existsb _ xss) eqn:E; [|reflexivity]. apply existsb_exists in E. destruct E as (xs & Hin & E). apply Nat.eqb_eq in E.
        rewrite Forall_forall in Hle. specialize (Hle _ Hin). lia.
  - intros i row Hrow. apply (zipped_get _ _ xss); auto. now apply rows_row.
  - intros i Hi. destruct rs as [|r rs]; [easy|]. apply (zipped_next _ _ xss); auto.
  - destruct (all_have same rs) as [fs|] eqn:E; [|exact Logic.I]. cbn. intros i j Hi Hj. eapply tuple_equal_at; eauto.
  - destruct e; [|exact Logic.I|exact Logic.I]. destruct (all_have last rs) as [ls|] eqn:E; [|exact Logic.I]. cbn. eapply each_last; eauto.
  - destruct (all_have prev rs) as [fs|] eqn:E; [|exact Logic.I]. cbn. intros i Hi. eapply zipped_prev; eauto.
  - destruct (all_have plus rs) as [fs|] eqn:E; [|exact Logic.I]. cbn -[Z.of_nat]. intros i d Hi Hd Hb. eapply zipped_plus; eauto.
    revert Hle. apply Forall_impl. intros; lia.
  - destruct (all_have order rs) as [fs|] eqn:E; [|exact Logic.I]. cbn. intros i j Hi Hj. eapply tuple_compare_at; eauto.
  - eapply min_reach_le; eauto.
  - now rewrite rows_length in Hs.
Qed.
Lemma zip_view_nothing : lists (@zip_view I A All_sized (Some (Val 0%Z)) []) [].
Proof.
  exists (fun _ => []). constructor; cbn; auto; try lia.
  - intros i Hi. now replace i with 0 by lia.
  - intros [|i]; discriminate.
  - intros i j Hi Hj. replace i with 0 by lia. now replace j with 0 by lia.
  - intros i j Hi Hj. replace i with 0 by lia. now replace j with 0 by lia.
Qed.

Lemma zip_lists (rs : list (range I A)) xss n : Forall2 lists rs xss -> Forall (fun xs => length xs = n) xss -> exists z, zip rs = Val z /\ lists z (rows xss).
Proof.
  intros H Hf. destruct (every_of _ _ H) as [its Hits]. destruct xss as [|xs xss].
  - inversion H; subst. eexists. split; [reflexivity|]. apply zip_view_nothing.
  - assert (Forall (fun ys => length ys = least (xs :: xss)) (xs :: xss)) as Hl by (rewrite (least_same _ n) by easy; exact Hf).
    unfold zip. destruct (sizes rs) as [ss|] eqn:E.
    + rewrite (sizes_at _ _ _ _ Hits E). cbn -[Z.of_nat zip_view rows].
      inversion Hf; subst. assert (forallb (Z.eqb (Z.of_nat (length xs))) (map (fun ys => Z.of_nat (length ys)) xss) = true) as ->.
      { apply forallb_forall. intros z Hz. apply in_map_iff in Hz. destruct Hz as (ys & <- & Hin). rewrite Forall_forall in H3. rewrite (H3 _ Hin). apply Z.eqb_refl. }
      eexists. split; [reflexivity|]. eexists. apply zip_view_lists_at with (its := its); auto; [easy|]. cbn -[Z.of_nat rows]. do 2 f_equal.
      rewrite rows_length. symmetry. now apply least_same.
    + eexists. split; [reflexivity|]. eexists. apply zip_view_lists_at with (its := its); [exact Hits|easy|exact Hl|exact Logic.I].
Qed.
(** Different lengths. *)
Lemma zip_sized_throws (rs : list (range I A)) xss : Forall2 lists rs xss -> sizes rs <> None -> ~ (exists n, Forall (fun xs => length xs = n) xss) -> zip rs = Thrown.
Proof.
  intros H Hs Hf. destruct (every_of _ _ H) as [its Hits]. unfold zip. destruct (sizes rs) as [ss|] eqn:E; [|easy].
  rewrite (sizes_at _ _ _ _ Hits E). cbn -[Z.of_nat zip_view]. destruct (all_are_equal _) eqn:Ea; [|reflexivity]. exfalso. apply Hf.
  destruct xss as [|xs xss]; [exists 0; constructor|]. exists (length xs). constructor; [reflexivity|]. cbn -[Z.of_nat] in Ea. rewrite forallb_forall in Ea.
  apply Forall_forall. intros ys Hin. specialize (Ea (Z.of_nat (length ys))). rewrite in_map_iff in Ea. specialize (Ea ltac:(eauto)). apply Z.eqb_eq in Ea. lia.
Qed.
Lemma walk_zip rs its xss : every rs its xss -> xss <> [] -> forall n k, k + n = least xss ->
  walk_from n (zip_view Checked None rs) (all_at its k) = Val (firstn n (skipn k (rows xss)), all_at its (k + n)).
Proof.
  intros H Hn. pose proof (least_le xss) as Hle. induction n as [|n IH]; intros k Hk; [cbn; now rewrite Nat.add_0_r|].
  cbn -[zip_view firstn skipn rows]. cbn [zip_view stop get next].
  assert (Forall (fun xs => k < length xs) xss) as Hlt by (revert Hle; apply Forall_impl; intros; lia).
  unfold zip_stop. rewrite (none_stop _ _ xss) by (auto; revert Hlt; apply Forall_impl; intros; lia).
  assert (forallb (fun xs => negb (k =? length xs)) xss = true) as ->.
  { apply forallb_forall. intros xs Hin. rewrite Forall_forall in Hlt. specialize (Hlt _ Hin). destruct (Nat.eqb_spec k (length xs)); [lia|reflexivity]. }
  cbn -[zip_view firstn skipn rows]. destruct (rows_nth xss k) as (row & Hrow & Hof); [rewrite rows_length; lia|].
  rewrite (zipped_get _ _ xss _ row) by auto. cbn -[zip_view firstn skipn rows].
  replace (match rs with [] => fun _ => Undefined | _ :: _ => zipped next rs end) with (zipped next rs) by (destruct rs; [now destruct (every_nonempty _ _ _ H Hn)|reflexivity]).
  rewrite (zipped_next _ _ xss) by auto. cbn -[zip_view firstn skipn rows]. rewrite IH by lia. cbn -[zip_view firstn skipn rows].
  rewrite (skipn_nth _ _ _ Hrow). cbn [firstn]. rewrite Nat.add_succ_r. reflexivity.
Qed.
Lemma zip_unsized_throws (rs : list (range I A)) xss : Forall2 lists rs xss -> sizes rs = None -> ~ (exists n, Forall (fun xs => length xs = n) xss) ->
  exists z it, zip rs = Val z /\ walk (length (rows xss)) z = Val (rows xss, it) /\ stop z it = Thrown.
Proof.
  intros H Hs Hf. destruct (every_of _ _ H) as [its Hits]. unfold zip. rewrite Hs.
  assert (xss <> []) as Hn by (intros ->; apply Hf; exists 0; constructor).
  exists (zip_view Checked None rs), (all_at its (least xss)). split; [reflexivity|]. split.
  - unfold walk. cbn [first zip_view]. rewrite (each_first _ _ _ Hits). cbn -[walk_from zip_view rows]. rewrite rows_length.
    rewrite (walk_zip _ _ _ Hits) by auto. cbn [skipn]. rewrite <- rows_length, firstn_all. reflexivity.
  - cbn [zip_view stop zip_stop]. pose proof (least_le xss) as Hle. rewrite (none_stop _ _ xss) by auto. cbn.
    assert (forallb (fun xs => negb (least xss =? length xs)) xss = false) as ->.
    { destruct (forallb _ xss) eqn:E; [|reflexivity]. rewrite forallb_forall in E. pose proof (least_hit xss Hn) as Hh. apply Exists_exists in Hh.
      destruct Hh as (xs & Hin & Hl). specialize (E _ Hin). rewrite Hl, Nat.eqb_refl in E. discriminate. }
    rewrite (all_stop _ _ xss) by auto. cbn. destruct (forallb _ xss) eqn:E; [|reflexivity]. exfalso. apply Hf. exists (least xss).
    apply Forall_forall. intros xs Hin. rewrite forallb_forall in E. specialize (E _ Hin). apply Nat.eqb_eq in E. auto.
Qed.

Lemma zip_smallest_unsized_lists (rs : list (range I A)) xss : Forall2 lists rs xss -> rs <> [] -> lists (zip_smallest_unsized rs) (rows xss).
Proof.
  intros H Hn. destruct (every_of _ _ H) as [its Hits]. eexists. apply zip_view_lists_at with (its := its); cbn; auto. intros ->. inversion H. now subst.
Qed.

(** ** concatenate_view *)
Fixpoint joint (its : list (nat -> I)) (xss : list (list A)) (i : nat) : list I :=
  match its, xss with
  | it :: its, xs :: xss => it (Nat.min i (length xs)) :: joint its xss (i - length xs)
  | _, _ => []
  end.
Lemma concat_length (xss : list (list A)) : length (concat xss) = fold_right (fun xs n => length xs + n) 0 xss.
Proof. induction xss as [|xs xss IH]; cbn; [reflexivity|]. now rewrite app_length, IH. Qed.
Lemma joint_first rs its xss : every rs its xss -> each first rs = Val (joint its xss 0).
Proof. induction 1 as [|r rs it its xs xss Hit _ IH]; cbn; [reflexivity|]. now rewrite (l_first _ _ _ Hit), IH. Qed.
Lemma joint_end rs its xss i : every rs its xss -> i <= length (concat xss) ->
  all_of (fun rx => stop (fst rx) (snd rx)) (combine rs (joint its xss i)) = Val (i =? length (concat xss)).
Proof.
  intros H. revert i. induction H as [|r rs it its xs xss Hit _ IH]; intros i Hi; cbn in *; [now replace i with 0 by lia|].
  rewrite app_length in *. rewrite (l_stop _ _ _ Hit) by lia. cbn. destruct (Nat.eqb_spec (Nat.min i (length xs)) (length xs)) as [He|He].
  - rewrite IH by lia. f_equal. bools.
  - f_equal. symmetry. apply Nat.eqb_neq. lia.
Qed.
Lemma joint_get rs its xss i x : every rs its xss -> nth_error (concat xss) i = Some x -> concatenated_get rs (joint its xss i) = Val x.
Proof.
  intros H. revert i. induction H as [|r rs it its xs xss Hit Hev IH]; intros i Hx; cbn -[concatenated_get] in *; [now destruct i|].
  destruct (Nat.lt_ge_cases i (length xs)) as [Hlt|Hge].
  - rewrite nth_error_app1 in Hx by auto. rewrite Nat.min_l by lia.
    assert (get r (it i) = Val x) as Hg by now apply (l_get _ _ _ Hit).
    pose proof (l_stop _ _ _ Hit i ltac:(lia)) as Hst. destruct (Nat.eqb_spec i (length xs)); [lia|].
    destruct Hev; cbn; [exact Hg|]. now rewrite Hst.
  - rewrite nth_error_app2 in Hx by auto. rewrite Nat.min_r by lia.
    pose proof (l_stop _ _ _ Hit (length xs) ltac:(lia)) as Hst. rewrite Nat.eqb_refl in Hst.
    destruct Hev as [|r' rs it' its xs' xss Hit' Hev]; [destruct (i - length xs); discriminate|].
    specialize (IH _ Hx). cbn -[concatenated_get] in IH |- *. 
    change (concatenated_get (r :: r' :: rs) (it (length xs) :: it' (Nat.min (i - length xs) (length xs')) :: joint its xss (i - length xs - length xs')))
      with (let* e := stop r (it (length xs)) in if e then concatenated_get (r' :: rs) (it' (Nat.min (i - length xs) (length xs')) :: joint its xss (i - length xs - length xs')) else get r (it (length xs))).
    rewrite Hst. exact IH.
Qed.
Lemma joint_done rs its xss i : every rs its xss -> concatenated_next true rs (joint its xss i) = Val (joint its xss i).
Proof. intros H. revert i. induction H as [|r rs it its xs xss Hit _ IH]; intros i; cbn; [reflexivity|]. now rewrite IH. Qed.
Lemma joint_next rs its xss i : every rs its xss -> i < length (concat xss) -> concatenated_next false rs (joint its xss i) = Val (joint its xss (S i)).
Proof.
  intros H. revert i. induction H as [|r rs it its xs xss Hit Hev IH]; intros i Hi; cbn in Hi; [lia|]. rewrite app_length in Hi.
  cbn -[Nat.sub Nat.min]. rewrite (l_stop _ _ _ Hit) by lia. cbn -[Nat.sub Nat.min]. destruct (Nat.eqb_spec (Nat.min i (length xs)) (length xs)) as [He|He].
  - rewrite IH by lia. cbn -[Nat.sub Nat.min]. replace (Nat.min (S i) (length xs)) with (Nat.min i (length xs)) by lia. now replace (S i - length xs) with (S (i - length xs)) by lia.
  - rewrite (l_next _ _ _ Hit) by lia. cbn -[Nat.sub Nat.min]. rewrite (joint_done _ _ _ _ Hev). cbn -[Nat.sub Nat.min].
    replace (Nat.min (S i) (length xs)) with (S (Nat.min i (length xs))) by lia. now replace (S i - length xs) with (i - length xs) by lia.
Qed.
Lemma joint_same rs its xss fs i j : every rs its xss -> all_have same rs = Some fs -> i <= length (concat xss) -> j <= length (concat xss) ->
  tuple_equal fs (joint its xss i) (joint its xss j) = Val (i =? j).
Proof.
  intros H. revert fs i j. induction H as [|r rs it its xs xss Hit Hev IH]; intros fs i j Hfs Hi Hj; cbn in Hi, Hj, Hfs.
  - injection Hfs as <-. replace i with 0 by lia. now replace j with 0 by lia.
  - rewrite app_length in *. pose proof (l_same _ _ _ Hit) as Hp. destruct (same r) as [f|]; [|discriminate]. destruct (all_have same rs) as [fs'|]; [|discriminate].
    injection Hfs as <-. cbn in *. rewrite Hp by lia. cbn. rewrite (IH fs') by (auto; lia). bools; f_equal; bools.
Qed.
Lemma joint_order rs its xss fs i j : every rs its xss -> all_have order rs = Some fs -> i <= length (concat xss) -> j <= length (concat xss) ->
  tuple_compare fs (joint its xss i) (joint its xss j) = Val (Nat.compare i j).
Proof.
  intros H. revert fs i j. induction H as [|r rs it its xs xss Hit Hev IH]; intros fs i j Hfs Hi Hj; cbn in Hi, Hj, Hfs.
  - injection Hfs as <-. replace i with 0 by lia. now replace j with 0 by lia.
  - rewrite app_length in *. pose proof (l_order _ _ _ Hit) as Hp. destruct (order r) as [f|]; [|discriminate]. destruct (all_have order rs) as [fs'|]; [|discriminate].
    injection Hfs as <-. cbn in *. rewrite Hp by lia. cbn. rewrite (IH fs') by (auto; lia).
    destruct (Nat.compare_spec (Nat.min i (length xs)) (Nat.min j (length xs))); f_equal; destruct (Nat.compare_spec i j);
    try destruct (Nat.compare_spec (i - length xs) (j - length xs)); lia || reflexivity.
Qed.
Lemma joint_minus rs its xss fs i j : every rs its xss -> all_have minus rs = Some fs -> i <= length (concat xss) -> j <= length (concat xss) ->
  concatenated_minus rs (joint its xss i) (joint its xss j) = Val (Z.of_nat i - Z.of_nat j)%Z.
Proof.
  intros H. revert fs i j. induction H as [|r rs it its xs xss Hit Hev IH]; intros fs i j Hfs Hi Hj; cbn in Hi, Hj, Hfs.
  - replace i with 0 by lia. now replace j with 0 by lia.
  - rewrite app_length in *. pose proof (l_minus _ _ _ Hit) as Hp. cbn -[Z.of_nat Z.sub]. destruct (minus r) as [f|]; [|discriminate]. destruct (all_have minus rs) as [fs'|]; [|discriminate].
    cbn -[Z.of_nat Z.sub] in *. rewrite Hp by lia. cbn -[Z.of_nat Z.sub]. rewrite (IH fs') by (auto; lia). cbn -[Z.of_nat Z.sub]. f_equal. lia.
Qed.
Lemma joint_plus rs its xss ls ps ms i d : every rs its xss -> all_have last rs = Some ls -> all_have plus rs = Some ps -> all_have minus rs = Some ms ->
  (0 <= d)%Z -> (Z.of_nat i + d <= Z.of_nat (length (concat xss)))%Z ->
  concatenated_plus rs (joint its xss i) d = Val (joint its xss (Z.to_nat (Z.of_nat i + d))).
Proof.
  intros H. revert ls ps ms i d. induction H as [|r rs it its xs xss Hit Hev IH]; intros ls ps ms i d Hl Hp Hm Hd Hi; cbn in Hl, Hp, Hm; cbn -[Z.of_nat] in Hi; [reflexivity|].
  rewrite app_length in *. cbn -[Z.of_nat Z.sub]. unfold left_in.
  pose proof (l_minus _ _ _ Hit) as Lm. pose proof (l_plus _ _ _ Hit) as Lp. pose proof (l_last _ _ _ Hit) as Ll. pose proof (l_reach _ _ _ Hit) as Lr.
  destruct (last r) as [e|]; [|discriminate]. destruct (plus r) as [p|]; [|discriminate]. destruct (minus r) as [m|]; [|discriminate].
  destruct (all_have last rs) as [ls'|]; [|discriminate]. destruct (all_have plus rs) as [ps'|]; [|discriminate]. destruct (all_have minus rs) as [ms'|]; [|discriminate].
  cbn -[Z.of_nat Z.sub] in *. subst e. cbn -[Z.of_nat Z.sub]. rewrite Lm by lia. cbn -[Z.of_nat Z.sub]. unfold assume.
  replace ((0 <=? Z.of_nat (length xs) - Z.of_nat (Nat.min i (length xs))) && (Z.of_nat (length xs) - Z.of_nat (Nat.min i (length xs)) <=? reach r))%Z
    with true by (symmetry; apply andb_true_intro; split; apply Z.leb_le; lia).
  cbn -[Z.of_nat Z.sub]. rewrite Lp by lia. cbn -[Z.of_nat Z.sub]. rewrite (IH ls' ps' ms') by (auto; lia). cbn -[Z.of_nat Z.sub].
  do 2 f_equal; [f_equal; lia|]. f_equal. lia.
Qed.
Lemma reach_sum rs its xss : every rs its xss -> (Z.of_nat (length (concat xss)) <= fold_right Z.add 0 (map reach rs))%Z.
Proof.
  induction 1 as [|r rs it its xs xss Hit _ IH]; cbn -[Z.of_nat]; [lia|]. rewrite app_length. pose proof (l_reach _ _ _ Hit). lia.
Qed.
Lemma sum_sizes (xss : list (list A)) : fold_right Z.add 0%Z (map (fun xs => Z.of_nat (length xs)) xss) = Z.of_nat (length (concat xss)).
Proof. induction xss as [|xs xss IH]; [reflexivity|]. cbn -[Z.of_nat]. rewrite app_length, IH. lia. Qed.

Lemma concatenate_view_lists (rs : list (range I A)) xss : Forall2 lists rs xss -> lists (concatenate_view rs) (concat xss).
Proof.
  intros H. destruct (every_of _ _ H) as [its Hits]. exists (joint its xss).
  assert (forall ss, sizes rs = Some ss -> (let* ns := ss in Val (fold_right Z.add 0 ns))%Z = Val (Z.of_nat (length (concat xss)))) as Htotal.
  { intros ss E. rewrite (sizes_at _ _ _ _ Hits E). cbn -[Z.of_nat]. now rewrite sum_sizes. }
  set (total := match sizes rs with Some ss => Some (let* ns := ss in Val (fold_right Z.add 0 ns))%Z | None => None end).
  set (end_ := let* its := each first rs in let* n := match total with Some t => t | None => Undefined end in concatenated_plus rs its n).
  assert (forall ls ps ms ss, all_have last rs = Some ls -> all_have plus rs = Some ps -> all_have minus rs = Some ms -> all_have size rs = Some ss ->
    end_ = Val (joint its xss (length (concat xss)))) as Hend.
  { intros ls ps ms ss El Ep Em Es. unfold end_. rewrite (joint_first _ _ _ Hits). cbn -[concatenated_plus]. unfold total.
    assert (sizes rs = Some (each (fun x => x) ss)) as E by (unfold sizes; now rewrite Es). rewrite E, (Htotal _ E). cbn -[concatenated_plus Z.of_nat].
    erewrite joint_plus; eauto; try lia. do 2 f_equal. lia. }
  unfold concatenate_view. fold total. fold end_.
  constructor; cbn -[concatenated_get concatenated_next concatenated_plus Z.of_nat]; auto.
  - now apply joint_first.
  - intros i Hi. pose proof (joint_end _ _ _ i Hits Hi) as Hst.
    destruct (all_have same rs) as [fs|] eqn:Ea; [|exact Hst].
    destruct (all_have last rs) eqn:El; [|exact Hst]. destruct (all_have plus rs) eqn:Ep; [|exact Hst]. destruct (all_have minus rs) eqn:Em; [|exact Hst].
    destruct (all_have size rs) eqn:Es; [|exact Hst]. erewrite Hend by eauto. cbn. eapply joint_same; eauto.
  - intros i x Hx. now apply joint_get.
  - intros i Hi. now apply joint_next.
  - destruct (all_have same rs) as [fs|] eqn:Ea; [|exact Logic.I]. cbn. intros i j Hi Hj. eapply joint_same; eauto.
  - destruct (all_have last rs) eqn:El; [|exact Logic.I]. destruct (all_have plus rs) eqn:Ep; [|exact Logic.I]. destruct (all_have minus rs) eqn:Em; [|exact Logic.I].
    destruct (all_have same rs) eqn:Ea; [|exact Logic.I]. destruct (all_have size rs) eqn:Es; [|exact Logic.I]. cbn. eapply Hend; eauto.
  - destruct (all_have last rs) eqn:El; [|exact Logic.I]. destruct (all_have plus rs) eqn:Ep; [|exact Logic.I]. destruct (all_have minus rs) eqn:Em; [|exact Logic.I].
    destruct (all_have same rs) eqn:Ea; [|exact Logic.I]. destruct (all_have size rs) eqn:Es; [|exact Logic.I]. cbn -[concatenated_plus Z.of_nat].
    intros i d Hi Hd [Hb|Hb]; [discriminate|]. unfold assume. replace (0 <=? d)%Z with true by (symmetry; apply Z.leb_le; lia). eapply joint_plus; eauto. lia.
  - destruct (all_have minus rs) as [ms|] eqn:Em; [|exact Logic.I]. cbn -[Z.of_nat Z.sub]. intros i j Hi Hj. eapply joint_minus; eauto.
  - destruct (all_have order rs) as [fs|] eqn:Ea; [|exact Logic.I]. cbn. intros i j Hi Hj. eapply joint_order; eauto.
  - eapply reach_sum; eauto.
  - unfold total. destruct (sizes rs) as [ss|] eqn:E; [|exact Logic.I]. cbn -[Z.of_nat]. now apply Htotal.
Qed.
End Several.

Lemma fold_min_least {A} (xss : list (list A)) xs : fold_left Z.min (map (fun ys => Z.of_nat (length ys)) xss) (Z.of_nat (length xs)) = Z.of_nat (least (xs :: xss)).
Proof.
  revert xs. induction xss as [|ys xss IH]; intros xs; [reflexivity|]. cbn [map fold_left].
  change (least (xs :: ys :: xss)) with (Nat.min (length xs) (least (ys :: xss))).
  destruct (Nat.le_gt_cases (length xs) (length ys)) as [Hle|Hgt].
  - rewrite Z.min_l by lia. rewrite IH. destruct xss as [|zs xss]; cbn -[Z.of_nat least]; [cbn; f_equal; lia|].
    change (least (xs :: zs :: xss)) with (Nat.min (length xs) (least (zs :: xss))). change (least (ys :: zs :: xss)) with (Nat.min (length ys) (least (zs :: xss))). lia.
  - rewrite Z.min_r by lia. rewrite IH. destruct xss as [|zs xss]; cbn -[Z.of_nat least]; [cbn; f_equal; lia|].
    change (least (ys :: zs :: xss)) with (Nat.min (length ys) (least (zs :: xss))). lia.
Qed.
Lemma rows_cut {A} (xss : list (list A)) n : n = least xss -> rows (map (firstn n) xss) = rows xss.
Proof.
  assert (forall xss : list (list A), forall n, rows (map (firstn n) xss) = firstn n (rows xss)) as Hcut.
  { clear. induction xss as [|xs [|ys xss] IH]; intros n; [now rewrite firstn_nil|cbn; now rewrite firstn_map|].
    change (rows (map (firstn n) (xs :: ys :: xss))) with (map (fun p => fst p :: snd p) (combine (firstn n xs) (rows (map (firstn n) (ys :: xss))))).
    rewrite IH. change (rows (xs :: ys :: xss)) with (map (fun p => fst p :: snd p) (combine xs (rows (ys :: xss)))).
    rewrite firstn_map. f_equal. now rewrite combine_firstn. }
  intros ->. rewrite Hcut. rewrite <- rows_length. apply firstn_all.
Qed.
Lemma zip_smallest_lists {I J A} (cut : Z -> range I A -> option (range J A)) (rs : list (range I A)) xss e : Forall2 lists rs xss ->
  (forall n r r' xs, In r rs -> lists r xs -> (0 <= n <= Z.of_nat (length xs))%Z -> cut n r = Some r' -> lists r' (firstn (Z.to_nat n) xs)) ->
  zip_smallest cut rs = Some e -> exists z, e = Val z /\ lists z (rows xss).
Proof.
  intros H Hcut E. destruct (every_of _ _ H) as [its Hits]. unfold zip_smallest, zip_smallest_sized in E.
  destruct (sizes rs) as [ss|] eqn:Es; [|discriminate]. rewrite (sizes_at _ _ _ _ Hits Es) in E.
  set (m := match map (fun xs => Z.of_nat (length xs)) xss with [] => 0%Z | n :: ns => fold_left Z.min ns n end) in E.
  assert (m = Z.of_nat (least xss)) as Hm by (unfold m; destruct xss as [|xs xss]; [reflexivity|]; apply fold_min_least). clearbody m.
  destruct (all_have (cut m) rs) as [cuts|] eqn:Ec; [|discriminate]. cbn -[zip_view] in E. injection E as <-. eexists. split; [reflexivity|].
  assert (Forall2 lists cuts (map (firstn (least xss)) xss)) as Hc.
  { pose proof (least_le xss) as Hle. generalize dependent (least xss). intros k Hk Hle. clear Hits Es ss. subst m. revert cuts Ec.
    induction H as [|r xs rs xss Hr Hrs IH]; intros cuts Ec; cbn in Ec; [injection Ec as <-; constructor|]. inversion Hle; subst.
    destruct (cut _ r) as [r'|] eqn:E; [|discriminate]. destruct (all_have (cut (Z.of_nat k)) rs) as [cuts'|] eqn:E'; [|discriminate].
    injection Ec as <-. constructor.
    - rewrite <- (Nat2Z.id k) at 1. eapply Hcut; eauto; [now left|]. lia.
    - apply IH; auto. intros n r0 r0' xs0 Hin. apply Hcut. now right. }
  destruct xss as [|xs xss].
  - inversion Hc; subst. apply zip_view_nothing.
  - destruct (every_of _ _ Hc) as [its' Hits']. rewrite <- (rows_cut (xs :: xss) _ eq_refl). eexists. apply zip_view_lists_at with (its := its'); auto; [easy| |].
    + assert (Forall (fun ys => length ys = least (xs :: xss)) (map (firstn (least (xs :: xss))) (xs :: xss))) as Hall.
      { apply Forall_forall. intros ys Hin. apply in_map_iff in Hin. destruct Hin as (zs & <- & Hin). rewrite firstn_length.
        pose proof (least_le (xs :: xss)) as Hle. rewrite Forall_forall in Hle. specialize (Hle _ Hin). lia. }
      assert (map (firstn (least (xs :: xss))) (xs :: xss) <> []) as Hne by easy. unfold ends_at. rewrite (least_same _ _ Hne Hall). exact Hall.
    + cbn [if_any]. rewrite (rows_cut (xs :: xss) _ eq_refl), rows_length, Hm. reflexivity.
Qed.
