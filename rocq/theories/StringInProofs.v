(** * Proofs about reading strings *)

From Coq Require Import List Arith Bool NArith ZArith Lia.
From Verif Require Import Mem MemLemmas Vec VecCost SpecVec SpecHistory VecProofs VecHistory Sbo SboLemmas SpecSbo SboProofs SboCalm Programs StringIn SpecStringIn.
Import ListNotations.

Section Proofs.
Context {V : Type} (moved : V -> V) (space : V -> bool) (small max : nat).
Context (Hsm : small < max) (Hmax : (N.of_nat max < 2 ^ 63)%N).
Local Notation world := (world V).
Local Notation memory := (@memory V).
Local Notation C := (sbo_vector (V := V) moved small max).
Local Notation is_sbo := (is_sbo (V := V) small max).
Local Notation extract := (extract moved space small max).

Lemma limit_wanted s : max_characters max s = wanted max (st_width (V := V) s).
Proof. unfold max_characters, wanted. destruct (Z.leb_spec (st_width s) 0); auto. lia. Qed.

Lemma drop_spaces_app spaces l : all_spaces space spaces -> drop_spaces space (spaces ++ l) = drop_spaces space l.
Proof. intros H. induction H as [|c r Hc H IH]; cbn; auto. now rewrite Hc. Qed.
Lemma drop_spaces_all spaces : all_spaces space spaces -> drop_spaces space spaces = [].
Proof. intros H. rewrite <- (app_nil_r spaces). rewrite drop_spaces_app by assumption. reflexivity. Qed.

Lemma loop_ok limit word tail : forall o vs (s : stream V) others w,
  is_sbo o vs others w -> no_spaces space word -> length vs + length word <= limit ->
  (length vs + length word = limit \/ match tail with [] => True | c :: _ => space c = true end) ->
  2 * (length vs + length word) <= max -> st_rest s = word ++ tail ->
  ends (extract_loop moved space small max limit (word ++ tail) (o, s) w)
    (fun p _ w' => is_sbo (fst p) (vs ++ word) others w' /\ snd p = set_rest tail s)
    (fun p w' => someone_throws w /\ exists n, n < length word /\ is_sbo (fst p) (vs ++ firstn n word) others w' /\
       snd p = set_rest (skipn n word ++ tail) s).
Proof.
  induction word as [|c word IH]; intros o vs s others w Hv Hw Hl Hstop Hroom Hrest; cbn [length app] in *.
  - assert (Hs : s = set_rest tail s). { destruct s; cbn in *; now subst. }
    destruct tail as [|c tail]; cbn [extract_loop].
    + cbn. rewrite app_nil_r. auto.
    + unfold bind, get. cbn [fst]. rewrite (proj1 (proj1 Hv)). destruct (Nat.eqb_spec (length vs) limit).
      * cbn. rewrite app_nil_r. auto.
      * destruct Hstop as [Hstop|Hstop]; [lia|]. rewrite Hstop. cbn. rewrite app_nil_r. auto.
  - cbn [extract_loop]. unfold bind, get. cbn [fst]. rewrite (proj1 (proj1 Hv)). destruct (Nat.eqb_spec (length vs) limit); [lia|].
    inversion Hw as [|? ? Hc Hw']; subst. rewrite Hc. unfold on_fst. cbn [fst snd].
    assert (Hroom' : length vs < sbo_capacity small o \/ 1 <= max /\ 2 * length vs <= max) by (right; lia).
    pose proof (push_back_sbo moved small max Hsm Hmax (Supply c) c o vs others w Hv eq_refl Hroom') as Hp. unfold ends in Hp.
    pose proof (calm_push_back moved small max (Supply c) o w) as Hcalm.
    destruct (push_back moved C (Supply c) o w) as [o1 [] w1|o1 w1|]; try contradiction.
    + destruct Hp as [Hv1 _]. unfold on_snd. cbn [fst snd put].
      assert (L : length (vs ++ [c]) = length vs + 1) by (rewrite app_length; reflexivity).
      assert (X1 : length (vs ++ [c]) + length word <= limit) by lia.
      assert (X2 : length (vs ++ [c]) + length word = limit \/ match tail with [] => True | c :: _ => space c = true end) by (destruct Hstop; [left; lia|auto]).
      assert (X3 : 2 * (length (vs ++ [c]) + length word) <= max) by lia.
      eapply ends_weaken. { apply (IH o1 (vs ++ [c]) (set_rest (word ++ tail) s) others w1 Hv1 Hw' X1 X2 X3). reflexivity. }
      * cbv beta. intros p _ w' [H1 H2]. rewrite <- app_assoc in H1. auto.
      * cbv beta. intros p w' [H1 (m & H2 & H3 & H4)]. split. { destruct Hcalm as [Hi _]. apply Hi. exact H1. }
        exists (S m). split; [lia|]. cbn [firstn skipn]. rewrite <- app_assoc in H3. auto.
    + destruct Hp as [Hun Ht]. cbn [ends]. split; auto. exists 0. cbn. split; [lia|]. rewrite app_nil_r. split.
      * eapply untouched_is; eauto.
      * destruct s; cbn in *; now subst.
Qed.

Lemma extract_ok o vs (s : stream V) spaces word tail others w :
  is_sbo o vs others w -> good s = true -> st_rest s = spaces ++ word ++ tail ->
  all_spaces space spaces -> (st_skipws s = true /\ word ++ tail <> [] /\ (word = [] -> match tail with c :: _ => space c = false | [] => True end) \/ st_skipws s = false /\ spaces = []) ->
  stands_first space (wanted max (st_width s)) word tail -> 2 * length word <= max ->
  ends (extract (o, s) w)
    (fun p _ w' => is_sbo (fst p) word others w' /\
       snd p = Stream tail 0 (st_skipws s) false (match word with [] => true | _ => false end) false)
    (fun p w' => someone_throws w /\ exists n, n < length word /\ is_sbo (fst p) (firstn n word) others w' /\
       snd p = set_rest (skipn n word ++ tail) s).
Proof.
  intros Hv Hg Hrest Hsp Hskip (Hw & Hlen & Hstop) Hroom.
  assert (Hsen : sentry space s = (set_rest (word ++ tail) s, true)).
  { unfold sentry. rewrite Hg. destruct Hskip as [(Hsk & Hne & Hhead)|[Hsk ->]]; rewrite Hsk.
    - rewrite Hrest, drop_spaces_app by assumption.
      assert (Hd : drop_spaces space (word ++ tail) = word ++ tail).
      { destruct word as [|c word]. { specialize (Hhead eq_refl). destruct tail as [|c tail]; cbn; auto. now rewrite Hhead. }
        inversion Hw as [|? ? Hc _]; subst. cbn. now rewrite Hc. }
      rewrite Hd. destruct (word ++ tail) eqn:E; [contradiction|]. f_equal. exact Hg.
    - cbn in Hrest. f_equal; [|exact Hg]. destruct s; cbn in *; now subst. }
  unfold StringIn.extract. unfold bind at 1. unfold get at 1. cbn [snd fst]. rewrite Hsen. cbn [fst snd negb].
  unfold bind at 1. unfold put at 1. unfold bind at 1. unfold on_fst. cbn [fst snd].
  pose proof (clear_sbo moved small max Hsm Hmax o vs others w Hv) as Hc. pose proof (calm_clear moved small max o w) as Hcalm. unfold ends in Hc.
  destruct (clear C o w) as [o1 [] w1|o1 w1|]; try contradiction. destruct Hc as [Hv1 _].
  cbn [st_rest set_rest]. unfold bind at 1.
  rewrite limit_wanted. cbn [st_width set_rest].
  pose proof (loop_ok (wanted max (st_width s)) word tail o1 [] (set_rest (word ++ tail) s) others w1 Hv1 Hw Hlen Hstop Hroom eq_refl) as Hl.
  unfold ends in Hl. destruct (extract_loop moved space small max (wanted max (st_width s)) (word ++ tail) (o1, set_rest (word ++ tail) s) w1)
    as [[o2 s2] [] w2|[o2 s2] w2|]; try contradiction; cbn [fst snd app] in Hl.
  - destruct Hl as [Hv2 ->]. unfold bind, get. cbn [fst snd]. rewrite (proj1 (proj1 Hv2)).
    assert (Hgs : st_eof s = false /\ st_fail s = false /\ st_bad s = false).
    { unfold good in Hg. destruct (st_eof s), (st_fail s), (st_bad s); auto; discriminate. }
    destruct Hgs as (He & Hf & Hb). destruct word as [|c word]; cbn; rewrite ?He, ?Hf, ?Hb; auto.
  - destruct Hl as [Ht (n & Hn & Hv2 & ->)]. cbn [ends fst snd]. split. { destruct Hcalm as [Hi _]. apply Hi. exact Ht. }
    exists n. auto.
Qed.

Lemma extract_spaces o (s : stream V) w :
  good s = true -> st_skipws s = true -> all_spaces space (st_rest s) ->
  extract (o, s) w = Ret (o, Stream [] (st_width s) true true true false) tt w.
Proof.
  intros Hg Hsk Hsp. unfold StringIn.extract, bind, get, put, sentry. cbn [snd fst]. rewrite Hg, Hsk, drop_spaces_all by assumption.
  cbn. unfold good in Hg. destruct (st_eof s), (st_fail s), (st_bad s); try discriminate. reflexivity.
Qed.
Lemma extract_not_good o (s : stream V) w : good s = false -> extract (o, s) w = Ret (o, set_fail s) tt w.
Proof. intros Hg. unfold StringIn.extract, bind, get, put, sentry. cbn [snd fst]. rewrite Hg. reflexivity. Qed.

Lemma separated_first words last : separated space false words last -> match text words last with [] => True | c :: _ => space c = true end.
Proof.
  destruct words as [|[spaces word] words]; cbn.
  - intros H. destruct H; auto.
  - intros (Hs & [|Hne] & _); [discriminate|]. destruct Hs; [contradiction|]. auto.
Qed.

Lemma calm_loop limit l : calm_m (extract_loop moved space small max limit l).
Proof.
  induction l as [|c l IH]; cbn [extract_loop]. { apply (evolves_ret _ later_evolution). }
  apply calm_bind; [apply (evolves_get _ later_evolution)|intros os]. destruct (_ =? _); [apply (evolves_ret _ later_evolution)|].
  destruct (space c); [apply (evolves_ret _ later_evolution)|].
  apply calm_bind; [apply (evolves_fst _ 0), calm_push_back|intros _]. apply calm_bind; [|intros _; exact IH].
  apply (evolves_snd _ 0). apply calm_bind; [apply (evolves_get _ later_evolution)|intros s]. apply (evolves_put _ later_evolution).
Qed.
Lemma calm_extract : calm_m extract.
Proof.
  unfold StringIn.extract. apply calm_bind; [apply (evolves_get _ later_evolution)|intros os].
  apply calm_bind; [apply (evolves_put _ later_evolution)|intros _]. destruct (negb _); [apply (evolves_ret _ later_evolution)|].
  apply calm_bind; [apply (evolves_fst _ 0), calm_clear|intros _]. apply calm_bind; [apply calm_loop|intros _].
  apply calm_bind; [apply (evolves_get _ later_evolution)|intros os'].
  apply calm_bind; [destruct (_ =? 0); [apply (evolves_put _ later_evolution)|apply (evolves_ret _ later_evolution)]|intros _].
  apply calm_bind; [apply (evolves_get _ later_evolution)|intros os2]. apply (evolves_put _ later_evolution).
Qed.

(** The first [n] extractions give the first [n] words one after the other. *)
Lemma words_ok words last : forall first o vs others w,
  is_sbo o vs others w -> separated space first words last -> Forall (fun sw => 2 * length (snd sw) <= max) words -> ~ someone_throws w ->
  forall n, n <= length words ->
  ends (extract_times space moved small max n (o, Stream (text words last) 0 true false false false) w)
    (fun p _ w' => ~ someone_throws w' /\
       is_sbo (fst p) (match n with 0 => vs | S k => snd (nth k words ([], [])) end) others w' /\
       snd p = Stream (text (skipn n words) last) 0 true false false false)
    (fun _ _ => False).
Proof.
  induction words as [|[spaces word] words IH]; intros first o vs others w Hv Hsep Hfit Hq n Hn; cbn [length] in Hn.
  - destruct n; [|lia]. cbn. auto.
  - destruct n as [|n]. { cbn. auto. }
    cbn [separated] in Hsep. destruct Hsep as (Hsp & _ & Hw & Hne & Hsep). inversion Hfit as [|? ? Hfit1 Hfit2]; subst. cbn [snd] in Hfit1.
    cbn [extract_times text]. unfold bind.
    assert (X1 : stands_first space (wanted max 0) word (text words last)).
    { split; auto. split. { unfold wanted. cbn. lia. } right. now apply separated_first. }
    assert (X2 : true = true /\ word ++ text words last <> [] /\ (word = [] -> match text words last with c :: _ => space c = false | [] => True end) \/ true = false /\ spaces = []).
    { left. split; auto. split. { destruct word; [contradiction|discriminate]. } contradiction. }
    pose proof (extract_ok o vs (Stream (spaces ++ word ++ text words last) 0 true false false false) spaces word (text words last) others w
      Hv eq_refl eq_refl Hsp X2 X1 Hfit1) as H.
    pose proof (calm_extract (o, Stream (spaces ++ word ++ text words last) 0 true false false false) w) as Hcalm.
    unfold ends in H. destruct (extract (o, Stream (spaces ++ word ++ text words last) 0 true false false false) w) as [[o1 s1] [] w1|p w1|]; try contradiction.
    2:{ destruct H as [H _]. contradiction. }
    cbn [fst snd st_skipws] in H. destruct H as [Hv1 ->]. destruct word as [|c word]; [contradiction|].
    assert (Hq1 : ~ someone_throws w1). { intros Ht. apply Hq. destruct Hcalm as [Hi _]. apply Hi. exact Ht. }
    eapply ends_weaken. { apply (IH false o1 (c :: word) others w1 Hv1 Hsep Hfit2 Hq1 n). lia. } 2: auto.
    cbv beta. intros p _ w' (H1 & H2 & H3). split; auto. split; [|exact H3]. destruct n; exact H2.
Qed.
End Proofs.
