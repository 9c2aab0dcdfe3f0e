(** * Proofs: programs with any number of linear maps *)

From Coq Require Import List Arith Bool Lia.
From Verif Require Import Mem MemLemmas Vec SpecVec SpecHistory SpecSeveral Several SpecVecPrograms VecPrograms SpecUnique SpecMap Keyed SpecDict
  KeyedProofs SpecFlatMemory FlatMemory VecCost FlatMemoryProofs2 LinearMemory LinearMemoryProofs SpecMapPrograms MapPrograms SpecLinearPrograms.
From Verif Require PropsVec.
Import ListNotations.
Local Open Scope nat_scope.

Section Proofs.
Context {K T : Type} (moved : K * T -> K * T) (equal : K -> K -> bool) (Heq : equivalence equal) (maxc : nat) (Hmax : 0 < maxc).
Local Notation element := (K * T)%type.
Local Notation kept := (linear_kept (K := K) (T := T) equal).
Local Notation maps_in := (linear_maps_in (K := K) (T := T) equal maxc).
Local Notation same := equal.
Local Notation mp_step := (mp_step moved maxc Hmax).

Lemma lp_may_do s (ds : list (entry (K := K) (T := T))) : linear_allows maxc s ds = true -> may_do maxc s (length ds) (lost_of ds) = true.
Proof. intros H. apply andb_prop in H. apply H. Qed.

Lemma lp_kept_at i ds ls d : Forall2 kept ds ls -> dictionary_at i ds = Some d ->
  exists m, at_index i ls = Some m /\ elements i ls = m /\ distinct equal m /\ represents same m d.
Proof.
  intros Hk Hd. pose proof (mp_nth kept i None None ds ls I Hk) as H. unfold dictionary_at in Hd. rewrite Hd in H. destruct H as (m & E & Hf & H1 & H2).
  exists m. unfold elements, at_index. rewrite E. repeat split; auto.
Qed.
Lemma lp_keys_at i (ds : list (entry (K := K) (T := T))) d : dictionary_at i ds = Some d -> nth i (keys_of ds) 0 = keys d.
Proof. unfold dictionary_at. revert i. induction ds as [|e ds IH]; intros [|i] H; cbn in *; try discriminate; auto. now subst. Qed.
Lemma lp_kept_nth i ds ls : Forall2 kept ds ls -> kept (dictionary_at i ds) (at_index i ls).
Proof. intros Hk. exact (mp_nth kept i None None ds ls I Hk). Qed.


Lemma linear_step_ok s os ds others w :
  maps_in os ds others w -> linear_allows maxc s ds = true ->
  ends (do_linear_step moved equal maxc s os w)
    (fun os' r w' => r = linear_reply equal s ds /\ maps_in os' (linear_after equal s ds) others w' /\ steady w w')
    (fun os' w' => linear_can_throw maxc (someone_throws w) s ds /\ maps_in os' (after_exception s ds) others w' /\ steady w w').
Proof.
  intros (ls & Hk & Hv) Hp'. pose proof (lp_may_do s ds Hp') as Hp. pose proof (mp_length _ _ _ Hk) as Hl1. pose proof Hv as [Hin Hu].
  pose proof (several_lengths (vector_in 0 maxc) _ _ _ _ Hin) as Hlen.
  assert (Hsz : length (sizes_of ls) = length ds) by (rewrite sizes_length; auto).
  destruct s as [|j|j|i|i n|i j|i j|i j|i a]; cbn [may_do do_linear_step linear_reply linear_after linear_can_throw after_exception] in *;
    repeat match goal with H : _ && _ = true |- _ => apply andb_prop in H; destruct H end;
    repeat match goal with
           | H : negb (nth _ _ _) = true |- _ => apply mp_lost_nth in H; destruct H as (d & Hd)
           | H : (_ <=? _) = true |- _ => apply Nat.leb_le in H
           end.
  - (* MapNew *) unfold container_step. pose proof (mp_step New os ls others w Hv eq_refl) as H. cbn [do_step] in *. unfold container_step in H. cbn [do_step] in H.
    unfold another, on_unit, bind in *. replace (bv_default 0 tt w) with (Ret (V := element) tt (BVector (Storage None 0) 0) w) in * by reflexivity.
    cbn in H |- *. destruct H as [H1 H2]. split; [reflexivity|]. split; [|exact H2]. exists (ls ++ [Some []]). split; [|exact H1].
    apply mp_app; [exact Hk|]. apply mp_one. exists []. split; [reflexivity|]. split; [intros x y p q Hx; destruct x; discriminate|split; reflexivity].
  - (* MapCopy *) destruct (lp_kept_at _ _ _ _ Hk Hd) as (m & Em & El & Hf & Hr).
    assert (Hpp : possible maxc (NewCopy (V := element) j) (sizes_of ls) (gone_of ls) = true) by (cbn [possible]; now rewrite Hsz).
    pose proof (mp_step (NewCopy j) os ls others w Hv Hpp) as H'. cbn [then_ or_else too_large] in H'. unfold bind, ends in *.
    destruct (container_step moved maxc (NewCopy j) os w) as [os1 [] w1|os1 w1|]; [| |contradiction]; cbn [ret].
    + destruct H' as [H1 H2]. split; [reflexivity|]. split; [|exact H2]. eexists. split; [|exact H1]. apply mp_app; [exact Hk|]. apply mp_one. rewrite Hd, El.
      exists m. split; [reflexivity|]. split; [exact Hf|exact Hr].
    + destruct H' as ([Ht|[]] & (ls' & -> & H1) & H2). split; [exact Ht|]. split; [|exact H2]. now exists ls.
  - (* MapMove *) assert (Hpp : possible maxc (NewMove (V := element) j) (sizes_of ls) (gone_of ls) = true) by (cbn [possible]; now rewrite Hsz).
    pose proof (mp_step (NewMove j) os ls others w Hv Hpp) as H'. cbn [then_ or_else too_large] in H'. unfold bind, ends in *.
    destruct (container_step moved maxc (NewMove j) os w) as [os1 [] w1|os1 w1|]; [| |contradiction]; cbn [ret].
    + destruct H' as [H1 H2]. split; [reflexivity|]. split; [|exact H2]. eexists. split; [|exact H1].
      apply mp_app; [apply mp_replace; [exact I|exact Hk]|]. apply mp_one. now apply lp_kept_nth.
    + destruct H' as (_ & (ls' & [] & _) & _).
  - (* MapEnd *) assert (Hpp : possible maxc (End (V := element) i) (sizes_of ls) (gone_of ls) = true) by (cbn [possible]; now rewrite Hsz).
    pose proof (mp_step (End i) os ls others w Hv Hpp) as H'. cbn [then_ or_else too_large] in H'. unfold bind, ends in *.
    destruct (container_step moved maxc (End i) os w) as [os1 [] w1|os1 w1|]; [| |contradiction]; cbn [ret].
    + destruct H' as [H1 H2]. split; [reflexivity|]. split; [|exact H2]. eexists. split; [|exact H1]. now apply mp_remove.
    + destruct H' as (_ & (ls' & [] & _) & _).
  - (* MapReserve *) destruct (lp_kept_at _ _ _ _ Hk Hd) as (m & Em & El & Hf & Hr). assert (Hi : i < length os) by (apply Nat.ltb_lt; rewrite Hlen, <- Hl1; assumption).
    pose proof (mp_focus maxc i (bv_reserve moved 0 maxc n) os ls others w m (fun _ m' => m' = m) (fun m' => m' = m /\ someone_throws w) Hi Hv Em) as H'.
    unfold bind. unfold ends in *. destruct (one_of i (bv_reserve moved 0 maxc n) os w) as [os1 [] w1|os1 w1|]; cbn [ret].
    all: match type of H' with ?P -> _ => assert (Hmp : P); [|specialize (H' Hmp)] end.
    1,3,5: intros o rest Ho; pose proof (PropsVec.C34_reserve element moved 0 maxc n o m rest w (Nat.le_0_l _) Ho ltac:(assumption)) as Hc;
      pose proof (evolves_reserve moved _ less_script_evolution 0 maxc n o w) as He; unfold ends in Hc;
      destruct (bv_reserve moved 0 maxc n o w) as [o1 u w2|o1 w2|]; [| |contradiction]; (split; [exact He|]);
      [exists m; split; [reflexivity|apply Hc]|destruct Hc as [Hc Ht]; exists m; split; [split; [reflexivity|exact Ht]|]; exact (untouched_in 0 maxc _ _ (Some m) _ _ _ (proj1 Ho) Hc)].
    + destruct H' as (m' & -> & H1' & H2'). split; [reflexivity|]. split; [|exact H2']. exists ls. split; [exact Hk|]. now rewrite at_replace in H1'.
    + destruct H' as (m' & (-> & Ht) & H1' & H2'). split; [exact Ht|]. split; [|exact H2']. exists ls. split; [exact Hk|]. now rewrite at_replace in H1'.
    + exact H'.
  - (* MapCopyAssign *) destruct (lp_kept_at _ _ _ _ Hk Hd) as (m & Em & El & Hf & Hr).
    assert (Hpp : possible maxc (CopyAssign (V := element) i j) (sizes_of ls) (gone_of ls) = true).
    { cbn [possible]. cbv zeta. rewrite Hsz. repeat (apply andb_true_intro; split); assumption. }
    pose proof (mp_step (CopyAssign i j) os ls others w Hv Hpp) as H'. cbn [then_ or_else too_large] in H'. unfold bind, ends in *.
    destruct (container_step moved maxc (CopyAssign i j) os w) as [os1 [] w1|os1 w1|]; [| |contradiction]; cbn [ret].
    + destruct H' as [H1' H2']. split; [reflexivity|]. split; [|exact H2']. eexists. split; [|exact H1']. apply mp_replace; [|exact Hk]. rewrite Hd, El.
      exists m. split; [reflexivity|]. split; [exact Hf|exact Hr].
    + destruct H' as (Ht & (ls' & Ho & H1') & H2'). split. { destruct Ht as [Ht|Ht]; [now left|right]. exists d. split; [exact Hd|]. rewrite El in Ht. now rewrite <- (proj2 Hr). }
      split; [|exact H2']. exists ls'. split; [|exact H1']. destruct (at_index i ls) as [l|] eqn:Ei.
      * destruct Ho as (n & _ & _ & ->). apply mp_replace; [exact I|exact Hk].
      * subst ls'. assert (Hi : i < length ls) by (apply Nat.ltb_lt; rewrite <- Hl1; assumption).
        replace ls with (replace_at i (None : state (V := element)) ls); [apply mp_replace; [exact I|exact Hk]|].
        apply replace_same. unfold at_index in Ei. rewrite <- Ei. now apply nth_error_nth'.
  - (* MapMoveAssign *) assert (Hpp : possible maxc (MoveAssign (V := element) i j) (sizes_of ls) (gone_of ls) = true).
    { cbn [possible]. cbv zeta. rewrite Hsz. repeat (apply andb_true_intro; split); assumption. }
    pose proof (mp_step (MoveAssign i j) os ls others w Hv Hpp) as H'. cbn [then_ or_else too_large] in H'. unfold bind, ends in *.
    destruct (container_step moved maxc (MoveAssign i j) os w) as [os1 [] w1|os1 w1|]; [| |contradiction]; cbn [ret].
    + destruct H' as [H1' H2']. split; [reflexivity|]. split; [|exact H2']. eexists. split; [|exact H1'].
      apply mp_replace; [exact I|]. apply mp_replace; [now apply lp_kept_nth|exact Hk].
    + destruct H' as (_ & (ls' & [] & _) & _).
  - (* MapSwap *) assert (Hi : i < length ls) by (apply Nat.ltb_lt; rewrite <- Hl1; assumption). assert (Hj : j < length ls) by (apply Nat.ltb_lt; rewrite <- Hl1; assumption).
    unfold bind, get. rewrite Hlen. set (n := length ls) in *.
    assert (P1 : possible maxc (NewMove (V := element) i) (sizes_of ls) (gone_of ls) = true) by (cbn [possible]; now rewrite Hsz).
    pose proof (mp_step (NewMove i) os ls others w Hv P1) as S1. cbn [then_ or_else too_large] in S1. unfold ends in S1.
    destruct (container_step moved maxc (NewMove i) os w) as [os1 [] w1|os1 w1|]; [|destruct S1 as (_ & (ls' & [] & _) & _)|contradiction].
    destruct S1 as [V1 E1]. set (l1 := replace_at i None ls ++ [at_index i ls]) in *.
    assert (L1 : length l1 = S n) by exact (mp_lens i _ _ ls Hi).
    assert (P2 : possible maxc (MoveAssign (V := element) i j) (sizes_of l1) (gone_of l1) = true).
    { cbn [possible]. rewrite (eq_trans (sizes_length l1) L1). apply andb_true_intro. split; apply Nat.ltb_lt; lia. }
    pose proof (mp_step (MoveAssign i j) os1 l1 others w1 V1 P2) as S2. cbn [then_ or_else too_large] in S2. unfold ends in S2.
    destruct (container_step moved maxc (MoveAssign i j) os1 w1) as [os2 [] w2|os2 w2|]; [|destruct S2 as (_ & (ls' & [] & _) & _)|contradiction].
    destruct S2 as [V2 E2]. set (l2 := replace_at j None (replace_at i (at_index j l1) l1)) in *.
    assert (L2 : length l2 = S n) by exact (mp_lens2 i j _ _ l1 (S n) L1 ltac:(lia) ltac:(lia)).
    assert (P3 : possible maxc (MoveAssign (V := element) j n) (sizes_of l2) (gone_of l2) = true).
    { cbn [possible]. rewrite (eq_trans (sizes_length l2) L2). apply andb_true_intro. split; apply Nat.ltb_lt; lia. }
    pose proof (mp_step (MoveAssign j n) os2 l2 others w2 V2 P3) as S3. cbn [then_ or_else too_large] in S3. unfold ends in S3.
    destruct (container_step moved maxc (MoveAssign j n) os2 w2) as [os3 [] w3|os3 w3|]; [|destruct S3 as (_ & (ls' & [] & _) & _)|contradiction].
    destruct S3 as [V3 E3]. set (l3 := replace_at n None (replace_at j (at_index n l2) l2)) in *.
    assert (L3 : length l3 = S n) by exact (mp_lens2 j n _ _ l2 (S n) L2 ltac:(lia) ltac:(lia)).
    assert (P4 : possible maxc (End (V := element) n) (sizes_of l3) (gone_of l3) = true).
    { cbn [possible]. rewrite (eq_trans (sizes_length l3) L3). apply Nat.ltb_lt; lia. }
    pose proof (mp_step (End n) os3 l3 others w3 V3 P4) as S4. cbn [then_ or_else too_large] in S4. unfold ends in S4.
    destruct (container_step moved maxc (End n) os3 w3) as [os4 [] w4|os4 w4|]; [|destruct S4 as (_ & (ls' & [] & _) & _)|contradiction].
    destruct S4 as [V4 E4]. cbn [ret ends]. split; [reflexivity|]. split.
    + exists (remove_at n l3). split; [|exact V4].
      replace (remove_at n l3) with (replace_at j (at_index i ls) (replace_at i (at_index j ls) ls)) by (symmetry; exact (swap_by_moves i j None ls Hi Hj)).
      apply mp_replace; [now apply lp_kept_nth|]. apply mp_replace; [now apply lp_kept_nth|exact Hk].
    + unfold steady in *. eapply incl_tran; [exact E4|]. eapply incl_tran; [exact E3|]. eapply incl_tran; eassumption.
  - (* MapAct *) destruct (lp_kept_at _ _ _ _ Hk Hd) as (m & Em & El & Hf & Hr). assert (Hi : i < length os) by (apply Nat.ltb_lt; rewrite Hlen, <- Hl1; assumption).
    pose proof (mp_focus maxc i (mem_linear_act moved equal (bounded_vector moved 0 maxc) a) os ls others w m
      (fun r m' => r = snd (dictionary_act same d a) /\ distinct equal m' /\ represents same m' (fst (dictionary_act same d a)))
      (fun m' => m' = m /\ someone_throws w) Hi Hv Em) as H'.
    match type of H' with ?P -> _ => assert (Hmp : P); [|specialize (H' Hmp); clear Hmp] end.
    { intros o rest Ho.
      pose proof (linear_act_memory moved equal (bounded_vector moved 0 maxc) (vec_holds maxc rest) (fun _ _ => maxc = 0) (fun o m => 1 <= maxc /\ length m = capacity_of o /\ maxc < 2 * length m)
        (vec_size moved maxc rest) (vec_read moved maxc rest) (vec_quiet maxc rest) (vec_push moved maxc rest) (vec_erase' moved maxc rest) o m w a Ho) as Ha.
      destruct (linear_act_ok equal Heq m d a Hf Hr) as (m1 & Hact & Hm1 & Hr1). unfold ends, ends_or in *.
      destruct (mem_linear_act moved equal (bounded_vector moved 0 maxc) a o w) as [o' r w'|o' w'|].
      - destruct Ha as (m' & E & Hh' & Hs). rewrite Hact in E. injection E as <- <-. split; [exact Hs|]. exists m1. split; [split; [reflexivity|split; assumption]|exact Hh'].
      - destruct Ha as (-> & Hh' & Hs & Hc). split; [exact Hs|]. exists m. split; [|exact Hh']. split; [reflexivity|]. destruct Hc as [Hc|(k & v & _ & _ & Hc)]; [exact Hc|lia].
      - destruct Ha as (_ & k & v & -> & _ & _ & _ & Hc). apply andb_prop in Hp'. destruct Hp' as [_ Hp']. apply Nat.leb_le in Hp'.
        rewrite (lp_keys_at i ds d Hd) in Hp'. destruct Hr as [_ Hr]. lia. }
    unfold bind. unfold ends in *. destruct (one_of i (mem_linear_act moved equal (bounded_vector moved 0 maxc) a) os w) as [os1 r w1|os1 w1|]; [| |contradiction]; cbn [ret].
    + destruct H' as (m' & (-> & Hf' & Hr') & H1' & H2'). rewrite Hd. split; [reflexivity|]. split; [|exact H2']. eexists. split; [|exact H1'].
      apply mp_replace; [|exact Hk]. exists m'. split; [reflexivity|]. split; [exact Hf'|exact Hr'].
    + destruct H' as (m' & (-> & Ht) & H1' & H2'). split; [exact Ht|]. split; [|exact H2']. exists ls. split; [exact Hk|]. now rewrite at_replace in H1'.
Qed.

(** ** Programs *)
Local Notation entry := (SpecMapPrograms.entry (K := K) (T := T)).
Lemma lp_lost_returned s (ds : list entry) : linear_allows maxc s ds = true -> lost_of (linear_after equal s ds) = lost_after s (lost_of ds).
Proof.
  intros Hp'. pose proof (lp_may_do s ds Hp') as Hp. destruct s as [|j|j|i|i n|i j|i j|i j|i a]; cbn [linear_after lost_after may_do] in *;
    repeat match goal with H : _ && _ = true |- _ => apply andb_prop in H; destruct H end;
    repeat match goal with
           | H : negb (nth _ _ _) = true |- _ => apply mp_lost_nth in H; destruct H as (d & Hd)
           end;
    rewrite ?mp_lost_app, ?mp_lost_replace, ?mp_lost_at; try reflexivity.
  - cbn. now rewrite Hd.
  - exact (eq_trans (mp_lost_app _ _) (f_equal2 (@app bool) (mp_lost_replace j None ds) eq_refl)).
  - unfold remove_at, lost_of. now rewrite map_app, List.firstn_map, List.skipn_map.
  - now rewrite Hd.
  - exact (eq_trans (mp_lost_replace j None _) (f_equal _ (mp_lost_replace i _ ds))).
  - rewrite Hd. refine (eq_trans (mp_lost_replace i (Some _) ds) _). apply replace_same. assert (Hi : i < length (lost_of ds)) by (unfold lost_of; rewrite map_length; now apply Nat.ltb_lt).
    rewrite (nth_error_nth' _ true Hi), mp_lost_at, Hd. reflexivity.
Qed.

(** The program sees the sizes of the dictionaries. *)
Lemma lp_allows s os ds others w : maps_in os ds others w -> linear_may_do maxc s (length os) (lost_of ds) (map b_size os) = linear_allows maxc s ds.
Proof.
  intros (ls & Hk & Hv). pose proof Hv as [Hin Hu]. pose proof (several_lengths (vector_in 0 maxc) _ _ _ _ Hin) as Hlen. pose proof (mp_length _ _ _ Hk) as Hl1.
  unfold linear_allows, linear_may_do. rewrite Hlen, <- Hl1. destruct (may_do maxc s (length ds) (lost_of ds)) eqn:Hp; [cbn [andb]|reflexivity].
  destruct s as [| | | | | | | |i [k v| | |]]; try reflexivity. cbn [may_do] in Hp. apply andb_prop in Hp as [Hi Hp]. apply mp_lost_nth in Hp as (d & Hd).
  rewrite (lp_keys_at _ _ _ Hd). destruct (lp_kept_at _ _ _ _ Hk Hd) as (m & Em & _ & _ & Hr). apply Nat.ltb_lt in Hi.
  destruct (focus_one (vector_in 0 maxc) (in_swap 0 maxc) i _ _ _ _ ltac:(rewrite Hlen, <- Hl1; exact Hi) Hin) as (o & l & rest & Hno & Hnl & Ho & _ & _).
  rewrite (at_nth _ _ _ Hnl) in Em. subst l. destruct Ho as [Ho _].
  rewrite (nth_error_nth (map b_size os) i 0 (map_nth_error b_size _ _ Hno)), Ho. destruct Hr as [_ Hr]. now rewrite Hr.
Qed.
Lemma linear_tells_trouble (P P' : Prop) (ds : list entry) ss seen ds' : (P -> P') -> linear_tells equal maxc P ds ss seen ds' -> linear_tells equal maxc P' ds ss seen ds'.
Proof.
  intros HP H. induction H.
  - constructor.
  - now constructor.
  - apply linear_threw; auto. destruct s; cbn [linear_can_throw] in *; intuition.
  - now constructor.
Qed.
Lemma linear_program_ok ss : forall os ds others w,
  maps_in os ds others w ->
  ends (linear_program moved equal maxc ss (lost_of ds) os w)
    (fun os' seen w' => exists ds', linear_tells equal maxc (someone_throws w) ds ss seen ds' /\ maps_in os' ds' others w') (fun _ _ => False).
Proof.
  induction ss as [|s ss IH]; intros os ds others w Hm; cbn [linear_program].
  - cbn. exists ds. split; [constructor|exact Hm].
  - assert (Hlen : length os = length ds).
    { destruct Hm as (ls & Hk & [Hin _]). rewrite (mp_length _ _ _ Hk). exact (several_lengths (vector_in 0 maxc) _ _ _ _ Hin). }
    unfold bind at 1. unfold get. rewrite (lp_allows s os ds others w Hm). destruct (linear_allows maxc s ds) eqn:Hp.
    + unfold bind at 1. unfold attempt. pose proof (linear_step_ok s os ds others w Hm Hp) as Hs. unfold ends in Hs.
      destruct (do_linear_step moved equal maxc s os w) as [os1 r w1|os1 w1|]; [| |contradiction].
      * destruct Hs as (-> & Hm1 & Hs1). rewrite <- (lp_lost_returned s ds Hp). specialize (IH _ _ _ _ Hm1). unfold bind, ends in *.
        destruct (linear_program moved equal maxc ss (lost_of (linear_after equal s ds)) os1 w1) as [os2 seen w2|os2 w2|]; try contradiction. cbn [ret].
        destruct IH as (ds' & Ht & Hm2). exists ds'. split; [|exact Hm2]. apply linear_returned; [exact Hp|]. eapply linear_tells_trouble; [|exact Ht]. now apply steady_throws.
      * destruct Hs as (Hc & Hm1 & Hs1). rewrite <- (lost_threw s ds). specialize (IH _ _ _ _ Hm1). unfold bind, ends in *.
        destruct (linear_program moved equal maxc ss (lost_of (after_exception s ds)) os1 w1) as [os2 seen w2|os2 w2|]; try contradiction. cbn [ret].
        destruct IH as (ds' & Ht & Hm2). exists ds'. split; [|exact Hm2]. apply linear_threw; [exact Hp|exact Hc|]. eapply linear_tells_trouble; [|exact Ht]. now apply steady_throws.
    + specialize (IH _ _ _ _ Hm). unfold bind, ends in *. destruct (linear_program moved equal maxc ss (lost_of ds) os w) as [os2 seen w2|os2 w2|]; try contradiction. cbn [ret].
      destruct IH as (ds' & Ht & Hm2). exists ds'. split; [|exact Hm2]. now apply linear_skipped.
Qed.
Lemma lp_pigeons n (m : list (K * T)) : different_keys same n -> distinct same m -> length m <= n.
Proof.
  destruct Heq as (_ & Hsym & Htrans). intros (ks & <- & Hks & _) Hm. set (rep := fun e : K * T => List.find (same (fst e)) ks).
  assert (Hrep : forall e, exists r, rep e = Some r /\ In r ks /\ same (fst e) r = true).
  { intros e. unfold rep. destruct (List.find (same (fst e)) ks) as [r|] eqn:E.
    - exists r. split; [reflexivity|]. apply find_some in E. tauto.
    - destruct (Hks (fst e)) as (r & Hr & Hs). pose proof (find_none _ _ E r Hr). congruence. }
  rewrite <- (map_length rep m). rewrite <- (map_length Some ks). apply NoDup_incl_length.
  - apply NoDup_nth_error. intros i j Hi E. rewrite map_length in Hi. rewrite !nth_error_map in E.
    destruct (nth_error m i) as [a|] eqn:Ea; [|apply nth_error_None in Ea; lia]. cbn in E.
    destruct (nth_error m j) as [b|] eqn:Eb; [|discriminate]. cbn in E. injection E as E.
    apply (Hm i j a b Ea Eb). destruct (Hrep a) as (r & Er & _ & Hr). destruct (Hrep b) as (r' & Er' & _ & Hr').
    rewrite E, Er' in Er. injection Er as ->. apply (Htrans _ r); [exact Hr|]. now rewrite Hsym.
  - intros o Ho. apply in_map_iff in Ho as (e & <- & _). destruct (Hrep e) as (r & -> & Hr & _). now apply in_map.
Qed.
Lemma linear_program_calm n ss : different_keys same n -> 2 * n <= maxc -> forall os ds others w, ~ someone_throws w ->
  maps_in os ds others w ->
  ends (linear_program moved equal maxc ss (lost_of ds) os w) (fun _ seen _ => ~ In Threw seen) (fun _ _ => False).
Proof.
  intros Hn H2n. induction ss as [|s ss IH]; intros os ds others w Hq Hm; cbn [linear_program].
  - cbn. auto.
  - assert (Hlen : length os = length ds).
    { destruct Hm as (ls & Hk & [Hin _]). rewrite (mp_length _ _ _ Hk). exact (several_lengths (vector_in 0 maxc) _ _ _ _ Hin). }
    unfold bind at 1. unfold get. rewrite (lp_allows s os ds others w Hm). destruct (linear_allows maxc s ds) eqn:Hp.
    + unfold bind at 1. unfold attempt. pose proof (linear_step_ok s os ds others w Hm Hp) as Hs. unfold ends in Hs.
      destruct (do_linear_step moved equal maxc s os w) as [os1 r w1|os1 w1|]; [| |contradiction].
      * destruct Hs as (-> & Hm1 & Hs1). rewrite <- (lp_lost_returned s ds Hp).
        specialize (IH _ _ _ w1 ltac:(intros Ht; apply Hq; exact (steady_throws _ _ Hs1 Ht)) Hm1). unfold bind, ends in *.
        destruct (linear_program moved equal maxc ss (lost_of (linear_after equal s ds)) os1 w1) as [os2 seen w2|os2 w2|]; try contradiction. cbn [ret].
        intros [E|Hi]; [discriminate|contradiction].
      * exfalso. destruct Hs as (Hc & _ & _). destruct Hm as (ls & Hk & _).
        assert (Hsmall : forall i d, dictionary_at i ds = Some d -> keys d <= n).
        { intros i d Hd. destruct (lp_kept_at _ _ _ _ Hk Hd) as (m & _ & _ & Hf & Hr). rewrite <- (proj2 Hr).
          now apply lp_pigeons. }
        destruct s as [|j|j|i|i k|i j|i j|i j|i a]; cbn [linear_can_throw] in Hc; try contradiction.
        destruct Hc as [Hc|(d & Hd & Hc)]; [contradiction|]. specialize (Hsmall _ _ Hd). lia.
    + specialize (IH _ _ _ _ Hq Hm). unfold bind, ends in *. destruct (linear_program moved equal maxc ss (lost_of ds) os w) as [os2 seen w2|os2 w2|]; try contradiction. cbn [ret].
      intros [E|Hi]; [discriminate|contradiction].
Qed.
Lemma linear_ends_ok n : forall os ds others w lost, length os = n ->
  maps_in os ds others w ->
  ends (linear_program moved equal maxc (repeat (MapEnd 0) n) lost os w) (fun os' _ w' => SpecVec.same (heap w') others) (fun _ _ => False).
Proof.
  induction n as [|n IH]; intros os ds others w lost Hn Hm.
  - destruct os; [|discriminate]. destruct Hm as (ls & Hk & [Hin _]). destruct ls; [|destruct Hin]. exact Hin.
  - assert (Hlen : length os = length ds).
    { destruct Hm as (ls & Hk & [Hin _]). rewrite (mp_length _ _ _ Hk). exact (several_lengths (vector_in 0 maxc) _ _ _ _ Hin). }
    cbn [repeat linear_program]. unfold bind at 1. unfold get. assert (linear_may_do maxc (MapEnd (K := K) (T := T) 0) (length os) lost (map b_size os) = true) as -> by (unfold linear_may_do; rewrite andb_true_r; apply (proj2 (Nat.ltb_lt 0 (length os))); lia).
    assert (Hp : linear_allows maxc (MapEnd (K := K) (T := T) 0) ds = true) by (unfold linear_allows, linear_may_do; rewrite andb_true_r; apply (proj2 (Nat.ltb_lt 0 (length ds))); lia).
    pose proof (linear_step_ok (MapEnd 0) os ds others w Hm Hp) as Hs. unfold bind at 1. unfold attempt. unfold ends in Hs.
    destruct (do_linear_step moved equal maxc (MapEnd 0) os w) as [os1 r w1|os1 w1|]; [|destruct Hs as ([] & _)|contradiction].
    destruct Hs as (_ & Hm1 & _). cbn [linear_after] in Hm1.
    assert (Hlen1 : length os1 = length (remove_at 0 ds)).
    { destruct Hm1 as (ls & Hk & [Hin _]). rewrite (mp_length _ _ _ Hk). exact (several_lengths (vector_in 0 maxc) _ _ _ _ Hin). }
    rewrite length_remove in Hlen1 by lia.
    specialize (IH os1 _ others w1 (lost_after (MapEnd (K := K) (T := T) 0) lost) ltac:(lia) Hm1). unfold bind, ends in *.
    destruct (linear_program moved equal maxc (repeat (MapEnd 0) n) (lost_after (MapEnd (K := K) (T := T) 0) lost) os1 w1); auto.
Qed.
Lemma whole_linear_ok ss w : unused_names w ->
  ends (whole_linear_program moved equal maxc ss tt w)
    (fun _ seen w' => SpecVec.same (heap w') (heap w) /\ exists ds, linear_tells equal maxc (someone_throws w) [] ss seen ds) (fun _ _ => False).
Proof.
  intros Hu. assert (Hm : maps_in [] [] (heap w) w). { exists []. split; [constructor|]. split; [now intros b|exact Hu]. }
  unfold whole_linear_program. pose proof (linear_program_ok ss [] [] (heap w) w Hm) as H. unfold ends in *. change (lost_of []) with (@nil bool) in H.
  destruct (linear_program moved equal maxc ss [] [] w) as [os seen w1|os w1|]; try contradiction. destruct H as (ds & Ht & Hm1).
  pose proof (linear_ends_ok (length os) os ds (heap w) w1 (repeat true (length os)) eq_refl Hm1) as H. unfold ends in H.
  destruct (linear_program moved equal maxc (repeat (MapEnd 0) (length os)) (repeat true (length os)) os w1); try contradiction. eauto.
Qed.
End Proofs.
