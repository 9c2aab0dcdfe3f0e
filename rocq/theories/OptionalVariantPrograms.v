(** * Programs that use any number of optionals in variants: proofs

    A program of optionals is a program of variants (VariantPrograms.v). *)

From Coq Require Import List Arith ZArith Bool Lia.
From Verif Require Import Mem MemLemmas SpecVec SpecSeveral Several Variant SpecVariant VariantLemmas VariantProofs Optional SpecOptional.
From Verif Require SpecVariantPrograms VariantPrograms.
From Verif Require Import SpecOptionalVariantPrograms.
Import ListNotations.

Section Translation.
Context {B : Type} (moved : B -> B) (copy move copy_assign move_assign : bool) (eqb : B -> B -> bool).
Local Notation V := (nat * option B)%type.
Local Notation M := (M V).
Local Notation world := (world V).
Local Notation memory := (@memory V).
Local Notation T := (none_or_value copy move copy_assign move_assign eqb).
Local Notation st := (in_variant moved copy move copy_assign move_assign eqb).
Local Notation mv := (moved_alternative moved).

Definition state_of (x : option B) : nat * option B := (match x with None => 0 | Some _ => 1 end, x).
Definition source_of (s : origin (B := B)) : SpecVariantPrograms.source :=
  match s with Value b => SpecVariantPrograms.Value (Some b) | Element j => SpecVariantPrograms.Element j 1 | ElementMoved j => SpecVariantPrograms.ElementMoved j 1 end.
(** Assignment to an empty optional is emplace. *)
Definition step_of (ls : list (option B)) (s : step (B := B)) : SpecVariantPrograms.step :=
  match s with
  | NewNone => SpecVariantPrograms.New 0 true (SpecVariantPrograms.Value None)
  | NewValue n s => SpecVariantPrograms.New 1 n (source_of s)
  | NewCopy j => SpecVariantPrograms.NewCopy j
  | NewMove j => SpecVariantPrograms.NewMove j
  | End i => SpecVariantPrograms.End i
  | Emplace i n s => SpecVariantPrograms.Emplace i 1 n (source_of s)
  | AssignNone i => SpecVariantPrograms.Emplace i 0 true (SpecVariantPrograms.Value None)
  | AssignValue i n s =>
      if full (nth i ls None) then SpecVariantPrograms.AssignValue i 1 n (match s with ElementMoved _ => move_assign | _ => copy_assign end) (source_of s)
      else SpecVariantPrograms.Emplace i 1 n (source_of s)
  | CopyAssign i j => SpecVariantPrograms.CopyAssign i j
  | MoveAssign i j => SpecVariantPrograms.MoveAssign i j
  | Swap i j => SpecVariantPrograms.Swap i j
  end.
Local Notation do_step := (do_step moved copy move copy_assign move_assign eqb).
Local Notation or_else := (or_else moved copy move copy_assign move_assign).
Local Notation possible := (possible copy move copy_assign move_assign (B := B)).
Local Notation program := (program moved copy move copy_assign move_assign eqb).

(** ** Lists *)
Lemma map_replace {X Y} (f : X -> Y) i x (l : list X) : map f (replace_at i x l) = replace_at i (f x) (map f l).
Proof. unfold replace_at. rewrite !map_app. cbn [map]. now rewrite firstn_map, skipn_map. Qed.
Lemma map_remove {X Y} (f : X -> Y) i (l : list X) : map f (remove_at i l) = remove_at i (map f l).
Proof. unfold remove_at. rewrite !map_app. now rewrite firstn_map, skipn_map. Qed.
Lemma nth_state ls i : i < length ls -> nth_error (map state_of ls) i = Some (state_of (nth i ls None)).
Proof. intros H. rewrite nth_error_map. now rewrite (nth_error_nth' _ None H). Qed.
Lemma index_full ls i : nth i (map fst (map state_of ls)) 0 = (if full (nth i ls None) then 1 else 0).
Proof.
  rewrite map_map. change 0 with ((fun x => fst (state_of x)) (@None B)) at 1. rewrite map_nth. now destruct (nth i ls None).
Qed.
Lemma has_full ls j : has (map full ls) j = full (nth j ls (@None B)).
Proof. unfold has. change false with (full (@None B)) at 1. apply map_nth. Qed.
Lemma has_length ls j : has (map full ls) j = true -> j < length ls /\ exists b, nth j ls (@None B) = Some b.
Proof.
  rewrite has_full. intros H. split. { destruct (Nat.lt_ge_cases j (length ls)); auto. rewrite nth_overflow in H by assumption. discriminate. }
  destruct (nth j ls None); [eauto|discriminate].
Qed.
Lemma moved_state x : (fst (state_of x), mv (snd (state_of x))) = state_of (option_map moved x).
Proof. now destruct x. Qed.

(** ** The same steps *)
Lemma possible_same s ls : possible s (map full ls) = true -> SpecVariantPrograms.possible T (step_of ls s) (map fst (map state_of ls)) = true.
Proof.
  assert (Hr : forall s, readable s (map full ls) = true -> SpecVariantPrograms.readable (source_of s) (map fst (map state_of ls)) = true).
  { intros [b|j|j]; cbn; auto; intros Hj; destruct (has_length _ _ Hj) as (H1 & b & H2); rewrite nth_error_map, nth_state by assumption; cbn; now rewrite H2. }
  assert (Hs : forall a b, survives copy move copy_assign move_assign a b = true -> SpecVariantPrograms.survives T (if a then 1 else 0) (if b then 1 else 0) = true).
  { intros a b. unfold survives, SpecVariantPrograms.survives, copies_safely, SpecVariantPrograms.assigns_safely. cbn. rewrite !andb_true_r.
    destruct a, b, move_assign, move; cbn; auto. }
  destruct s as [|n s|j|j|i|i n s|i|i n s|i j|i j|i j]; cbn [SpecOptionalVariantPrograms.possible step_of SpecVariantPrograms.possible];
    rewrite ?map_length; intros H;
    repeat match goal with H : _ && _ = true |- _ => apply andb_prop in H; destruct H end;
    rewrite ?andb_true_iff; rewrite ?has_full in *; rewrite ?index_full; repeat split; auto.
  - match goal with H : negb _ = true |- _ => now destruct s end.
  - destruct (nth i ls None) as [b|] eqn:E; cbn [full SpecVariantPrograms.possible]; rewrite ?map_length; rewrite ?andb_true_iff; repeat split; auto.
    + destruct s; cbn in *; auto.
    + match goal with H : readable s _ = true |- _ => destruct s as [b|j|j]; cbn [readable] in H; auto; rewrite has_full in H end;
        cbn [source_of SpecVariantPrograms.reads]; (destruct (Nat.eqb_spec j i) as [->|]; [rewrite E in *; discriminate|reflexivity]).
Qed.
Lemma then_same s ls : possible s (map full ls) = true -> SpecVariantPrograms.then_ mv (step_of ls s) (map state_of ls) = map state_of (then_ moved s ls).
Proof.
  assert (Hr : forall s, readable s (map full ls) = true -> exists b, value_of s ls = Some b /\ SpecVariantPrograms.value_of (source_of s) (map state_of ls) = Some (Some b) /\
            SpecVariantPrograms.used mv (source_of s) (map state_of ls) = map state_of (used moved s ls)).
  { intros [b|j|j]; cbn; eauto; intros Hj; destruct (has_length _ _ Hj) as (H1 & b & H2); rewrite nth_state, H2 by assumption; exists b; cbn; auto.
    split; auto. split; auto. rewrite map_replace. reflexivity. }
  destruct s as [|n s|j|j|i|i n s|i|i n s|i j|i j|i j]; cbn [SpecOptionalVariantPrograms.possible step_of SpecVariantPrograms.then_ then_];
    rewrite ?map_length; intros H;
    repeat match goal with H : _ && _ = true |- _ => apply andb_prop in H; destruct H end;
    repeat match goal with H : (_ <? _) = true |- _ => apply Nat.ltb_lt in H end;
    try (destruct (Hr s ltac:(assumption)) as (b & Hv & Hv1 & Hu); rewrite ?Hv, ?Hv1, ?Hu);
    rewrite ?nth_state by assumption; rewrite ?moved_state; rewrite ?map_app, ?map_replace, ?map_remove; try reflexivity.
  destruct (full (nth i ls None)); cbn [SpecVariantPrograms.then_]; rewrite Hv1, Hu; reflexivity.
Qed.
Lemma or_else_same s ls ls' : possible s (map full ls) = true -> SpecVariantPrograms.or_else mv T (step_of ls s) (map state_of ls) ls' ->
  exists ls1, ls' = map state_of ls1 /\ or_else s ls ls1.
Proof.
  assert (Hs : forall a b, SpecVariantPrograms.assigns_safely T (if a : bool then 1 else 0) (if b : bool then 1 else 0) = copies_safely copy copy_assign a b).
  { intros [] []; reflexivity. }
  assert (Hf : forall x, fst (state_of x) = if full x then 1 else 0). { intros []; reflexivity. }
  destruct s as [|n s|j|j|i|i n s|i|i n s|i j|i j|i j]; cbn [SpecOptionalVariantPrograms.possible step_of SpecVariantPrograms.or_else SpecOptionalVariantPrograms.or_else];
    rewrite ?map_length; intros H;
    repeat match goal with H : _ && _ = true |- _ => apply andb_prop in H; destruct H end;
    repeat match goal with H : (_ <? _) = true |- _ => apply Nat.ltb_lt in H end; rewrite ?nth_state by assumption.
  - intros [? _]; discriminate.
  - intros [G ->]. eauto.
  - intros [-> (l & E & G)]. injection E as <-. exists ls. split; auto. split; auto. destruct (nth j ls None); cbn in G; [|discriminate]. split; [auto|discriminate].
  - intros [-> (l & E & G)]. injection E as <-. exists ls. split; auto. split; auto. destruct (nth j ls None); cbn in G; [|discriminate]. split; [auto|discriminate].
  - contradiction.
  - intros [G ->]. eauto.
  - intros [? _]; discriminate.
  - destruct (nth i ls None) as [b|] eqn:Ei; cbn [full SpecVariantPrograms.or_else].
    + rewrite nth_state by assumption. intros [-> (l & E & G)]. injection E as <-. exists ls. split; auto. split; auto. rewrite Ei in *. cbn in G. now destruct s.
    + intros [G ->]. exists ls. split; auto.
  - intros [-> (l & u & E1 & E2 & G)]. injection E1 as <-. injection E2 as <-. exists ls. split; auto. split; auto. now rewrite !Hf, Hs in G.
  - intros [-> (l & u & E1 & E2 & G)]. injection E1 as <-. injection E2 as <-. exists ls. split; auto. split; auto. now rewrite !Hf, Hs in G.
  - intros (l & u & E1 & E2 & G). injection E1 as <-. injection E2 as <-. rewrite !moved_state, !Hf, !Hs in G. destruct G as [[G ->]|[[G ->]|[G ->]]].
    + exists ls. split; auto. left. split; auto. destruct (nth i ls None); cbn in G; [|discriminate]. split; [auto|discriminate].
    + eexists. split; [symmetry; apply map_replace|]. auto.
    + eexists. split; [symmetry; apply map_replace|]. auto.
Qed.

Local Notation opts := (several_in (optional_in (B := B))).
Lemma opts_variants os : forall ls others (h : memory), opts os ls others h <-> several_in (SpecVariantPrograms.variant_in T) os (map state_of ls) others h.
Proof.
  induction os as [|o os IH]; intros [|x ls] others h; cbn [several_in map]; try reflexivity.
  split; intros (rest & H1 & H2); exists rest; (split; [destruct x; exact H1|]); now apply IH.
Qed.
Lemma opts_nth i os ls others (h : memory) o : opts os ls others h -> nth_error os i = Some o ->
  v_index o = fst (state_of (nth i ls None)) /\ h (v_at o) = Some [Some (state_of (nth i ls None))].
Proof.
  intros H Ho. assert (Hi : i < length os) by (apply nth_error_Some; congruence). apply opts_variants in H.
  destruct (focus_one _ (VariantPrograms.in_swap T) i _ _ _ _ Hi H) as (o' & l & rest & E1 & E2 & F & _). assert (o' = o) by congruence. subst o'.
  assert (Hl : l = state_of (nth i ls None)).
  { rewrite nth_error_map in E2. destruct (nth_error ls i) eqn:E; [|discriminate]. injection E2 as <-. now rewrite (nth_error_nth _ _ _ E). }
  subst l. destruct F as (F1 & F2 & F3 & F4 & F5). split; auto.
Qed.
Lemma set_same c n (s : origin (B := B)) o b (w : world) :
  (match c, s with Make m _, Value _ | CopyFrom m _ _, Element _ | MoveFrom m _ _, ElementMoved _ => m = n | _, _ => False end) ->
  v_index o = 1 -> heap w (v_at o) = Some [Some (1, Some b)] ->
  opt_assign st c o w = assign_value mv T 1 c (match s with ElementMoved _ => move_assign | _ => copy_assign end) o w.
Proof.
  intros Hc Hi Hh. destruct o as [k p]. cbn [v_index v_at] in *. subst k.
  unfold opt_assign, opt_bool, in_variant, s_initialized, s_set, index, subscript, assign_value, Optional.value_of, visited, member, load, find_cell.
  unfold bind, get, ret. cbn -[create set_member]. rewrite Hh. cbn -[create set_member].
  destruct c, s; try contradiction; reflexivity.
Qed.
Lemma do_step_same s os ls others (w : world) : opts os ls others (heap w) -> possible s (map full ls) = true ->
  do_step s os w = SpecVariantPrograms.do_step mv T (step_of ls s) os w.
Proof.
  intros Hin Hp.
  destruct s as [|n s|j|j|i|i n s|i|i n s|i j|i j|i j]; cbn [SpecOptionalVariantPrograms.possible SpecOptionalVariantPrograms.do_step step_of SpecVariantPrograms.do_step] in *;
    try reflexivity.
  - destruct s; reflexivity.
  - destruct s; reflexivity.
  - rewrite map_length in Hp. apply andb_prop in Hp as [Hp _]. apply andb_prop in Hp as [Hp Hr]. apply Nat.ltb_lt in Hp.
    pose proof (several_lengths _ _ _ _ _ Hin) as Hlen. destruct (nth_error os i) as [o|] eqn:Eo.
    2:{ apply nth_error_None in Eo. lia. }
    destruct (opts_nth i _ _ _ _ _ Hin Eo) as [Hi Hh].
    destruct (nth i ls None) as [b|]; cbn [full SpecVariantPrograms.do_step].
    + destruct s as [b'|j|j]; cbn [from_origin source_of SpecVariantPrograms.from_source]; unfold looking_at, bind, get; try (destruct (nth_error os j) as [t|]; [|reflexivity]);
        unfold one_of; rewrite Eo; [rewrite (set_same _ n (Value b') o b)|rewrite (set_same _ n (Element j) o b)|rewrite (set_same _ n (ElementMoved j) o b)]; auto.
    + assert (Hs : forall c, opt_assign st c o w = opt_emplace st c o w).
      { intros c. unfold opt_assign, opt_bool, in_variant, s_initialized, index, bind, get, ret. rewrite Hi. reflexivity. }
      destruct s as [b'|j|j]; cbn [from_origin source_of SpecVariantPrograms.from_source]; unfold looking_at, bind at 1, get; try (unfold bind at 1; destruct (nth_error os j) as [t|]; [|reflexivity]);
        unfold one_of; rewrite Eo, Hs; reflexivity.
Qed.

(** ** Programs *)
Context (q : Prop).
Local Notation at_ := (at_ q).
Definition there os ls others (w : world) : Prop := exists h, at_ w h /\ opts os ls others h.
Lemma there_here os ls others w : there os ls others w <-> VariantPrograms.here T q os (map state_of ls) others w.
Proof. split; intros (h & H1 & H2); exists h; (split; [exact H1|]); now apply opts_variants. Qed.
Lemma opts_same os ls others (m m' : memory) : same m m' -> opts os ls others m -> opts os ls others m'.
Proof. intros H. rewrite !opts_variants. apply (several_same _ (VariantPrograms.in_same T)); auto. Qed.
Lemma there_optionals os ls others w : there os ls others w -> optionals os ls others w.
Proof.
  intros (h & H & Hs). destruct (at_memory _ _ _ H) as [He Hu]. split; auto. eapply opts_same; [|exact Hs]. intros b. symmetry. apply He.
Qed.
Lemma step_ok s os ls others w : there os ls others w -> possible s (map full ls) = true ->
  wp (do_step s) os w
    (fun os' _ w' => there os' (then_ moved s ls) others w')
    (fun os' w' => ~ q /\ exists ls', or_else s ls ls' /\ there os' ls' others w').
Proof.
  intros Ht Hp. pose proof (there_optionals _ _ _ _ Ht) as [Hin _]. destruct Ht as (h & H & Hh). apply opts_variants in Hh.
  pose proof (VariantPrograms.step_ok mv T q (step_of ls s) os (map state_of ls) others w h H Hh (possible_same s ls Hp)) as Hs.
  rewrite (then_same s ls Hp) in Hs. unfold wp in *. rewrite (do_step_same s os ls others w Hin Hp).
  destruct (SpecVariantPrograms.do_step mv T (step_of ls s) os w) as [os' [] w'|os' w'|]; auto.
  - now apply there_here.
  - destruct Hs as [Hq (ls' & Hl & H')]. split; auto. destruct (or_else_same s ls ls' Hp Hl) as (ls1 & -> & Ho). exists ls1. split; auto. now apply there_here.
Qed.
Lemma ask_all_ok os ls others (h : memory) (w : world) : opts os ls others h -> forall n i, i + n = length os -> forall (Q : list variant -> list bool -> world -> Prop) E,
  Q os (map full (skipn i ls)) w -> wp (ask_all moved copy move copy_assign move_assign eqb i n) os w Q E.
Proof.
  intros Hin. pose proof (several_lengths _ _ _ _ _ Hin) as Hlen. induction n as [|n IH]; intros i Hi Q E HQ; cbn [ask_all].
  - apply wp_ret. rewrite skipn_all2 in HQ by lia. exact HQ.
  - destruct (nth_error os i) as [o|] eqn:Eo. 2:{ apply nth_error_None in Eo. lia. }
    destruct (opts_nth i _ _ _ _ _ Hin Eo) as [Hx _]. assert (Hil : i < length ls) by lia.
    assert (Ho : one_of i (opt_bool st) os w = Ret os (full (nth i ls None)) w).
    { unfold one_of. rewrite Eo. unfold opt_bool, in_variant, s_initialized, index, bind, get, ret. rewrite Hx, (replace_same i o os Eo). now destruct (nth i ls None). }
    apply wp_bind. unfold wp at 1. rewrite Ho. apply wp_bind. apply IH; [lia|]. apply wp_ret.
    assert (Hs : skipn i ls = nth i ls None :: skipn (S i) ls).
    { clear - Hil. revert ls Hil. induction i as [|i IH]; intros [|x ls] Hil; cbn [length] in *; try lia; [reflexivity|]. cbn [skipn nth]. rewrite (IH ls) by lia. reflexivity. }
    rewrite Hs in HQ. cbn [map] in HQ. exact HQ.
Qed.
Lemma have_values_ok os ls others (w : world) (Q : list variant -> list bool -> world -> Prop) E : there os ls others w ->
  Q os (map full ls) w -> wp (have_values moved copy move copy_assign move_assign eqb) os w Q E.
Proof. intros (h & H & Hin) HQ. unfold have_values. apply wp_bind, wp_get. eapply ask_all_ok; eauto. Qed.
Lemma program_ok ss : forall os ls others w, there os ls others w ->
  wp (program ss) os w (fun os' _ w' => exists ls', accounts moved copy move copy_assign move_assign ss ls ls' /\ there os' ls' others w') (fun _ _ => False).
Proof.
  induction ss as [|s ss IH]; intros os ls others w Ha; cbn [SpecOptionalVariantPrograms.program].
  - apply wp_ret. exists ls. split; auto. constructor.
  - apply wp_bind. eapply have_values_ok; eauto. destruct (possible s (map full ls)) eqn:Hp.
    + apply wp_bind. pose proof (step_ok s os ls others w Ha Hp) as Hs. unfold wp in Hs |- *. unfold attempt.
      destruct (do_step s os w) as [os1 [] w1|os1 w1|]; [| |contradiction].
      * eapply wp_conseq. { apply (IH _ _ _ _ Hs). } 2: auto.
        cbv beta. intros o' _ w' (ls' & He & H'). exists ls'. split; auto. now apply accounts_returns.
      * destruct Hs as [_ (ls1 & Hi & Hv1)]. eapply wp_conseq. { apply (IH _ _ _ _ Hv1). } 2: auto.
        cbv beta. intros o' _ w' (ls' & He & H'). exists ls'. split; auto. eapply accounts_throws; eauto.
    + eapply wp_conseq. { apply (IH _ _ _ _ Ha). } 2: auto. cbv beta. intros o' _ w' (ls' & He & H'). exists ls'. split; auto. now apply accounts_skips.
Qed.
Lemma program_plain (Hq : q) ss : forall os ls others w, there os ls others w ->
  wp (program ss) os w (fun os' _ w' => there os' (plainly moved copy move copy_assign move_assign ss ls) others w') (fun _ _ => False).
Proof.
  induction ss as [|s ss IH]; intros os ls others w Ha; cbn [SpecOptionalVariantPrograms.program plainly] in *.
  - apply wp_ret. exact Ha.
  - apply wp_bind. eapply have_values_ok; eauto. destruct (possible s (map full ls)) eqn:Hp.
    + apply wp_bind. pose proof (step_ok s os ls others w Ha Hp) as Hs. unfold wp in Hs |- *. unfold attempt.
      destruct (do_step s os w) as [os1 [] w1|os1 w1|]; [| |contradiction].
      * now apply IH.
      * now destruct Hs.
    + now apply IH.
Qed.
Lemma ends_program n : forall os ls others w, length os = n -> there os ls others w ->
  wp (program (repeat (End 0) n)) os w (fun os' _ w' => os' = [] /\ at_ w' others) (fun _ _ => False).
Proof.
  induction n as [|n IH]; intros os ls others w Hn Ht.
  - destruct Ht as (h & H & Hin). destruct os; [|discriminate]. destruct ls; [|destruct Hin]. apply wp_ret. split; auto. eapply at_ext; [exact H|exact Hin].
  - cbn [repeat SpecOptionalVariantPrograms.program]. apply wp_bind. eapply have_values_ok; eauto. destruct os as [|o os]; [discriminate|].
    destruct ls as [|l ls]; [destruct Ht as (h & _ & [])|].
    change (possible (End 0) (map full (l :: ls))) with true. cbv iota. apply wp_bind.
    pose proof (step_ok (End 0) (o :: os) (l :: ls) others w Ht eq_refl) as Hs. unfold attempt, wp in Hs |- *.
    assert (Hd : match do_step (End 0) (o :: os) w with Ret os' _ _ => os' = os | _ => True end).
    { cbn [SpecOptionalVariantPrograms.do_step]. unfold one_of, bind, get, put. cbn [nth_error]. destruct (opt_destruct st o w) as [o1 [] w1|o1 w1|]; auto. }
    destruct (do_step (End 0) (o :: os) w) as [os1 [] w1|os1 w1|]; [| |contradiction].
    + subst os1. change (then_ moved (End 0) (l :: ls)) with ls in Hs. eapply IH; [|apply Hs]. now injection Hn.
    + destruct Hs as [_ (ls' & [] & _)].
Qed.
End Translation.

(** ** For a world *)
Section World.
Context {B : Type} (moved : B -> B) (copy move copy_assign move_assign : bool) (eqb : B -> B -> bool).
Local Notation program := (program moved copy move copy_assign move_assign eqb).
Lemma optionals_there os ls others (w : world (nat * option B)) : optionals os ls others w -> there (~ someone_throws w) os ls others w.
Proof. intros [Hs Hu]. exists (heap w). split; auto. now apply memory_at. Qed.
Lemma program_optionals ss os ls others (w : world (nat * option B)) :
  optionals os ls others w ->
  ends (program ss os w)
    (fun os' _ w' => exists ls', accounts moved copy move copy_assign move_assign ss ls ls' /\ optionals os' ls' others w') (fun _ _ => False).
Proof.
  intros Ha. pose proof (program_ok moved copy move copy_assign move_assign eqb (~ someone_throws w) ss os ls others w (optionals_there _ _ _ _ Ha)) as H. unfold wp in H. unfold ends.
  destruct (program ss os w) as [os' [] w'|os' w'|]; try contradiction. destruct H as (ls' & H1 & H2). exists ls'. split; auto. eapply there_optionals; eauto.
Qed.
Lemma program_optionals_plain ss os ls others (w : world (nat * option B)) :
  optionals os ls others w -> ~ someone_throws w ->
  ends (program ss os w) (fun os' _ w' => optionals os' (plainly moved copy move copy_assign move_assign ss ls) others w') (fun _ _ => False).
Proof.
  intros Ha Hq. pose proof (program_plain moved copy move copy_assign move_assign eqb (~ someone_throws w) Hq ss os ls others w (optionals_there _ _ _ _ Ha)) as H. unfold wp in H. unfold ends.
  destruct (program ss os w) as [os' [] w'|os' w'|]; try contradiction. eapply there_optionals; eauto.
Qed.
Lemma whole_ok ss (w : world (nat * option B)) :
  unused_names w -> ends (whole moved copy move copy_assign move_assign eqb ss tt w) (fun _ _ w' => same (heap w') (heap w)) (fun _ _ => False).
Proof.
  intros Hu. unfold whole. assert (Ha : optionals (B := B) [] [] (heap w) w). { split; auto. intros b. reflexivity. }
  pose proof (program_ok moved copy move copy_assign move_assign eqb (~ someone_throws w) ss [] [] (heap w) w (optionals_there _ _ _ _ Ha)) as H. unfold wp in H. unfold ends.
  destruct (program ss [] w) as [os [] w1|os w1|]; try contradiction.
  destruct H as (ls & _ & Ha1). pose proof (ends_program moved copy move copy_assign move_assign eqb (~ someone_throws w) (length os) os ls (heap w) w1 eq_refl Ha1) as H. unfold wp in H.
  destruct (program (repeat (End 0) (length os)) os w1); try contradiction. destruct H as [_ H]. apply (at_memory _ _ _ H).
Qed.
End World.
