(** * Programs that use any number of optionals: proofs *)

From Coq Require Import List Arith ZArith Bool Lia.
From Verif Require Import Mem MemLemmas SpecVec SpecSeveral Several Variant SpecVariant VariantLemmas VariantProofs Optional SpecOptional OptionalLemmas SpecOptionalPrograms.
Import ListNotations.

Section Proofs.
Context {B : Type} (moved : B -> B) (copy move copy_assign move_assign : bool) (q : Prop).
Local Notation V := (rep B).
Local Notation M := (M V).
Local Notation world := (world V).
Local Notation memory := (@memory V).
Local Notation at_ := (at_ q).
Local Notation st := (in_place moved copy move copy_assign move_assign).
Local Notation cell x := (Some [Some (representation x)]).
Local Notation opts := (several_in (is_optional_p_in (B := B))).

Ltac mem := let z := fresh "z" in intros z; unfold upd;
  repeat match goal with |- context [?a =? ?b] => destruct (Nat.eqb_spec a b); [subst; try congruence|] end; try congruence; auto.

(** ** The optionals in memory *)
Lemma in_same o (l : option B) (r m m' : memory) : same m m' -> is_optional_p_in o l r m -> is_optional_p_in o l r m'.
Proof. intros Hs (H1 & H2 & H3). split; auto. split. - now rewrite <- Hs. - intros b Hb. rewrite <- Hs. auto. Qed.
Lemma in_swap o (l : option B) t (u : option B) (others mid m : memory) :
  is_optional_p_in o l mid m -> is_optional_p_in t u others mid -> exists mid', is_optional_p_in t u mid' m /\ is_optional_p_in o l others mid'.
Proof.
  intros (H1 & H2 & H3) (G1 & G2 & G3). assert (Hne : o <> t) by congruence. exists (upd others o (cell l)).
  assert (Ho : others o = None). { rewrite <- G3; auto. }
  split; (split; [|split]); auto.
  - now rewrite upd_other by congruence.
  - now rewrite H3 by congruence.
  - intros b Hb. destruct (Nat.eq_dec b o) as [->|Hbo]; [now rewrite upd_same|]. rewrite upd_other by assumption. rewrite H3, G3; auto.
  - apply upd_same.
  - intros b Hb. now apply upd_other.
Qed.
Lemma opts_nth i os ls others (h : memory) : opts os ls others h -> i < length os ->
  exists p, nth_error os i = Some p /\ h p = cell (nth i ls None) /\ nth_error ls i = Some (nth i ls None) /\ i < length ls.
Proof.
  intros H Hi. pose proof (several_lengths _ _ _ _ _ H) as Hl. destruct (focus_one _ in_swap i _ _ _ _ Hi H) as (o & l & rest & H1 & H2 & (_ & H3 & _) & _).
  exists o. rewrite (nth_error_nth _ _ None H2). split; auto. split; auto. split; auto. congruence.
Qed.
Lemma opts_differ i j os ls others (h : memory) p p' : opts os ls others h -> i <> j -> nth_error os i = Some p -> nth_error os j = Some p' -> p <> p'.
Proof.
  intros H Hij Hp Hp'. assert (Hi : i < length os) by (apply nth_error_Some; congruence). assert (Hj : j < length os) by (apply nth_error_Some; congruence).
  destruct (focus_two _ in_swap i j _ _ _ _ Hi Hj ltac:(auto) H) as (o & l & t & u & mid & rest & H1 & _ & H2 & _ & (G1 & _) & (_ & G2 & _) & _).
  congruence.
Qed.
Lemma opts_upd i x os ls others (h h' : memory) p : opts os ls others h -> nth_error os i = Some p -> eqh h' (upd h p (cell x)) ->
  opts os (replace_at i x ls) others h'.
Proof.
  intros H Hp Hh. assert (Hi : i < length os) by (apply nth_error_Some; congruence).
  destruct (focus_one _ in_swap i _ _ _ _ Hi H) as (o & l & rest & H1 & H2 & (G1 & G2 & G3) & _ & Hb). replace o with p in * by congruence.
  rewrite <- (replace_same i p os Hp). apply Hb. split; auto. split. { rewrite Hh. apply upd_same. } intros b Hbp. rewrite Hh, upd_other; auto.
Qed.
Lemma opts_new x os ls others (h h' : memory) p : opts os ls others h -> h p = None -> eqh h' (upd h p (cell x)) ->
  opts (os ++ [p]) (ls ++ [x]) others h'.
Proof.
  intros H Hp Hh. apply (several_end _ in_swap _ _ _ _ _ h); auto. split; auto. split. { rewrite Hh. apply upd_same. }
  intros b Hb. rewrite Hh. now apply upd_other.
Qed.
Lemma opts_end i os ls others (h h' : memory) p : opts os ls others h -> nth_error os i = Some p -> eqh h' (upd h p None) ->
  opts (remove_at i os) (remove_at i ls) others h'.
Proof.
  intros H Hp Hh. assert (Hi : i < length os) by (apply nth_error_Some; congruence).
  destruct (focus_one _ in_swap i _ _ _ _ Hi H) as (o & l & rest & H1 & H2 & (G1 & G2 & G3) & Hr & _). replace o with p in * by congruence.
  eapply (several_same _ in_same); [|exact Hr]. intros b. rewrite Hh. unfold upd. destruct (Nat.eqb_spec b p) as [->|Hb]; auto. symmetry. auto.
Qed.

(** ** The operations, in any memory *)
(** What using a source does to the memory. *)
Definition makes_from (h : memory) (c : Optional.source B) (b : B) (h' : memory) : Prop :=
  match c with
  | New _ _ b' => b' = b /\ eqh h' h
  | CopyAt _ p => h p = Some [Some (Living b)] /\ eqh h' h
  | MoveAt _ p => h p = Some [Some (Living b)] /\ eqh h' (upd h p (Some [Some (Living (moved b))]))
  end.
Definition calm_before (c : Optional.source B) : bool := match c with New b _ _ => b | _ => true end.
Definition calm_during (c : Optional.source B) : bool := match c with New _ d _ => d | CopyAt d _ | MoveAt d _ => d end.

Lemma construct_over_gen p c b cl (h h1 : memory) {X} (s : X) (w : world) (Q : X -> unit -> world -> Prop) (E : X -> world -> Prop) :
  at_ w h -> h p = Some [cl] -> (forall b', cl <> Some (Living b')) -> makes_from h c b h1 ->
  (forall w', at_ w' (upd h1 p (Some [Some (Living b)])) -> Q s tt w') ->
  (forall w', ~ q -> calm_before c = false -> at_ w' h -> E s w') ->
  (forall w', ~ q -> calm_during c = false -> at_ w' (upd h p (Some [None])) -> E s w') ->
  wp (construct_over moved p c) s w Q E.
Proof.
  intros H Hp Hc Hm HQ HE1 HE2. destruct c as [cb cd b'|calm r|calm r]; cbn [makes_from calm_before calm_during] in *; destruct Hm as [Hm Hh].
  - eapply wp_construct_over; eauto.
    + intros w' H'. apply HQ. eapply at_ext; [exact H'|]. apply upd_eqh. now apply eqh_sym.
    + intros w' Hq Hd H'. apply HE2; auto. cbn in Hd. now destruct cd.
  - eapply wp_construct_over; eauto.
    + intros w' H'. apply HQ. eapply at_ext; [exact H'|]. apply upd_eqh. now apply eqh_sym.
    + contradiction.
    + intros w' Hq Hd H'. apply HE2; auto. cbn in Hd. now destruct calm.
  - eapply wp_move_over; eauto. intros w' H'. apply HQ. eapply at_ext; [exact H'|]. apply upd_eqh. now apply eqh_sym.
Qed.
Lemma none_gen (h : memory) (w : world) : at_ w h ->
  wp (opt_none st) tt w (fun _ p w' => h p = None /\ at_ w' (upd h p (cell None))) (fun _ _ => False).
Proof.
  intros H. unfold opt_none, in_place, s_default. apply wp_bind. eapply wp_new_block; eauto. cbn [repeat].
  intros w1 p Hp H1. apply wp_bind. eapply wp_uninit; eauto. { apply upd_same. } { discriminate. }
  intros w2 H2. apply wp_ret. split; auto. eapply at_ext; [exact H2|]. apply upd_upd.
Qed.
Lemma makes_new c b (h h1 : memory) p x : makes_from h c b h1 -> h p = None -> makes_from (upd h p x) c b (upd h1 p x) /\ h1 p = None.
Proof.
  intros Hm Hp. destruct c as [cb cd b'|calm r|calm r]; cbn in *; destruct Hm as [Hm Hh].
  - split; [split; auto; now apply upd_eqh|]. now rewrite Hh.
  - split; [split|]. { rewrite upd_other by congruence. exact Hm. } { now apply upd_eqh. } now rewrite Hh.
  - assert (r <> p) by congruence. split; [split|]. { rewrite upd_other by congruence. exact Hm. } { intros z. rewrite (upd_eqh _ _ p x Hh z). clear Hh. revert z. mem. }
    rewrite Hh. rewrite upd_other by congruence. exact Hp.
Qed.
Lemma some_gen c b (h h1 : memory) (w : world) : at_ w h -> makes_from h c b h1 ->
  wp (opt_some st c) tt w (fun _ p w' => h1 p = None /\ at_ w' (upd h1 p (cell (Some b))))
    (fun _ w' => (~ q /\ calm_before c && calm_during c = false) /\ at_ w' h).
Proof.
  intros H Hm. unfold opt_some, in_place, s_lazy. apply wp_bind. eapply wp_new_block; eauto. cbn [repeat].
  intros w1 p Hp H1. destruct (makes_new _ _ _ _ p (Some [None]) Hm Hp) as [Hm' Hp1]. apply wp_bind, wp_rethrow. eapply construct_over_gen; eauto. { apply upd_same. } { discriminate. }
  - intros w2 H2. apply wp_ret. split; auto. eapply at_ext; [exact H2|]. apply upd_upd.
  - intros w2 Hq Hc H2. eapply wp_release; eauto. { apply upd_same. } { discriminate. }
    intros w3 H3. split. { split; auto. now rewrite Hc. } eapply at_ext; [exact H3|]. eapply eqh_trans; [apply upd_upd|now apply upd_id].
  - intros w2 Hq Hc H2. eapply wp_release; eauto. { apply upd_same. } { discriminate. }
    intros w3 H3. split. { split; auto. rewrite Hc. apply andb_false_r. } eapply at_ext; [exact H3|]. eapply eqh_trans; [apply upd_upd|eapply eqh_trans; [apply upd_upd|now apply upd_id]].
Qed.
Lemma construct_from_gen c r y (h h1 : memory) (w : world) : at_ w h -> h r = cell y ->
  (match y with Some b => makes_from h c b h1 | None => eqh h1 h end) -> calm_before c = true ->
  wp (construct_from moved c r) tt w (fun _ p w' => h1 p = None /\ at_ w' (upd h1 p (cell y)))
    (fun _ w' => (~ q /\ calm_during c = false /\ y <> None) /\ at_ w' h).
Proof.
  intros H Hr Hm Hb. unfold construct_from. apply wp_bind. eapply wp_new_block; eauto. cbn [repeat].
  intros w1 p Hp H1. apply wp_bind, wp_rethrow. apply wp_bind. eapply wp_initialized; eauto. { rewrite upd_other by congruence. exact Hr. } destruct y as [b|].
  - destruct (makes_new _ _ _ _ p (Some [None]) Hm Hp) as [Hm' Hp1]. eapply construct_over_gen; eauto. { apply upd_same. } { discriminate. }
    + intros w2 H2. apply wp_ret. split; auto. eapply at_ext; [exact H2|]. apply upd_upd.
    + congruence.
    + intros w2 Hq Hc H2. eapply wp_release; eauto. { apply upd_same. } { discriminate. }
      intros w3 H3. split. { split; auto. split; auto. discriminate. } eapply at_ext; [exact H3|]. eapply eqh_trans; [apply upd_upd|eapply eqh_trans; [apply upd_upd|now apply upd_id]].
  - eapply wp_uninit; eauto. { apply upd_same. } { discriminate. }
    intros w2 H2. apply wp_ret. split. { now rewrite Hm. } eapply at_ext; [exact H2|]. eapply eqh_trans; [apply upd_upd|]. apply upd_eqh. now apply eqh_sym.
Qed.
Lemma copy_gen r y (h : memory) (w : world) : at_ w h -> h r = cell y ->
  wp (opt_copy st r) tt w (fun _ p w' => h p = None /\ at_ w' (upd h p (cell y))) (fun _ w' => (~ q /\ copy = false /\ y <> None) /\ at_ w' h).
Proof.
  intros H Hr. unfold opt_copy, in_place, s_copy_construct. apply wp_noexcept_if.
  eapply wp_conseq; [apply (construct_from_gen (CopyAt copy r) r y h h w H Hr)| |]; cbv beta; auto.
  - destruct y; [|intros z; auto]. split; auto. intros z; auto.
  - intros _ w' ((Hq & Hc & Hy) & H'). cbn in Hc. auto.
Qed.
Lemma move_gen r y (h : memory) (w : world) : at_ w h -> h r = cell y ->
  wp (opt_move st r) tt w (fun _ p w' => upd h r (cell (option_map moved y)) p = None /\ at_ w' (upd (upd h r (cell (option_map moved y))) p (cell y)))
    (fun _ w' => (~ q /\ move = false /\ y <> None) /\ at_ w' h).
Proof.
  intros H Hr. unfold opt_move, in_place, s_move_construct. apply wp_noexcept_if.
  eapply wp_conseq; [apply (construct_from_gen (MoveAt move r) r y h (upd h r (cell (option_map moved y))) w H Hr)| |]; cbv beta; auto.
  - destruct y; cbn. + split; auto. intros z; auto. + now apply upd_id.
  - intros _ w' ((Hq & Hc & Hy) & H'). cbn in Hc. auto.
Qed.
Lemma destruct_gen p x (h : memory) (w : world) : at_ w h -> h p = cell x ->
  wp (opt_destruct st) p w (fun _ _ w' => at_ w' (upd h p None)) (fun _ _ => False).
Proof.
  intros H Hp. unfold opt_destruct, in_place, s_destruct. apply wp_bind, wp_get. apply wp_bind. eapply wp_initialized; eauto.
  apply wp_bind. destruct x as [b|].
  - eapply wp_destroy_value; eauto. intros w1 H1. eapply wp_release; eauto. { apply upd_same. } { discriminate. }
    intros w2 H2. eapply at_ext; [exact H2|]. apply upd_upd.
  - apply wp_ret. eapply wp_release; eauto. discriminate.
Qed.
Lemma emplace_gen p x c b (h h1 : memory) (w : world) : at_ w h -> h p = cell x ->
  makes_from h c b h1 -> (match c with New _ _ _ => True | CopyAt _ r | MoveAt _ r => r <> p end) -> calm_during c = true ->
  wp (opt_emplace st c) p w (fun p' _ w' => p' = p /\ at_ w' (upd h1 p (cell (Some b))))
    (fun p' w' => p' = p /\ (~ q /\ calm_before c = false) /\ at_ w' (upd h p (cell None))).
Proof.
  intros H Hp Hm He Hd. unfold opt_emplace, in_place, s_initialize, initialize. apply wp_bind. eapply wp_uninitialize; eauto.
  intros w1 H1. apply wp_bind, wp_get.
  assert (Hm' : makes_from (upd h p (cell None)) c b (upd h1 p (cell None))).
  { destruct c as [cb cd b'|calm r|calm r]; cbn [makes_from] in *; destruct Hm as [Hm Hh].
    - split; auto. now apply upd_eqh.
    - split. { rewrite upd_other by congruence. exact Hm. } now apply upd_eqh.
    - split. { rewrite upd_other by congruence. exact Hm. } intros z. rewrite (upd_eqh _ _ p (cell None) Hh z). clear Hh. revert z. mem. }
  eapply construct_over_gen; eauto. { apply upd_same. } { discriminate. }
  - intros w2 H2. split; auto. eapply at_ext; [exact H2|]. apply upd_upd.
  - congruence.
Qed.
Lemma assign_none_gen p x (h : memory) (w : world) : at_ w h -> h p = cell x ->
  wp (opt_assign_none st) p w (fun p' _ w' => p' = p /\ at_ w' (upd h p (cell None))) (fun _ _ => False).
Proof. intros H Hp. unfold opt_assign_none, in_place, s_uninitialize. eapply wp_uninitialize; eauto. Qed.
Definition sets_safely (c : Optional.source B) : bool := match c with MoveAt _ _ => move_assign | _ => copy_assign end.
Lemma set_gen p b0 c b (h h1 : memory) (w : world) : at_ w h -> h p = cell (Some b0) -> makes_from h c b h1 ->
  wp (set_value moved copy_assign move_assign c) p w (fun p' _ w' => p' = p /\ at_ w' (upd h1 p (cell (Some b))))
    (fun p' w' => p' = p /\ (~ q /\ sets_safely c = false) /\ at_ w' h).
Proof.
  intros H Hp Hm. destruct c as [cb cd b'|calm r|calm r]; cbn [makes_from sets_safely] in *; destruct Hm as [Hm Hh].
  - eapply wp_set_value; eauto. intros w' H'. split; auto. eapply at_ext; [exact H'|]. apply upd_eqh. now apply eqh_sym.
  - eapply wp_set_value; eauto. intros w' H'. split; auto. eapply at_ext; [exact H'|]. apply upd_eqh. now apply eqh_sym.
  - eapply wp_move_value; eauto. intros w' H'. split; auto. eapply at_ext; [exact H'|]. apply upd_eqh. now apply eqh_sym.
Qed.
Lemma assign_gen p x c b (h h1 : memory) (w : world) : at_ w h -> h p = cell x -> makes_from h c b h1 ->
  (x = None -> calm_during c = true) ->
  wp (opt_assign st c) p w (fun p' _ w' => p' = p /\ at_ w' (upd h1 p (cell (Some b))))
    (fun p' w' => p' = p /\ (~ q /\ (match x with Some _ => sets_safely c | None => calm_before c end) = false) /\ at_ w' h).
Proof.
  intros H Hp Hm Hd. unfold opt_assign, opt_bool. apply wp_bind. unfold in_place at 1, s_initialized at 1. apply wp_bind, wp_get. eapply wp_initialized; eauto.
  destruct x as [b0|]; [apply (set_gen p b0 c b h h1 w H Hp Hm)|].
  eapply wp_conseq; [apply (emplace_gen p None c b h h1 w H Hp Hm)| |]; cbv beta; auto.
  - destruct c as [cb cd b'|calm r|calm r]; cbn in *; auto; destruct Hm as [Hm _]; intros ->; rewrite Hp in Hm; discriminate.
  - intros p' w' (-> & Hc & H'). split; auto. split; auto. eapply at_ext; [exact H'|]. now apply upd_id.
Qed.
Lemma assign_from_gen p x c r y (h h1 : memory) (w : world) : at_ w h -> h p = cell x -> h r = cell y ->
  (match y with Some b => makes_from h c b h1 | None => eqh h1 h end) -> calm_before c = true -> (x = None -> y <> None -> calm_during c = true) ->
  wp (assign_from moved copy_assign move_assign c r) p w (fun p' _ w' => p' = p /\ at_ w' (upd h1 p (cell y)))
    (fun p' w' => p' = p /\ (~ q /\ sets_safely c = false /\ x <> None /\ y <> None) /\ at_ w' h).
Proof.
  intros H Hp Hr Hm Hb Hd. unfold assign_from. apply wp_bind, wp_get. apply wp_bind. eapply wp_initialized; eauto.
  destruct y as [b|]; cbn [negb].
  - apply wp_bind. eapply wp_initialized; eauto. destruct x as [b0|]; cbn [negb].
    + eapply wp_conseq; [apply (set_gen p b0 c b h h1 w H Hp Hm)| |]; cbv beta; auto.
      intros p' w' (-> & [Hq Hc] & H'). split; auto. split; auto. split; auto. split; auto. split; discriminate.
    + assert (calm_during c = true) by (apply Hd; congruence).
      eapply construct_over_gen; eauto. { discriminate. } { congruence. } congruence.
  - eapply wp_uninitialize; eauto. intros w' H'. split; auto. eapply at_ext; [exact H'|]. apply upd_eqh. now apply eqh_sym.
Qed.
Lemma copy_assign_gen p x r y (h : memory) (w : world) : at_ w h -> h p = cell x -> h r = cell y ->
  (x = None -> y <> None -> copy = true) ->
  wp (opt_copy_assign st r) p w (fun p' _ w' => p' = p /\ at_ w' (upd h p (cell y)))
    (fun p' w' => p' = p /\ (~ q /\ copy_assign = false /\ x <> None /\ y <> None) /\ at_ w' h).
Proof.
  intros H Hp Hr Hd. unfold opt_copy_assign, in_place, s_copy_assign. apply wp_noexcept_if.
  eapply wp_conseq; [apply (assign_from_gen p x (CopyAt copy r) r y h h w H Hp Hr)| |]; cbv beta; auto.
  - destruct y; [|intros z; auto]. split; auto. intros z; auto.
  - intros p' w' (-> & (Hq & Hc & Hx) & H'). cbn in Hc. split. { rewrite Hc. apply andb_false_r. } auto.
Qed.
Lemma move_assign_gen p x r y (h : memory) (w : world) : at_ w h -> h p = cell x -> h r = cell y ->
  (x = None -> y <> None -> move = true) ->
  wp (opt_move_assign st r) p w (fun p' _ w' => p' = p /\ at_ w' (upd (upd h r (cell (option_map moved y))) p (cell y)))
    (fun p' w' => p' = p /\ (~ q /\ move_assign = false /\ x <> None /\ y <> None) /\ at_ w' h).
Proof.
  intros H Hp Hr Hd. unfold opt_move_assign, in_place, s_move_assign. apply wp_noexcept_if.
  eapply wp_conseq; [apply (assign_from_gen p x (MoveAt move r) r y h (upd h r (cell (option_map moved y))) w H Hp Hr)| |]; cbv beta; auto.
  - destruct y; cbn. + split; auto. intros z; auto. + now apply upd_id.
  - intros p' w' (-> & (Hq & Hc & Hx) & H'). cbn in Hc. split. { rewrite Hc. apply andb_false_r. } auto.
Qed.
Lemma swap_gen p x r y (h : memory) (w : world) : at_ w h -> h p = cell x -> h r = cell y -> p <> r ->
  (full x = full y \/ move = true) ->
  wp (swap moved copy move copy_assign move_assign) (p, r) w
    (fun s _ w' => s = (p, r) /\ at_ w' (upd (upd h r (cell x)) p (cell y)))
    (fun s w' => s = (p, r) /\ ~ q /\
      ((at_ w' h /\ move = false /\ x <> None) \/
       (move_assign = false /\ x <> None /\ y <> None /\
         (at_ w' (upd h p (cell (option_map moved x))) \/ at_ w' (upd (upd h r (cell (option_map moved y))) p (cell y)))))).
Proof.
  intros H Hp Hr Hne Hmv. unfold swap. apply wp_local. apply wp_bind, wp_get, wp_unit. cbn [fst snd].
  eapply wp_conseq; [apply (move_gen p x h w H Hp)| |]; cbv beta.
  2:{ intros _ w' ((Hq & Hc & Hx) & H'). auto 9. }
  intros _ t w1 [Ht H1]. assert (Htp : t <> p). { intros ->. rewrite upd_same in Ht. discriminate. }
  rewrite upd_other in Ht by assumption. assert (Htr : t <> r) by congruence.
  apply wp_bind, wp_get. cbn [fst snd]. apply wp_bind. apply wp_fst. cbn [fst snd]. apply wp_fst. cbn [fst snd].
  eapply wp_conseq; [apply (move_assign_gen p (option_map moved x) r y _ w1 H1)| |]; cbv beta.
  { rewrite upd_other by congruence. apply upd_same. } { rewrite !upd_other by congruence. exact Hr. }
  { intros E1 E2. destruct Hmv as [Hmv|]; auto. destruct x, y; cbn in *; congruence. }
  2:{ intros p' w2 (-> & (Hq & Hc & Hx & Hy) & H2). cbn [fst snd].
      eapply wp_conseq; [apply (destruct_gen t x _ w2 H2); apply upd_same| |]; cbv beta; [|contradiction].
      intros _ _ w3 H3. cbn [fst snd]. split; auto. split; auto. right. split; auto. split. { destruct x; cbn in *; congruence. } split; auto. left.
      eapply at_ext; [exact H3|]. mem. }
  intros p' _ w2 [-> H2]. apply wp_bind, wp_get. cbn [fst snd]. apply wp_fst. cbn [fst snd]. apply wp_snd. cbn [fst snd].
  eapply wp_conseq; [apply (move_assign_gen r (option_map moved y) t x _ w2 H2)| |]; cbv beta.
  { rewrite upd_other by congruence. apply upd_same. } { rewrite !upd_other by congruence. apply upd_same. }
  { intros E1 E2. destruct Hmv as [Hmv|]; auto. destruct x, y; cbn in *; congruence. }
  2:{ intros p' w3 (-> & (Hq & Hc & Hy & Hx) & H3). cbn [fst snd].
      eapply wp_conseq; [apply (destruct_gen t x _ w3 H3); rewrite !upd_other by congruence; apply upd_same| |]; cbv beta; [|contradiction].
      intros _ _ w4 H4. cbn [fst snd]. split; auto. split; auto. right. split; auto. split; auto. split. { destruct y; cbn in *; congruence. } right.
      eapply at_ext; [exact H4|]. mem. }
  intros p' _ w3 [-> H3]. cbn [fst snd].
  eapply wp_conseq; [apply (destruct_gen t (option_map moved x) _ w3 H3); rewrite upd_other by congruence; apply upd_same| |]; cbv beta; [|contradiction].
  intros _ _ w4 H4. cbn [fst snd]. split; auto. eapply at_ext; [exact H4|]. mem.
Qed.

(** ** Steps *)
Definition there os ls others (w : world) : Prop := exists h, at_ w h /\ opts os ls others h.
Lemma there_optionals os ls others w : there os ls others w -> optionals os ls others w.
Proof.
  intros (h & H & Hs). destruct (at_memory _ _ _ H) as [He Hu]. split; auto. eapply (several_same _ in_same); [|exact Hs].
  intros b. symmetry. apply He.
Qed.
Lemma wp_another (m : M unit nat) os ls others w h h' ls1 x (Th : Prop) :
  opts os ls others h -> opts os ls1 others h' ->
  wp m tt w (fun _ p w' => h' p = None /\ at_ w' (upd h' p (cell x))) (fun _ w' => Th /\ at_ w' h) ->
  wp (another m) os w (fun os' _ w' => there os' (ls1 ++ [x]) others w') (fun os' w' => Th /\ there os' ls others w').
Proof.
  intros Hs Hs1 Hm. unfold another. apply wp_bind, wp_unit. eapply wp_conseq; [exact Hm| |]; cbv beta.
  - intros _ p w' [Hp H']. apply wp_bind, wp_get, wp_put. eexists. split; [exact H'|]. eapply opts_new; eauto. intros z; reflexivity.
  - intros _ w' [HT H']. split; auto. exists h. auto.
Qed.
Lemma wp_one {C} i (m : M nat C) os w p Q E : nth_error os i = Some p ->
  wp m p w (fun p' a w' => Q (replace_at i p' os) a w') (fun p' w' => E (replace_at i p' os) w') -> wp (one_of i m) os w Q E.
Proof. intros Ho. unfold wp, one_of. rewrite Ho. destruct (m p w); auto. Qed.
Lemma wp_two {C} i j (m : M (nat * nat) C) os w (o t : nat) Q E : nth_error os i = Some o -> nth_error os j = Some t ->
  wp m (o, t) w (fun p a w' => Q (replace_at j (snd p) (replace_at i (fst p) os)) a w')
    (fun p w' => E (replace_at j (snd p) (replace_at i (fst p) os)) w') -> wp (two_of i j m) os w Q E.
Proof. intros Ho Ht. unfold wp, two_of. rewrite Ho, Ht. destruct (m (o, t) w); auto. Qed.
Lemma wp_look {C} j os p (k : nat -> M (list nat) C) w Q E : nth_error os j = Some p ->
  wp (k p) os w Q E -> wp (looking_at j k) os w Q E.
Proof. intros Ho. unfold wp, looking_at, bind, get. now rewrite Ho. Qed.
Lemma has_full ls j : has (map full ls) j = full (nth j ls (@None B)).
Proof. unfold has. change false with (full (@None B)) at 1. apply map_nth. Qed.

Lemma origin_ok s os ls others h : opts os ls others h -> readable s (map full ls) = true ->
  exists c b h1, value_of s ls = Some b /\ makes_from h c b h1 /\ opts os (used moved s ls) others h1 /\
    (forall k w Q E, wp (k c) os w Q E -> wp (from_origin copy move s k) os w Q E) /\
    calm_before c = begins_safely s /\ calm_during c = constructs_safely copy move s /\ sets_safely c = assigns_safely copy_assign move_assign s /\
    (forall i p, nth_error os i = Some p -> reads s i = false -> match c with New _ _ _ => True | CopyAt _ r | MoveAt _ r => r <> p end).
Proof.
  intros Hin Hr. pose proof (several_lengths _ _ _ _ _ Hin) as Hlen.
  assert (Hj : forall j, has (map full ls) j = true -> exists r b, nth_error os j = Some r /\ nth j ls None = Some b /\ h r = cell (Some b)).
  { intros j Hj. rewrite has_full in Hj. destruct (nth j ls None) as [b|] eqn:E; [|discriminate].
    assert (j < length os). { rewrite Hlen. destruct (Nat.lt_ge_cases j (length ls)); auto. rewrite nth_overflow in E by assumption. discriminate. }
    destruct (opts_nth j _ _ _ _ Hin ltac:(assumption)) as (r & H1 & H2 & _). rewrite E in H2. eauto. }
  destruct s as [be du b|j|j]; cbn [readable value_of used from_origin begins_safely constructs_safely assigns_safely reads] in *.
  - exists (New be du b), b, h. cbn. repeat (split; auto).
  - destruct (Hj j Hr) as (r & b & H1 & H2 & H3). exists (CopyAt copy r), b, h. split; auto. split. { split; auto. intros z; reflexivity. } split; auto.
    split. { intros k w Q E Hk. eapply wp_look; eauto. } split; auto. split; auto. split; auto.
    intros i p Hp Hji. apply Nat.eqb_neq in Hji. cbn. eapply opts_differ; eauto.
  - destruct (Hj j Hr) as (r & b & H1 & H2 & H3). exists (MoveAt move r), b, (upd h r (cell (Some (moved b)))). split; auto.
    split. { split; auto. intros z; reflexivity. } split. { eapply opts_upd; eauto. rewrite H2. intros z; reflexivity. }
    split. { intros k w Q E Hk. eapply wp_look; eauto. } split; auto. split; auto. split; auto.
    intros i p Hp Hji. apply Nat.eqb_neq in Hji. cbn. eapply opts_differ; eauto.
Qed.

Local Notation do_step := (do_step moved copy move copy_assign move_assign).
Local Notation or_else := (or_else moved copy move copy_assign move_assign).
Local Notation possible := (possible copy move (B := B)).
Local Notation program := (program moved copy move copy_assign move_assign).

Lemma step_ok s os ls others w h :
  at_ w h -> opts os ls others h -> possible s (map full ls) = true ->
  wp (do_step s) os w
    (fun os' _ w' => there os' (then_ moved s ls) others w')
    (fun os' w' => ~ q /\ exists ls', or_else s ls ls' /\ there os' ls' others w').
Proof.
  intros H Hin Hp. pose proof (several_lengths _ _ _ _ _ Hin) as Hlen.
  destruct s as [|s|j|j|i|i s|i|i s|i j|i j|i j]; cbn [SpecOptionalPrograms.possible SpecOptionalPrograms.do_step then_ SpecOptionalPrograms.or_else] in *;
    rewrite ?map_length, <- ?Hlen in Hp;
    repeat match goal with H : _ && _ = true |- _ => apply andb_prop in H; destruct H end;
    repeat match goal with
           | H : (_ <? _) = true |- _ => apply Nat.ltb_lt in H
           | H : negb (_ =? _) = true |- _ => apply negb_true_iff, Nat.eqb_neq in H
           end; rewrite ?has_full in *.
  - (* NewNone *) eapply wp_conseq; [eapply (wp_another _ _ _ _ _ _ _ _ None False Hin Hin); eapply wp_conseq; [apply (none_gen h w H)| |]| |]; cbv beta; auto.
    { intros _ w' []. } intros os' w' [[] _].
  - (* NewValue *) destruct (origin_ok s _ _ _ _ Hin Hp) as (c & b & h1 & Hv & Hm & Hin1 & Hrun & Hcb & Hcd & _). rewrite Hv. apply Hrun.
    eapply wp_conseq; [eapply (wp_another _ _ _ _ _ _ _ _ (Some b) _ Hin Hin1); apply (some_gen c b h h1 w H Hm)| |]; cbv beta; auto.
    intros os' w' ((Hq & Hn) & Hh). split; auto. exists ls. split; auto. split; auto. congruence.
  - (* NewCopy *) destruct (opts_nth j _ _ _ _ Hin Hp) as (r & Hr & Hc & _). eapply wp_look; [exact Hr|].
    eapply wp_conseq; [eapply (wp_another _ _ _ _ _ _ _ _ _ _ Hin Hin); apply (copy_gen r _ h w H Hc)| |]; cbv beta; auto.
    intros os' w' ((Hq & Hn) & Hh). split; eauto.
  - (* NewMove *) destruct (opts_nth j _ _ _ _ Hin Hp) as (r & Hr & Hc & _). eapply wp_look; [exact Hr|].
    eapply wp_conseq; [eapply (wp_another _ _ _ _ _ _ _ _ _ _ Hin); [|apply (move_gen r _ h w H Hc)]| |]; cbv beta; auto.
    + eapply opts_upd; eauto. intros z; reflexivity.
    + auto.
    + intros os' w' ((Hq & Hn) & Hh). split; eauto.
  - (* End *) destruct (opts_nth i _ _ _ _ Hin Hp) as (r & Hr & Hc & _). apply wp_bind. eapply wp_one; [exact Hr|].
    eapply wp_conseq; [apply (destruct_gen r _ h w H Hc)| |]; cbv beta; [|contradiction].
    intros o' _ w' H'. apply wp_bind, wp_get, wp_put. eexists. split; [exact H'|].
    assert (Hrm : remove_at i (replace_at i o' os) = remove_at i os).
    { clear - Hp. revert os Hp. induction i as [|i IH]; intros [|x os] Hp; cbn [length] in *; try lia; [reflexivity|].
      rewrite replace_S, !remove_S. f_equal. apply IH. lia. }
    rewrite Hrm. eapply opts_end; eauto. intros z; reflexivity.
  - (* Emplace *) destruct (opts_nth i _ _ _ _ Hin ltac:(assumption)) as (p & Hnp & Hc & _).
    destruct (origin_ok s _ _ _ _ Hin ltac:(assumption)) as (c & b & h1 & Hv & Hm & Hin1 & Hrun & Hcb & Hcd & Hcs & Helse). rewrite Hv. apply Hrun.
    eapply wp_one; [exact Hnp|]. eapply wp_conseq; [apply (emplace_gen p _ c b h h1 w H Hc Hm)| |]; cbv beta.
    + apply (Helse i p Hnp). now apply negb_true_iff.
    + congruence.
    + intros p' _ w' [-> H']. eexists. split; [exact H'|]. rewrite (replace_same i p os Hnp). eapply opts_upd; eauto. intros z; reflexivity.
    + intros p' w' (-> & [Hq Hn] & H'). split; auto. exists (replace_at i None ls). split. { split; auto. congruence. }
      eexists. split; [exact H'|]. rewrite (replace_same i p os Hnp). eapply opts_upd; eauto. intros z; reflexivity.
  - (* AssignNone *) destruct (opts_nth i _ _ _ _ Hin Hp) as (p & Hnp & Hc & _).
    eapply wp_one; [exact Hnp|]. eapply wp_conseq; [apply (assign_none_gen p _ h w H Hc)| |]; cbv beta; [|contradiction].
    intros p' _ w' [-> H']. eexists. split; [exact H'|]. rewrite (replace_same i p os Hnp). eapply opts_upd; eauto. intros z; reflexivity.
  - (* AssignValue *) destruct (opts_nth i _ _ _ _ Hin ltac:(assumption)) as (p & Hnp & Hc & _).
    destruct (origin_ok s _ _ _ _ Hin ltac:(assumption)) as (c & b & h1 & Hv & Hm & Hin1 & Hrun & Hcb & Hcd & Hcs & Helse). rewrite Hv. apply Hrun.
    eapply wp_one; [exact Hnp|]. eapply wp_conseq; [apply (assign_gen p _ c b h h1 w H Hc Hm)| |]; cbv beta.
    + intros Hn. rewrite Hn in *. match goal with Hx : full None || _ = true |- _ => cbn in Hx end. congruence.
    + intros p' _ w' [-> H']. eexists. split; [exact H'|]. rewrite (replace_same i p os Hnp). eapply opts_upd; eauto. intros z; reflexivity.
    + intros p' w' (-> & [Hq Hn] & H'). split; auto. exists ls. split. { split; auto. destruct (nth i ls None); congruence. }
      exists h. split; auto. now rewrite (replace_same i p os Hnp).
  - (* CopyAssign *) destruct (opts_nth i _ _ _ _ Hin ltac:(assumption)) as (p & Hnp & Hc & _). destruct (opts_nth j _ _ _ _ Hin ltac:(assumption)) as (r & Hnr & Hr & _).
    eapply wp_look; [exact Hnr|]. eapply wp_one; [exact Hnp|]. eapply wp_conseq; [apply (copy_assign_gen p _ r _ h w H Hc Hr)| |]; cbv beta.
    + intros E1 E2. rewrite E1 in *. destruct (nth j ls None); [|congruence]. cbn in *. assumption.
    + intros p' _ w' [-> H']. eexists. split; [exact H'|]. rewrite (replace_same i p os Hnp). eapply opts_upd; eauto. intros z; reflexivity.
    + intros p' w' (-> & [Hq Hn] & H'). split; auto. exists ls. split; auto. exists h. split; auto. now rewrite (replace_same i p os Hnp).
  - (* MoveAssign *) destruct (opts_nth i _ _ _ _ Hin ltac:(assumption)) as (p & Hnp & Hc & _). destruct (opts_nth j _ _ _ _ Hin ltac:(assumption)) as (r & Hnr & Hr & _).
    eapply wp_look; [exact Hnr|]. eapply wp_one; [exact Hnp|]. eapply wp_conseq; [apply (move_assign_gen p _ r _ h w H Hc Hr)| |]; cbv beta.
    + intros E1 E2. rewrite E1 in *. destruct (nth j ls None); [|congruence]. cbn in *. assumption.
    + intros p' _ w' [-> H']. eexists. split; [exact H'|]. rewrite (replace_same i p os Hnp). eapply opts_upd; [eapply (opts_upd j); eauto; intros z; reflexivity|exact Hnp|intros z; reflexivity].
    + intros p' w' (-> & [Hq Hn] & H'). split; auto. exists ls. split; auto. exists h. split; auto. now rewrite (replace_same i p os Hnp).
  - (* Swap *) destruct (opts_nth i _ _ _ _ Hin ltac:(assumption)) as (p & Hnp & Hc & _). destruct (opts_nth j _ _ _ _ Hin ltac:(assumption)) as (r & Hnr & Hr & _).
    assert (Hsame : replace_at j r (replace_at i p os) = os). { rewrite (replace_same i p os Hnp). now apply replace_same. }
    eapply wp_two; [exact Hnp|exact Hnr|]. eapply wp_conseq; [apply (swap_gen p _ r _ h w H Hc Hr)| |]; cbv beta.
    + eapply opts_differ; [exact Hin| |exact Hnp|exact Hnr]. assumption.
    + match goal with Hx : eqb _ _ || _ = true |- _ => apply orb_prop in Hx; destruct Hx; auto; left; now apply eqb_prop end.
    + intros s _ w' [-> H']. cbn [fst snd]. eexists. split; [exact H'|]. rewrite Hsame. eapply opts_upd; [eapply (opts_upd j); eauto; intros z; reflexivity|exact Hnp|intros z; reflexivity].
    + intros s w' (-> & Hq & Hx). cbn [fst snd]. rewrite Hsame. split; auto. destruct Hx as [(H' & Hm & Hx)|(Hm & Hx & Hy & [H'|H'])].
      * exists ls. split; auto. exists h. auto.
      * exists (replace_at i (option_map moved (nth i ls None)) ls). split. { right. auto 6. } eexists. split; [exact H'|]. eapply opts_upd; eauto. intros z; reflexivity.
      * exists (replace_at i (nth j ls None) (replace_at j (option_map moved (nth j ls None)) ls)). split. { right. auto 6. } eexists. split; [exact H'|].
        eapply opts_upd; [eapply (opts_upd j); eauto; intros z; reflexivity|exact Hnp|intros z; reflexivity].
Qed.

(** ** Programs *)
Lemma ask_all_ok os ls others h (w : world) : at_ w h -> opts os ls others h -> forall n i, i + n = length os -> forall (Q : list nat -> list bool -> world -> Prop) E,
  Q os (map full (skipn i ls)) w -> wp (ask_all moved copy move copy_assign move_assign i n) os w Q E.
Proof.
  intros H Hin. pose proof (several_lengths _ _ _ _ _ Hin) as Hlen. induction n as [|n IH]; intros i Hi Q E HQ; cbn [ask_all].
  - apply wp_ret. rewrite skipn_all2 in HQ by lia. exact HQ.
  - destruct (opts_nth i _ _ _ _ Hin ltac:(lia)) as (p & Hnp & Hc & Hnl & Hil).
    apply wp_bind. eapply wp_one; [exact Hnp|]. unfold opt_bool, in_place, s_initialized. apply wp_bind, wp_get. eapply wp_initialized; eauto.
    rewrite (replace_same i p os Hnp). apply wp_bind. apply IH; [lia|]. apply wp_ret.
    assert (Hs : skipn i ls = nth i ls None :: skipn (S i) ls).
    { clear - Hil. revert ls Hil. induction i as [|i IH]; intros [|x ls] Hil; cbn [length] in *; try lia; [reflexivity|]. cbn [skipn nth]. rewrite (IH ls) by lia. reflexivity. }
    rewrite Hs in HQ. cbn [map] in HQ. exact HQ.
Qed.
Lemma have_values_ok os ls others h (w : world) (Q : list nat -> list bool -> world -> Prop) E : at_ w h -> opts os ls others h ->
  Q os (map full ls) w -> wp (have_values moved copy move copy_assign move_assign) os w Q E.
Proof. intros H Hin HQ. unfold have_values. apply wp_bind, wp_get. eapply ask_all_ok; eauto. Qed.
Lemma program_ok ss : forall os ls others w, there os ls others w ->
  wp (program ss) os w (fun os' _ w' => exists ls', accounts moved copy move copy_assign move_assign ss ls ls' /\ there os' ls' others w') (fun _ _ => False).
Proof.
  induction ss as [|s ss IH]; intros os ls others w Ha; cbn [SpecOptionalPrograms.program].
  - apply wp_ret. exists ls. split; auto. constructor.
  - pose proof Ha as (h & H & Hin). apply wp_bind. eapply have_values_ok; eauto. destruct (possible s (map full ls)) eqn:Hp.
    + apply wp_bind. pose proof (step_ok s os ls others w h H Hin Hp) as Hs. unfold wp in Hs |- *. unfold attempt.
      destruct (do_step s os w) as [os1 [] w1|os1 w1|]; [| |contradiction].
      * eapply wp_conseq. { apply (IH _ _ _ _ Hs). } 2: auto.
        cbv beta. intros o' _ w' (ls' & He & H'). exists ls'. split; auto. now apply accounts_returns.
      * destruct Hs as [_ (ls1 & Hi & Hv1)]. eapply wp_conseq. { apply (IH _ _ _ _ Hv1). } 2: auto.
        cbv beta. intros o' _ w' (ls' & He & H'). exists ls'. split; auto. eapply accounts_throws; eauto.
    + eapply wp_conseq. { apply (IH _ _ _ _ Ha). } 2: auto. cbv beta. intros o' _ w' (ls' & He & H'). exists ls'. split; auto. now apply accounts_skips.
Qed.
Lemma program_plain (Hq : q) ss : forall os ls others w, there os ls others w ->
  wp (program ss) os w (fun os' _ w' => there os' (plainly moved copy move ss ls) others w') (fun _ _ => False).
Proof.
  induction ss as [|s ss IH]; intros os ls others w Ha; cbn [SpecOptionalPrograms.program plainly] in *.
  - apply wp_ret. exact Ha.
  - pose proof Ha as (h & H & Hin). apply wp_bind. eapply have_values_ok; eauto. destruct (possible s (map full ls)) eqn:Hp.
    + apply wp_bind. pose proof (step_ok s os ls others w h H Hin Hp) as Hs. unfold wp in Hs |- *. unfold attempt.
      destruct (do_step s os w) as [os1 [] w1|os1 w1|]; [| |contradiction].
      * now apply IH.
      * now destruct Hs.
    + now apply IH.
Qed.
Lemma ends_program n : forall os ls others w, length os = n -> there os ls others w ->
  wp (program (repeat (End 0) n)) os w (fun os' _ w' => os' = [] /\ at_ w' others) (fun _ _ => False).
Proof.
  induction n as [|n IH]; intros os ls others w Hn (h & H & Hin).
  - destruct os; [|discriminate]. destruct ls; [|destruct Hin]. apply wp_ret. split; auto. eapply at_ext; [exact H|exact Hin].
  - cbn [repeat SpecOptionalPrograms.program]. apply wp_bind. eapply have_values_ok; eauto. destruct os as [|o os]; [discriminate|]. destruct ls as [|l ls]; [destruct Hin|].
    change (possible (End 0) (map full (l :: ls))) with true. cbv iota. apply wp_bind.
    pose proof (step_ok (End 0) (o :: os) (l :: ls) others w h H Hin eq_refl) as Hs. unfold attempt, wp in Hs |- *.
    assert (Hd : match do_step (End 0) (o :: os) w with Ret os' _ _ => os' = os | _ => True end).
    { cbn [SpecOptionalPrograms.do_step]. unfold one_of, bind, get, put. cbn [nth_error]. destruct (opt_destruct st o w) as [o1 [] w1|o1 w1|]; auto. }
    destruct (do_step (End 0) (o :: os) w) as [os1 [] w1|os1 w1|]; [| |contradiction].
    + subst os1. change (then_ moved (End 0) (l :: ls)) with ls in Hs. eapply IH; [|apply Hs]. now injection Hn.
    + destruct Hs as [_ (ls' & [] & _)].
Qed.
End Proofs.

(** ** For a world *)
Section World.
Context {B : Type} (moved : B -> B) (copy move copy_assign move_assign : bool).
Lemma optionals_there os ls others (w : world (rep B)) : optionals os ls others w -> there (~ someone_throws w) os ls others w.
Proof. intros [Hs Hu]. exists (heap w). split; auto. now apply memory_at. Qed.
Lemma program_optionals ss os ls others (w : world (rep B)) :
  optionals os ls others w ->
  ends (program moved copy move copy_assign move_assign ss os w)
    (fun os' _ w' => exists ls', accounts moved copy move copy_assign move_assign ss ls ls' /\ optionals os' ls' others w') (fun _ _ => False).
Proof.
  intros Ha. pose proof (program_ok moved copy move copy_assign move_assign (~ someone_throws w) ss os ls others w (optionals_there _ _ _ _ Ha)) as H. unfold wp in H. unfold ends.
  destruct (program moved copy move copy_assign move_assign ss os w) as [os' [] w'|os' w'|]; try contradiction. destruct H as (ls' & H1 & H2). exists ls'. split; auto. eapply there_optionals; eauto.
Qed.
Lemma program_optionals_plain ss os ls others (w : world (rep B)) :
  optionals os ls others w -> ~ someone_throws w ->
  ends (program moved copy move copy_assign move_assign ss os w) (fun os' _ w' => optionals os' (plainly moved copy move ss ls) others w') (fun _ _ => False).
Proof.
  intros Ha Hq. pose proof (program_plain moved copy move copy_assign move_assign (~ someone_throws w) Hq ss os ls others w (optionals_there _ _ _ _ Ha)) as H. unfold wp in H. unfold ends.
  destruct (program moved copy move copy_assign move_assign ss os w) as [os' [] w'|os' w'|]; try contradiction. eapply there_optionals; eauto.
Qed.
Lemma whole_ok ss (w : world (rep B)) :
  unused_names w -> ends (whole moved copy move copy_assign move_assign ss tt w) (fun _ _ w' => same (heap w') (heap w)) (fun _ _ => False).
Proof.
  intros Hu. unfold whole. assert (Ha : optionals [] [] (heap w) w). { split; auto. intros b. reflexivity. }
  pose proof (program_ok moved copy move copy_assign move_assign (~ someone_throws w) ss [] [] (heap w) w (optionals_there _ _ _ _ Ha)) as H. unfold wp in H. unfold ends.
  destruct (program moved copy move copy_assign move_assign ss [] w) as [os [] w1|os w1|]; try contradiction.
  destruct H as (ls & _ & Ha1). pose proof (ends_program moved copy move copy_assign move_assign (~ someone_throws w) (length os) os ls (heap w) w1 eq_refl Ha1) as H. unfold wp in H.
  destruct (program moved copy move copy_assign move_assign (repeat (End 0) (length os)) os w1); try contradiction. destruct H as [_ H]. apply (at_memory _ _ _ H).
Qed.
End World.
Lemma several_in_same_world {B : Type} os ls (others m m' : memory (V := rep B)) :
  same m m' -> several_in is_optional_p_in os ls others m -> several_in is_optional_p_in os ls others m'.
Proof. intros H. apply (several_same _ in_same); auto. Qed.
