(** * Proofs for flat maps in memory: programs, vectors, static vectors and the capacity *)

From Coq Require Import List Arith Bool Lia.
From Verif Require Import Mem SpecVec Vec SpecSort SpecUnique FlatMap SpecMap SortLemmas VecProofs VecProofs2 VecCost VecHistory FlatMapProofs FlatMapProofs2 Keyed SpecDict KeyedProofs
  FlatMemory SpecFlatMemory FlatMemoryProofs.
From Verif Require Algo SboCalm VecPrograms StaticPrograms PropsVec PropsRest.
Import ListNotations.
Local Open Scope nat_scope.

Section Pigeons.
Context {K T : Type} (key_less : K -> K -> bool) (Hlt : strict_weak_order key_less).
Local Notation same := (equivalent key_less).
Lemma pigeons n (m : list (K * T)) : different_keys same n -> distinct same m -> length m <= n.
Proof.
  intros (ks & <- & Hks & _) Hm. set (rep := fun e : K * T => List.find (same (fst e)) ks).
  assert (Hrep : forall e, exists r, rep e = Some r /\ In r ks /\ same (fst e) r = true).
  { intros e. unfold rep. destruct (List.find (same (fst e)) ks) as [r|] eqn:E.
    - exists r. split; [reflexivity|]. apply find_some in E. tauto.
    - destruct (Hks (fst e)) as (r & Hr & Hs). pose proof (find_none _ _ E r Hr). congruence. }
  rewrite <- (map_length rep m). rewrite <- (map_length Some ks). apply NoDup_incl_length.
  - apply NoDup_nth_error. intros i j Hi E. rewrite map_length in Hi. rewrite !nth_error_map in E.
    destruct (nth_error m i) as [a|] eqn:Ea; [|apply nth_error_None in Ea; lia]. cbn in E.
    destruct (nth_error m j) as [b|] eqn:Eb; [|discriminate]. cbn in E. injection E as E.
    apply (Hm i j a b Ea Eb). destruct (Hrep a) as (r & Er & _ & Hr). destruct (Hrep b) as (r' & Er' & _ & Hr').
    rewrite E, Er' in Er. injection Er as ->. apply (same_trans key_less Hlt _ r); [exact Hr|]. now rewrite (same_sym key_less).
  - intros o Ho. apply in_map_iff in Ho as (e & <- & _). destruct (Hrep e) as (r & -> & Hr & _). now apply in_map.
Qed.
Lemma room_for_key n (m : list (K * T)) k (v : T) : different_keys same n -> flat key_less m -> element_of same m k = None -> S (length m) <= n.
Proof.
  intros Hn Hm He. destruct (lazy_insert_ok key_less Hlt m k v Hm) as (m' & p & b & _ & Hm' & H). rewrite He in H. destruct H as (_ & _ & Hp & E).
  replace (S (length m)) with (length m'). { apply pigeons; [exact Hn|]. now apply flat_is_distinct. }
  rewrite E, app_length. cbn [length]. rewrite firstn_length, skipn_length. lia.
Qed.
End Pigeons.

Section Vector.
Context {K T : Type} (moved : K * T -> K * T) (key_less : K -> K -> bool) (Hlt : strict_weak_order key_less) (maxc : nat).
Local Notation element := (K * T)%type.
Local Notation world := (world element).
Local Notation same := (equivalent key_less).
Local Notation C := (bounded_vector moved 0 maxc).
Context (others : memory (V := element)).
Definition vec_holds (o : bvector) (m : list element) (w : world) : Prop := is_vector 0 maxc o m others w.
Definition vec_grows (o o' : bvector) (n : nat) : Prop := capacity_of o' = grown o n.
Definition vec_full (o : bvector) (n : nat) : Prop := capacity_of o < n /\ maxc < grown o n.
Definition vec_stays (o o' : bvector) : Prop := capacity_of o' = capacity_of o.

Lemma vec_size o m w : vec_holds o m w -> c_size C o = length m.
Proof. intros ((H & _) & _). exact H. Qed.
Lemma vec_read o m w : vec_holds o m w -> readable o (c_data C o) m w.
Proof.
  intros ((_ & H) & _) i e Hi. cbn [bounded_vector c_data]. unfold bv_data, load, find_cell. destruct (u_pointer (b_storage o)) as [b|].
  - destruct H as (_ & (spare & -> & _) & _). rewrite nth_error_app1 by (rewrite map_length; apply nth_error_Some; congruence).
    rewrite nth_error_map, Hi. reflexivity.
  - destruct H as (-> & _). destruct i; discriminate.
Qed.
Lemma vec_quiet o m w w' : vec_holds o m w -> quiet w w' -> vec_holds o m w'.
Proof.
  intros (H1 & H2) (Hh & Hn & _). split; [now rewrite Hh|]. unfold unused_names in *. now rewrite Hh, Hn.
Qed.
Lemma vec_insert o before rest u w : vec_holds o (before ++ rest) w ->
  ends (insert_one moved C (length before) (Supply u) o w)
    (fun o' r w' => r = length before /\ vec_holds o' (before ++ u :: rest) w' /\ incl (script w') (script w) /\ vec_grows o o' (length (before ++ u :: rest)))
    (fun o' w' => o' = o /\ vec_holds o (before ++ rest) w' /\ incl (script w') (script w) /\ (someone_throws w \/ vec_full o (length (before ++ u :: rest)))).
Proof.
  intros H. pose proof (PropsRest.C32_insert_one _ moved 0 maxc (Supply u) u o before rest others w (Nat.le_0_l _) H eq_refl) as Hi.
  pose proof (evolves_insert moved _ less_script_evolution 0 maxc 1 (evolves_default _ less_script_evolution 0) (length before) [Supply u] o w) as He.
  unfold insert_one in *. unfold ends in *. destruct (Vec.insert moved C (length before) [Supply u] o w) as [o' r w'|o' w'|]; auto.
  - destruct Hi as (-> & Hv & Hc). repeat split; auto; apply Hv.
  - destruct Hi as ((-> & Hs & Hu) & Hc). split; [reflexivity|]. split; [|split; [exact He|exact Hc]]. eapply untouched_vec; [exact H|]. repeat split; auto.
Qed.
Lemma vec_erase o before ds rest w : vec_holds o (before ++ ds ++ rest) w ->
  ends (Vec.erase moved C (length before) (length before + length ds) o w)
    (fun o' r w' => vec_holds o' (before ++ rest) w' /\ incl (script w') (script w) /\ vec_stays o o') (fun _ _ => False).
Proof.
  intros H. pose proof (PropsVec.C31_erase _ moved 0 maxc o before ds rest others w (Nat.le_0_l _) H) as Hi.
  pose proof (evolves_erase moved _ less_script_evolution 0 maxc (length before) (length before + length ds) o w) as He.
  unfold ends in *. destruct (Vec.erase moved C _ _ o w) as [o' r w'|o' w'|]; auto. destruct Hi as (_ & Hv & Hc). split; [exact Hv|]. split; [exact He|exact Hc].
Qed.
End Vector.

Section Static.
Context {K T : Type} (moved : K * T -> K * T) (key_less : K -> K -> bool) (Hlt : strict_weak_order key_less) (capacity : nat).
Local Notation element := (K * T)%type.
Local Notation world := (world element).
Local Notation C := (static_vector (V := element) capacity).
Context (others : memory (V := element)).
Definition static_holds (o : svector) (m : list element) (w : world) : Prop := is_static_vector capacity o m others w.
Lemma static_size o m w : static_holds o m w -> c_size C o = length m.
Proof. intros ((H & _) & _). exact H. Qed.
Lemma static_read o m w : static_holds o m w -> readable o (c_data C o) m w.
Proof.
  intros ((_ & _ & (spare & H & _) & _) & _) i e Hi. cbn [static_vector c_data]. unfold sv_data, load, find_cell. rewrite H.
  rewrite nth_error_app1 by (rewrite map_length; apply nth_error_Some; congruence). rewrite nth_error_map, Hi. reflexivity.
Qed.
Lemma static_quiet o m w w' : static_holds o m w -> quiet w w' -> static_holds o m w'.
Proof. intros (H1 & H2) (Hh & Hn & _). split; [now rewrite Hh|]. unfold unused_names in *. now rewrite Hh, Hn. Qed.
Lemma static_insert o before rest u w : static_holds o (before ++ rest) w ->
  ends (insert_one moved C (length before) (Supply u) o w)
    (fun o' r w' => r = length before /\ static_holds o' (before ++ u :: rest) w' /\ incl (script w') (script w) /\ True)
    (fun o' w' => o' = o /\ static_holds o (before ++ rest) w' /\ incl (script w') (script w) /\ (someone_throws w \/ capacity < length (before ++ u :: rest))).
Proof.
  intros H. pose proof (PropsRest.C36_insert_one _ moved capacity (Supply u) u o before rest others w H eq_refl) as Hi.
  pose proof (StaticPrograms.calm_insert moved capacity (length before) [Supply u] o w) as He.
  unfold insert_one in *. unfold ends in *. destruct (Vec.insert moved C (length before) [Supply u] o w) as [o' r w'|o' w'|]; auto.
  - destruct Hi as (-> & Hv). destruct He. auto.
  - destruct Hi as ((-> & Hs & Hu) & Hc). destruct He as [He _]. split; [reflexivity|]. split; [|split; [exact He|exact Hc]].
    destruct H as [(Hz & Hx & Hb & Ho) H2]. split; [split; [exact Hz|split; [exact Hx|split]]|].
    + destruct Hb as (k & E & Hk). exists k. rewrite Hs. auto.
    + intros b Hb'. rewrite Hs. now apply Ho.
    + exact Hu.
Qed.
Lemma static_erase o before ds rest w : static_holds o (before ++ ds ++ rest) w ->
  ends (Vec.erase moved C (length before) (length before + length ds) o w)
    (fun o' r w' => static_holds o' (before ++ rest) w' /\ incl (script w') (script w) /\ True) (fun _ _ => False).
Proof.
  intros H. pose proof (PropsVec.C36_erase _ moved capacity o before ds rest others w H) as Hi.
  pose proof (StaticPrograms.calm_erase moved capacity (length before) (length before + length ds) o w) as He.
  unfold ends in *. destruct (Vec.erase moved C _ _ o w) as [o' r w'|o' w'|]; auto. destruct Hi as (_ & Hv). destruct He. auto.
Qed.
End Static.

(** Programs *)
Section Sessions.
Context {K T O A R D : Type} (act : A -> M (K * T) O R) (spec : D -> A -> D * R) (holds : O -> D -> world (K * T) -> Prop) (I : O -> Prop)
  (may : D -> A -> Prop).
Hypothesis act_ok : forall o d w a, holds o d w ->
  ends (act a o w)
    (fun o' r w' => r = snd (spec d a) /\ holds o' (fst (spec d a)) w' /\ incl (script w') (script w) /\ (I o -> I o'))
    (fun o' w' => o' = o /\ holds o d w' /\ incl (script w') (script w) /\ (someone_throws w \/ ~ I o /\ may d a)).
Lemma session_ok (w0 : world (K * T)) actions : forall o d w, holds o d w -> incl (script w) (script w0) ->
  ends (session act actions o w)
    (fun o' seen w' => exists d', explained spec (fun d a => someone_throws w0 \/ may d a) d actions seen d' /\ holds o' d' w' /\ incl (script w') (script w) /\
       (~ someone_throws w -> I o -> I o' /\ ~ In None seen)) (fun _ _ => False).
Proof.
  induction actions as [|a actions IH]; intros o d w H Hw0; cbn [session].
  - cbn. exists d. split; [constructor|]. split; [exact H|]. split; [apply incl_refl|]. auto.
  - unfold bind, attempt. pose proof (act_ok o d w a H) as Ha. destruct (act a o w) as [o1 r w1|o1 w1|]; cbn [ends] in Ha; [| |contradiction].
    + destruct Ha as (-> & H1 & Hs & HI). specialize (IH o1 _ w1 H1 (incl_tran Hs Hw0)). destruct (session act actions o1 w1) as [o2 rs w2|o2 w2|]; cbn [ends ret] in *; [|contradiction..].
      destruct IH as (d' & He & Hd & Hs2 & Hn). exists d'. split; [now constructor|]. split; [exact Hd|]. split; [eapply incl_tran; eauto|].
      intros Hw Ho. destruct (Hn (fun Ht => Hw (Hs _ Ht)) (HI Ho)) as [H3 H4]. split; [exact H3|]. intros [Hx|Hx]; [discriminate|auto].
    + destruct Ha as (-> & H1 & Hs & Hw). specialize (IH o _ w1 H1 (incl_tran Hs Hw0)). destruct (session act actions o w1) as [o2 rs w2|o2 w2|]; cbn [ends ret] in *; [|contradiction..].
      destruct IH as (d' & He & Hd & Hs2 & Hn). exists d'. split; [constructor; [|exact He]|]. { destruct Hw as [Hw|[_ Hw]]; [left; apply Hw0, Hw|now right]. }
      split; [exact Hd|]. split; [eapply incl_tran; eauto|]. intros Hw' Ho. destruct Hw as [Hw|[Hw _]]; contradiction.
Qed.
End Sessions.
Lemma explained_replies {K T} (same : K -> K -> bool) may actions : forall (d : @dictionary K T) seen d',
  explained (dictionary_act same) may d actions seen d' -> ~ In None seen -> seen = map Some (dictionary_replies same d actions).
Proof.
  induction actions as [|a actions IH]; intros d seen d' H Hn; inversion H; subst; cbn [dictionary_replies].
  - reflexivity.
  - destruct (dictionary_act same d a) as [d1 r]. cbn [fst snd map] in *. f_equal. eapply IH; [eassumption|]. intros Hi. apply Hn. now right.
  - destruct Hn. now left.
Qed.
Lemma multi_explained_replies {K T} (same : K -> K -> bool) may actions : forall (d : @multi_dictionary K T) seen d',
  explained (multi_dictionary_act same) may d actions seen d' -> ~ In None seen -> seen = map Some (multi_dictionary_replies same d actions).
Proof.
  induction actions as [|a actions IH]; intros d seen d' H Hn; inversion H; subst; cbn [multi_dictionary_replies].
  - reflexivity.
  - destruct (multi_dictionary_act same d a) as [d1 r]. cbn [fst snd map] in *. f_equal. eapply IH; [eassumption|]. intros Hi. apply Hn. now right.
  - destruct Hn. now left.
Qed.

(** A flat map in a vector: [inv] is kept by the capacity. *)
Section FlatVector.
Context {K T : Type} (moved : K * T -> K * T) (key_less : K -> K -> bool) (Hlt : strict_weak_order key_less) (maxc : nat).
Local Notation element := (K * T)%type.
Local Notation same := (equivalent key_less).
Local Notation C := (bounded_vector moved 0 maxc).
Context (others : memory (V := element)).
Definition flat_in (o : bvector) (d : @dictionary K T) (w : world element) : Prop :=
  exists m, vec_holds maxc others o m w /\ flat key_less m /\ represents same m d.
Definition multi_flat_in (o : bvector) (d : @multi_dictionary K T) (w : world element) : Prop :=
  exists m, vec_holds maxc others o m w /\ multi_flat key_less m /\ multi_represents key_less m d.

Lemma holds_fit o m w : vec_holds maxc others o m w -> length m <= capacity_of o.
Proof.
  intros ((_ & H) & _). destruct (u_pointer (b_storage o)).
  - destruct H as (_ & (spare & _ & H & _) & _). unfold capacity_of. lia.
  - destruct H as (-> & _). cbn. lia.
Qed.
Definition shaped_in (shape : nat -> Prop) o d w := flat_in o d w /\ shape (capacity_of o).
Lemma flat_vector_act (good : Prop) (shape inv : nat -> Prop) n : (good -> different_keys same n) -> (forall c, shape c -> shape (Nat.max (S c) (2 * c))) ->
  (forall c, inv c -> S c <= n -> Nat.max (S c) (2 * c) <= maxc /\ inv (Nat.max (S c) (2 * c))) ->
  forall o d w a, shaped_in shape o d w ->
  ends (mem_act moved key_less C a o w)
    (fun o' r w' => r = snd (dictionary_act same d a) /\ shaped_in shape o' (fst (dictionary_act same d a)) w' /\ incl (script w') (script w) /\
       (good /\ inv (capacity_of o) -> good /\ inv (capacity_of o')))
    (fun o' w' => o' = o /\ shaped_in shape o d w' /\ incl (script w') (script w) /\ (someone_throws w \/ ~ (good /\ inv (capacity_of o)) /\ inserts_new d a /\ cannot_double maxc (keys d))).
Proof.
  intros Hn Hshape Hinv o d w a ((m & Hh & Hm & Hr) & Hsh).
  pose proof (act_memory moved key_less Hlt C (vec_holds maxc others) vec_grows (vec_full maxc) vec_stays (fun _ => eq_refl) (vec_size moved maxc others) (vec_read moved maxc others)
    (vec_quiet maxc others) (vec_insert moved maxc others) (vec_erase moved maxc others) o m w a Hh Hm) as Ha.
  destruct (flat_act_ok key_less Hlt m d a Hm Hr) as (m1 & Hact & Hm1 & Hr1). unfold ends in *. destruct (mem_act moved key_less C a o w) as [o' r w'|o' w'|]; auto.
  - destruct Ha as (m' & Hf & Hh' & Hs & Hst). rewrite Hact in Hf. injection Hf as <- <-. split; [reflexivity|].
    assert (capacity_of o' = capacity_of o \/ S (capacity_of o) = length m1 /\ capacity_of o' = Nat.max (S (capacity_of o)) (2 * capacity_of o)) as Hc.
    { destruct Hst as [(_ & E)|(El & E)]; [now left|]. unfold vec_grows, grown in E. destruct (Nat.leb_spec (length m1) (capacity_of o)); [now left|right].
      pose proof (holds_fit _ _ _ Hh). split; [lia|]. rewrite E. f_equal. lia. }
    split; [split; [now exists m1|destruct Hc as [->|[_ ->]]; auto]|]. split; [exact Hs|].
    intros (Hg & Hi). split; [exact Hg|]. destruct Hc as [->|[El ->]]; [exact Hi|].
    apply Hinv; [exact Hi|]. rewrite El. exact (pigeons key_less Hlt n m1 (Hn Hg) (flat_is_distinct key_less m1 Hm1)).
  - destruct Ha as (-> & Hh' & Hs & He). split; [reflexivity|]. split; [split; [now exists m|exact Hsh]|]. split; [exact Hs|]. destruct He as [He|(k & v & -> & Hk & Hf1 & Hf2)]; [now left|right].
    unfold grown in Hf2. pose proof (holds_fit _ _ _ Hh). assert (Ec : capacity_of o = length m) by lia.
    destruct (Nat.leb_spec (S (length m)) (capacity_of o)); [lia|]. destruct Hr as (Hr1' & Hr2). split.
    2: { split; [exists k, v; split; [reflexivity|]; now rewrite <- Hr1', Hk|]. unfold cannot_double. rewrite <- Hr2, Nat.add_1_r. rewrite Ec in *. exact Hf2. }
    intros (Hg & Hi).
    pose proof (room_for_key key_less Hlt n m k v (Hn Hg) Hm Hk). destruct (Hinv _ Hi) as [Hm2 _]; rewrite Ec in *; lia.
Qed.
Lemma multi_vector_act_any o d w a : multi_flat_in o d w ->
  ends (mem_multi_act moved key_less C a o w)
    (fun o' r w' => r = snd (multi_dictionary_act same d a) /\ multi_flat_in o' (fst (multi_dictionary_act same d a)) w' /\ incl (script w') (script w) /\ (False -> False))
    (fun o' w' => o' = o /\ multi_flat_in o d w' /\ incl (script w') (script w) /\ (someone_throws w \/ ~ False /\ multi_inserts a /\ cannot_double maxc (entries d))).
Proof.
  intros (m & Hh & Hm & Hr).
  pose proof (multi_act_memory moved key_less Hlt C (vec_holds maxc others) vec_grows (vec_full maxc) vec_stays (fun _ => eq_refl) (vec_size moved maxc others) (vec_read moved maxc others)
    (vec_quiet maxc others) (vec_insert moved maxc others) (vec_erase moved maxc others) o m w a Hh Hm) as Ha.
  destruct (multi_act_ok key_less Hlt m d a Hm Hr) as (m1 & Hact & Hm1 & Hr1). unfold ends in *. destruct (mem_multi_act moved key_less C a o w) as [o' r w'|o' w'|]; auto.
  - destruct Ha as (m' & Hf & Hh' & Hs & Hst). rewrite Hact in Hf. injection Hf as <- <-. split; [reflexivity|]. split; [now exists m1|]. split; [exact Hs|]. auto.
  - destruct Ha as (-> & Hh' & Hs & He). split; [reflexivity|]. split; [now exists m|]. split; [exact Hs|].
    destruct He as [He|(k & v & -> & Hf1 & Hf2)]; [now left|right]. split; [auto|]. split; [now exists k, v|].
    unfold grown in Hf2. pose proof (holds_fit _ _ _ Hh). assert (Ec : capacity_of o = length m) by lia.
    destruct (Nat.leb_spec (S (length m)) (capacity_of o)); [lia|]. destruct Hr as (_ & Hr2). unfold cannot_double. rewrite <- Hr2, Nat.add_1_r. rewrite Ec in *. exact Hf2.
Qed.
End FlatVector.
Lemma static_fit {K T} capacity others o (m : list (K * T)) w : static_holds capacity others o m w -> length m <= capacity.
Proof. intros ((_ & _ & (spare & _ & H) & _) & _). lia. Qed.
Section FlatStatic.
Context {K T : Type} (moved : K * T -> K * T) (key_less : K -> K -> bool) (Hlt : strict_weak_order key_less) (capacity : nat).
Local Notation element := (K * T)%type.
Local Notation same := (equivalent key_less).
Local Notation C := (static_vector (V := element) capacity).
Context (others : memory (V := element)).
Definition flat_in_static (o : svector) (d : @dictionary K T) (w : world element) : Prop :=
  exists m, static_holds capacity others o m w /\ flat key_less m /\ represents same m d.
Definition multi_flat_in_static (o : svector) (d : @multi_dictionary K T) (w : world element) : Prop :=
  exists m, static_holds capacity others o m w /\ multi_flat key_less m /\ multi_represents key_less m d.
Lemma flat_static_act (n : option nat) : match n with Some n => different_keys same n /\ n <= capacity | None => True end ->
  forall o d w a, flat_in_static o d w ->
  ends (mem_act moved key_less C a o w)
    (fun o' r w' => r = snd (dictionary_act same d a) /\ flat_in_static o' (fst (dictionary_act same d a)) w' /\ incl (script w') (script w) /\ (n <> None -> n <> None))
    (fun o' w' => o' = o /\ flat_in_static o d w' /\ incl (script w') (script w) /\ (someone_throws w \/ ~ n <> None /\ inserts_new d a /\ keys d = capacity)).
Proof.
  intros Hn o d w a (m & Hh & Hm & Hr).
  pose proof (act_memory moved key_less Hlt C (static_holds capacity others) (fun _ _ _ => True) (fun _ n => capacity < n) (fun _ _ => True) (fun _ => Logic.I)
    (static_size capacity others) (static_read capacity others)
    (static_quiet capacity others) (static_insert moved capacity others) (static_erase moved capacity others) o m w a Hh Hm) as Ha.
  destruct (flat_act_ok key_less Hlt m d a Hm Hr) as (m1 & Hact & Hm1 & Hr1). unfold ends in *. destruct (mem_act moved key_less C a o w) as [o' r w'|o' w'|]; auto.
  - destruct Ha as (m' & Hf & Hh' & Hs & Hst). rewrite Hact in Hf. injection Hf as <- <-. split; [reflexivity|]. split; [now exists m1|]. split; [exact Hs|]. auto.
  - destruct Ha as (-> & Hh' & Hs & He). split; [reflexivity|]. split; [now exists m|]. split; [exact Hs|]. destruct He as [He|(k & v & -> & Hk & Hf)]; [now left|right].
    destruct Hr as (Hr1' & Hr2). split.
    2: { split; [exists k, v; split; [reflexivity|]; now rewrite <- Hr1', Hk|]. rewrite <- Hr2. pose proof (static_fit _ _ _ _ _ Hh). lia. }
    destruct n as [n|]; [|congruence]. destruct Hn as [Hn Hc]. pose proof (room_for_key key_less Hlt n m k v Hn Hm Hk). lia.
Qed.
Lemma multi_static_act o d w a : multi_flat_in_static o d w ->
  ends (mem_multi_act moved key_less C a o w)
    (fun o' r w' => r = snd (multi_dictionary_act same d a) /\ multi_flat_in_static o' (fst (multi_dictionary_act same d a)) w' /\ incl (script w') (script w) /\ (False -> False))
    (fun o' w' => o' = o /\ multi_flat_in_static o d w' /\ incl (script w') (script w) /\ (someone_throws w \/ ~ False /\ multi_inserts a /\ entries d = capacity)).
Proof.
  intros (m & Hh & Hm & Hr).
  pose proof (multi_act_memory moved key_less Hlt C (static_holds capacity others) (fun _ _ _ => True) (fun _ n => capacity < n) (fun _ _ => True) (fun _ => Logic.I)
    (static_size capacity others) (static_read capacity others)
    (static_quiet capacity others) (static_insert moved capacity others) (static_erase moved capacity others) o m w a Hh Hm) as Ha.
  destruct (multi_act_ok key_less Hlt m d a Hm Hr) as (m1 & Hact & Hm1 & Hr1). unfold ends in *. destruct (mem_multi_act moved key_less C a o w) as [o' r w'|o' w'|]; auto.
  - destruct Ha as (m' & Hf & Hh' & Hs & Hst). rewrite Hact in Hf. injection Hf as <- <-. split; [reflexivity|]. split; [now exists m1|]. split; [exact Hs|]. auto.
  - destruct Ha as (-> & Hh' & Hs & He). split; [reflexivity|]. split; [now exists m|]. split; [exact Hs|].
    destruct He as [He|(k & v & -> & Hf)]; [now left|right]. split; [auto|]. split; [now exists k, v|].
    pose proof (static_fit _ _ _ _ _ Hh). destruct Hr as (_ & Hr2). lia.
Qed.
End FlatStatic.

Lemma represents_nothing {K T} (key_less : K -> K -> bool) : represents (equivalent key_less) [] (@no_entries K T).
Proof. split; reflexivity. Qed.
Lemma flat_nothing {K T} (key_less : K -> K -> bool) : flat (M := T) key_less [].
Proof. intros i j a b _ H. destruct i; discriminate. Qed.
Lemma multi_represents_nothing {K T} (key_less : K -> K -> bool) : multi_represents key_less [] (@no_values K T).
Proof. split; reflexivity. Qed.
Lemma multi_flat_nothing {K T} (key_less : K -> K -> bool) : multi_flat (M := T) key_less [].
Proof. intros i j a b _ H. destruct i; discriminate. Qed.

Section Lives.
Context {K T : Type} (moved : K * T -> K * T) (key_less : K -> K -> bool) (Hlt : strict_weak_order key_less).
Local Notation element := (K * T)%type.
Local Notation same := (equivalent key_less).

(** Any map in a vector: *)
Lemma vector_life {A R D} maxc (act : A -> M element bvector R) (spec : D -> A -> D * R) (holds : bvector -> D -> world element -> Prop) (I : bvector -> Prop) (may : D -> A -> Prop) d0 prepare (w : world element) actions (P E : Prop) :
  (forall o d w a, holds o d w ->
    ends (act a o w)
      (fun o' r w' => r = snd (spec d a) /\ holds o' (fst (spec d a)) w' /\ incl (script w') (script w) /\ (I o -> I o'))
      (fun o' w' => o' = o /\ holds o d w' /\ incl (script w') (script w) /\ (someone_throws w \/ ~ I o /\ may d a))) ->
  (forall o d w', holds o d w' -> exists m, is_vector 0 maxc o m (heap w) w') ->
  (forall o, is_vector 0 maxc o [] (heap w) w -> capacity_of o = 0 -> ends (prepare o w) (fun o' _ w' => holds o' d0 w' /\ incl (script w') (script w) /\ (P -> I o'))
     (fun o' w' => is_vector 0 maxc o [] (heap w) w' /\ o' = o /\ someone_throws w /\ E)) ->
  unused_names w ->
  ends (with_local (bv_default 0) bv_destroy (on_snd (bind prepare (fun _ : unit => session act actions))) tt w)
    (fun _ seen w' => SpecVec.same (heap w') (heap w) /\ exists o w1 d', holds o d' w1 /\ explained spec (fun d a => someone_throws w \/ may d a) d0 actions seen d' /\ (P -> ~ someone_throws w -> ~ In None seen))
    (fun _ w' => SpecVec.same (heap w') (heap w) /\ someone_throws w /\ E).
Proof.
  intros Hact Hvec Hprep Hu. unfold with_local. pose proof (PropsVec.C38_default element 0 maxc w (Nat.le_0_l _) Hu) as Hd.
  cbn [bv_default] in *. destruct (bv_default 0 tt w) as [x o w0|x w0|] eqn:Ed; cbn [ends] in Hd; [| |contradiction].
  2: { cbn in Ed. discriminate. }
  destruct Hd as (Hd & Hc0). assert (w0 = w) as -> by (cbn in Ed; inversion Ed; reflexivity). specialize (Hprep o Hd Hc0).
  unfold on_snd, bind. cbn [fst snd]. destruct (prepare o w) as [o1 u w1|o1 w1|]; cbn [ends] in Hprep; [| |contradiction].
  - destruct Hprep as (Hh & Hs & HP). pose proof (session_ok act spec holds I may Hact w actions o1 d0 w1 Hh Hs) as Hses.
    destruct (session act actions o1 w1) as [o2 seen w2|o2 w2|]; cbn [ends] in Hses; [|contradiction..].
    destruct Hses as (d' & He & Hh2 & Hs2 & Hn). destruct (Hvec o2 d' w2 Hh2) as (m & Hm).
    pose proof (PropsVec.C38_destroy element 0 maxc o2 m (heap w) w2 Hm) as Hx. destruct (bv_destroy o2 w2) as [x3 [] w3|x3 w3|]; cbn [ends] in *; [|contradiction..].
    split; [exact Hx|]. exists o2, w2, d'. split; [exact Hh2|]. split; [exact He|]. intros Hp Hw. apply Hn; [|auto]. intros Ht. apply Hw, Hs, Ht.
  - destruct Hprep as (Hm & -> & Ht). pose proof (PropsVec.C38_destroy element 0 maxc o [] (heap w) w1 Hm) as Hx.
    destruct (bv_destroy o w1) as [x3 [] w3|x3 w3|]; cbn [ends] in *; [|contradiction..]. auto.
Qed.
Lemma static_life {A R D} capacity (act : A -> M element svector R) (spec : D -> A -> D * R) (holds : svector -> D -> world element -> Prop) (I : svector -> Prop) (may : D -> A -> Prop) d0 (w : world element) actions (P : Prop) :
  (forall o d w a, holds o d w ->
    ends (act a o w)
      (fun o' r w' => r = snd (spec d a) /\ holds o' (fst (spec d a)) w' /\ incl (script w') (script w) /\ (I o -> I o'))
      (fun o' w' => o' = o /\ holds o d w' /\ incl (script w') (script w) /\ (someone_throws w \/ ~ I o /\ may d a))) ->
  (forall o d w', holds o d w' -> exists m, is_static_vector capacity o m (heap w) w') ->
  (forall o w', is_static_vector capacity o [] (heap w) w' -> holds o d0 w') -> (forall o, P -> I o) ->
  unused_names w ->
  ends (with_local (sv_default capacity) (sv_destroy capacity) (on_snd (session act actions)) tt w)
    (fun _ seen w' => SpecVec.same (heap w') (heap w) /\ exists d', explained spec (fun d a => someone_throws w \/ may d a) d0 actions seen d' /\ (P -> ~ someone_throws w -> ~ In None seen))
    (fun _ w' => False).
Proof.
  intros Hact Hvec Hprep HP Hu. unfold with_local. pose proof (default_svec capacity w Hu) as Hd.
  pose proof (StaticPrograms.calm_default (V := element) capacity tt w) as Hs.
  destruct (sv_default capacity tt w) as [x o w1|x w1|]; cbn [ends] in Hd; [|contradiction..]. cbn in Hs. destruct Hs as [Hs _].
  unfold on_snd. cbn [fst snd].
  pose proof (session_ok act spec holds I may Hact w actions o d0 w1 (Hprep _ _ Hd) Hs) as Hses.
  destruct (session act actions o w1) as [o2 seen w2|o2 w2|]; cbn [ends] in Hses; [|contradiction..].
  destruct Hses as (d' & He & Hh2 & Hs2 & Hn). destruct (Hvec o2 d' w2 Hh2) as (m & Hm).
  pose proof (PropsVec.C36_destroy element capacity o2 m (heap w) w2 Hm) as Hx. destruct (sv_destroy capacity o2 w2) as [x3 [] w3|x3 w3|]; cbn [ends] in *; [|contradiction..].
  split; [exact Hx|]. exists d'. split; [exact He|]. intros Hp Hw. apply Hn; [|auto]. intros Ht. apply Hw, Hs, Ht.
Qed.
Lemma reserve_prepares maxc (reserved : option nat) others (w : world element) o : match reserved with Some n => n <= maxc | None => True end ->
  is_vector 0 maxc o [] others w -> capacity_of o = 0 ->
  ends (match reserved with None => ret tt | Some n => bv_reserve moved 0 maxc n end o w)
    (fun o' _ w' => is_vector 0 maxc o' [] others w' /\ incl (script w') (script w) /\ capacity_of o' = match reserved with Some n => n | None => 0 end)
    (fun o' w' => is_vector 0 maxc o [] others w' /\ o' = o /\ someone_throws w /\ reserved <> None).
Proof.
  intros Hn Hv Hc. destruct reserved as [n|].
  - pose proof (PropsVec.C34_reserve element moved 0 maxc n o [] others w (Nat.le_0_l _) Hv Hn) as Hr.
    pose proof (evolves_reserve moved _ less_script_evolution 0 maxc n o w) as He.
    destruct (bv_reserve moved 0 maxc n o w) as [o1 u w1|o1 w1|]; cbn [ends] in *; [| |contradiction].
    + destruct Hr as [H1 H2]. split; [exact H1|]. split; [exact He|]. rewrite H2, Hc. lia.
    + destruct Hr as (Hu & Ht). destruct Hu as (-> & Hu). split; [eapply untouched_vec; [exact Hv|]; split; [reflexivity|exact Hu]|]. split; [reflexivity|]. split; [exact Ht|discriminate].
  - cbn. split; [exact Hv|]. split; [apply incl_refl|exact Hc].
Qed.
Lemma ends_weaken {V X A} (r : out V X A) (Q Q' : X -> A -> world V -> Prop) (E E' : X -> world V -> Prop) :
  ends r Q E -> (forall x a w, Q x a w -> Q' x a w) -> (forall x w, E x w -> E' x w) -> ends r Q' E'.
Proof. unfold ends. destruct r; auto. Qed.
Lemma flat_life (good : Prop) (shape inv : nat -> Prop) n maxc reserved actions (w : world element) : match reserved with Some n => n <= maxc | None => True end -> unused_names w ->
  (good -> different_keys same n) -> (forall c, shape c -> shape (Nat.max (S c) (2 * c))) ->
  (forall c, inv c -> S c <= n -> Nat.max (S c) (2 * c) <= maxc /\ inv (Nat.max (S c) (2 * c))) -> shape (match reserved with Some n => n | None => 0 end) ->
  ends (flat_map_life moved key_less maxc reserved actions tt w)
    (fun _ seen w' => SpecVec.same (heap w') (heap w) /\ exists o w1 d', shaped_in key_less maxc (heap w) shape o d' w1 /\ explained (dictionary_act same) (fun d a => someone_throws w \/ inserts_new d a /\ cannot_double maxc (keys d)) no_entries actions seen d' /\
       (good /\ inv (match reserved with Some n => n | None => 0 end) -> ~ someone_throws w -> ~ In None seen))
    (fun _ w' => SpecVec.same (heap w') (heap w) /\ someone_throws w /\ reserved <> None).
Proof.
  intros Hn Hu Hg Hs Hi Hs0. unfold flat_map_life.
  refine (vector_life maxc _ (dictionary_act same) (shaped_in key_less maxc (heap w) shape) (fun o => good /\ inv (capacity_of o)) (fun d a => inserts_new d a /\ cannot_double maxc (keys d)) no_entries
    _ w actions _ (reserved <> None) (flat_vector_act moved key_less Hlt maxc (heap w) good shape inv n Hg Hs Hi) _ _ Hu).
  - intros o d w1 ((m & Hm & _) & _). now exists m.
  - intros o Hv Hc. pose proof (reserve_prepares maxc reserved (heap w) w o Hn Hv Hc) as Hr. refine (ends_weaken _ _ _ _ _ Hr _ _).
    + intros o' _ w' (H1 & H2 & H3). split; [split|].
      * exists []. split; [exact H1|]. split; [apply flat_nothing|apply represents_nothing].
      * now rewrite H3.
      * split; [exact H2|]. now rewrite H3.
    + auto.
Qed.
Lemma multi_life maxc actions (w : world element) : unused_names w ->
  ends (flat_multimap_life moved key_less maxc actions tt w)
    (fun _ seen w' => SpecVec.same (heap w') (heap w) /\ exists d', explained (multi_dictionary_act same) (fun d a => someone_throws w \/ multi_inserts a /\ cannot_double maxc (entries d)) no_values actions seen d') (fun _ w' => False).
Proof.
  intros Hu. unfold flat_multimap_life.
  refine (ends_weaken _ _ _ _ _ (vector_life maxc _ (multi_dictionary_act same) (multi_flat_in key_less maxc (heap w)) (fun o => False) (fun d a => multi_inserts a /\ cannot_double maxc (entries d)) no_values
    (ret tt) w actions False False (multi_vector_act_any moved key_less Hlt maxc (heap w)) _ _ Hu) _ _).
  - intros o d w1 (m & Hm & _). now exists m.
  - intros o Hv Hc. cbn. split; [|split; [apply incl_refl|auto]]. exists []. split; [exact Hv|]. split; [apply multi_flat_nothing|apply multi_represents_nothing].
  - cbn beta. intros _ seen w' (H1 & _ & _ & d' & _ & H2 & _). split; [exact H1|now exists d'].
  - cbn beta. tauto.
Qed.
Lemma static_flat_life (n : option nat) capacity actions (w : world element) : match n with Some n => different_keys same n /\ n <= capacity | None => True end -> unused_names w ->
  ends (static_flat_map_life moved key_less capacity actions tt w)
    (fun _ seen w' => SpecVec.same (heap w') (heap w) /\ exists d', explained (dictionary_act same) (fun d a => someone_throws w \/ inserts_new d a /\ keys d = capacity) no_entries actions seen d' /\
       (n <> None -> ~ someone_throws w -> ~ In None seen)) (fun _ w' => False).
Proof.
  intros Hn Hu. unfold static_flat_map_life.
  refine (static_life capacity _ (dictionary_act same) (flat_in_static key_less capacity (heap w)) (fun o => n <> None) (fun d a => inserts_new d a /\ keys d = capacity) no_entries
    w actions _ (flat_static_act moved key_less Hlt capacity (heap w) n Hn) _ _ _ Hu).
  - intros o d w1 (m & Hm & _). now exists m.
  - intros o w' Hv. exists []. split; [exact Hv|]. split; [apply flat_nothing|apply represents_nothing].
  - auto.
Qed.
Lemma static_multi_life capacity actions (w : world element) : unused_names w ->
  ends (static_flat_multimap_life moved key_less capacity actions tt w)
    (fun _ seen w' => SpecVec.same (heap w') (heap w) /\ exists d', explained (multi_dictionary_act same) (fun d a => someone_throws w \/ multi_inserts a /\ entries d = capacity) no_values actions seen d') (fun _ w' => False).
Proof.
  intros Hu. unfold static_flat_multimap_life.
  refine (ends_weaken _ _ _ _ _ (static_life capacity _ (multi_dictionary_act same) (multi_flat_in_static key_less capacity (heap w)) (fun o => False) (fun d a => multi_inserts a /\ entries d = capacity) no_values
    w actions False (multi_static_act moved key_less Hlt capacity (heap w)) _ _ _ Hu) _ _).
  - intros o d w1 (m & Hm & _). now exists m.
  - intros o w' Hv. exists []. split; [exact Hv|]. split; [apply multi_flat_nothing|apply multi_represents_nothing].
  - auto.
  - cbn beta. intros _ seen w' (H1 & d' & H2 & _). split; [exact H1|now exists d'].
  - auto.
Qed.
End Lives.

(** Filling a map *)
Lemma filled {K T} (same : K -> K -> bool) may (v : T) ks : forall (d : @dictionary K T) seen d',
  explained (dictionary_act same) may d (map (fun k => Insert k v) ks) seen d' -> ~ In None seen ->
  (forall k, In k ks -> value_of d k = None) ->
  (forall i j a b, nth_error ks i = Some a -> nth_error ks j = Some b -> same a b = true -> i = j) -> keys d' = keys d + length ks.
Proof.
  induction ks as [|k ks IH]; intros d seen d' H Hn Hd Hk; cbn [map] in H; inversion H; subst; cbn [length].
  - lia.
  - match goal with Hx : explained _ _ (fst _) _ _ _ |- _ => rename Hx into H4 end. cbn [dictionary_act] in H4. rewrite (Hd k (or_introl eq_refl)) in H4. cbn [fst] in H4. erewrite IH; [|exact H4|intros Hi; apply Hn; now right| |].
    + cbn [keys]. lia.
    + intros k' Hi. cbn [value_of]. destruct (same k k') eqn:E; [|apply Hd; now right]. apply In_nth_error in Hi as [i Hi].
      pose proof (Hk 0 (S i) k k' eq_refl Hi E). discriminate.
    + intros i j a b Ha Hb E. pose proof (Hk (S i) (S j) a b Ha Hb E). lia.
  - destruct Hn. now left.
Qed.
Definition zero_or_power (c : nat) : Prop := c = 0 \/ exists j, c = 2 ^ j.
Lemma power_grows c : zero_or_power c -> zero_or_power (Nat.max (S c) (2 * c)).
Proof.
  intros [->|(j & ->)]; right; [now exists 0|]. exists (S j). rewrite Nat.pow_succ_r'. pose proof (Nat.pow_nonzero 2 j). lia.
Qed.
Lemma power_fits k c : zero_or_power c -> S c <= 2 ^ k -> Nat.max (S c) (2 * c) <= 2 ^ k.
Proof.
  intros [->|(j & ->)] Hc; [pose proof (Nat.pow_nonzero 2 k); lia|].
  assert (j < k) by (apply (Nat.pow_lt_mono_r_iff 2); lia). assert (2 ^ S j <= 2 ^ k) by (apply Nat.pow_le_mono_r; lia).
  rewrite Nat.pow_succ_r' in *. pose proof (Nat.pow_nonzero 2 j). lia.
Qed.
Lemma explained_length {D A R} (act : D -> A -> D * R) may d actions seen d' : explained act may d actions seen d' -> length seen = length actions.
Proof. induction 1; cbn [length]; congruence. Qed.
Lemma holds_capacity {K T} maxc others o (m : list (K * T)) w : vec_holds maxc others o m w -> capacity_of o <= maxc.
Proof.
  intros ((_ & H) & _). unfold capacity_of. destruct (u_pointer (b_storage o)).
  - destruct H as (_ & (spare & _ & H & H') & _). lia.
  - destruct H as (_ & H). lia.
Qed.
Lemma insert_vector {K T} (moved : K * T -> K * T) key_less (Hlt : strict_weak_order key_less) maxc others o m w key (mapped : T) :
  vec_holds maxc others o m w -> flat key_less m ->
  ends (mem_lazy_insert moved key_less (bounded_vector moved 0 maxc) key mapped o w)
    (fun o' r w' => exists m', is_vector 0 maxc o' m' others w' /\ flat key_less m' /\
       match element_of (equivalent key_less) m key with
       | Some e => snd r = false /\ m' = m /\ nth_error m (fst r) = Some e /\ capacity_of o' = capacity_of o
       | None => snd r = true /\ nth_error m' (fst r) = Some (key, mapped) /\ m' = firstn (fst r) m ++ (key, mapped) :: skipn (fst r) m /\
                 capacity_of o' = grown o (length m + 1)
       end)
    (fun o' w' => o' = o /\ is_vector 0 maxc o m others w' /\
       (someone_throws w \/ element_of (equivalent key_less) m key = None /\ length m = capacity_of o /\ cannot_double maxc (length m))).
Proof.
  intros Hh Hm. destruct (lazy_insert_ok key_less Hlt m key mapped Hm) as (m' & p & b & Hi & Hm' & H).
  refine (ends_weaken _ _ _ _ _ (insert_memory moved key_less Hlt (bounded_vector moved 0 maxc) (vec_holds maxc others) vec_grows (vec_full maxc) vec_stays (fun _ => eq_refl)
    (vec_size moved maxc others) (vec_read moved maxc others) (vec_quiet maxc others) (vec_insert moved maxc others) o m w key mapped m' p b Hh Hm Hi) _ _); cbv beta.
  - intros o' r w' (-> & Hv & _ & Hst). exists m'. split; [exact Hv|]. split; [exact Hm'|]. cbn [fst snd]. unfold vec_stays, vec_grows, stored in Hst.
    destruct (element_of (equivalent key_less) m key) as [e|].
    + destruct H as (-> & -> & H). repeat split; auto. destruct Hst as [[_ Hst]|[Hst _]]; [exact Hst|lia].
    + destruct H as (-> & H1 & H2 & H3). repeat split; auto. assert (length m' = length m + 1) as El.
      { rewrite H3, app_length. cbn [length]. rewrite firstn_length, skipn_length. lia. }
      destruct Hst as [[Hst _]|[_ Hst]]; [lia|]. now rewrite <- El.
  - intros o' w' (-> & Hv & _ & He). split; [reflexivity|]. split; [exact Hv|]. destruct He as [He|(He & Hf1 & Hf2)]; [now left|right].
    split; [exact He|]. pose proof (holds_fit _ _ _ _ _ Hh). split; [lia|]. unfold grown in Hf2. assert (Ec : capacity_of o = length m) by lia.
    destruct (Nat.leb_spec (S (length m)) (capacity_of o)); [lia|]. unfold cannot_double. rewrite Nat.add_1_r. rewrite Ec in *. exact Hf2.
Qed.
Lemma append_too_many {K T} (moved : K * T -> K * T) maxc o m elements others (w : world (K * T)) :
  1 <= maxc -> vec_holds maxc others o m w -> maxc < length m + length elements ->
  exists w', flat_map_append moved maxc elements o w = Exc o w' /\ is_vector 0 maxc o m others w'.
Proof.
  intros H1 Hv Hl. assert (Forall2 (makes (heap w)) (map Supply elements) elements) as Hf.
  { clear. induction elements; constructor; [reflexivity|assumption]. }
  pose proof (PropsVec.C33_append _ moved 0 maxc (map Supply elements) elements o m others w H1 Hv Hf) as H. unfold flat_map_append.
  destruct (append moved _ _ o w) as [o' u w'|o' w'|]; cbn [ends] in H; [| |contradiction].
  - destruct H as [H _]. pose proof (holds_fit _ _ _ _ _ H). pose proof (holds_capacity _ _ _ _ _ H). rewrite app_length in *. lia.
  - destruct H as ((-> & Hu) & _). exists w'. split; [reflexivity|]. eapply untouched_vec; [exact Hv|]. split; [reflexivity|exact Hu].
Qed.
