(** * Proofs about programs with several vectors *)

From Coq Require Import List Arith Bool Lia.
From Verif Require Import Mem MemLemmas Vec VecLemmas VecCost SpecVec SpecHistory VecProofs VecProofs2 VecProofs5 VecHistory SpecSeveral Several SpecVecPrograms.
Import ListNotations.

Section Proofs.
Context {V : Type} (moved : V -> V) (minc maxc : nat) (Hmm : minc <= maxc).
Local Notation world := (world V).
Local Notation memory := (@memory V).
Local Notation C := (bounded_vector (V := V) moved minc maxc).
Local Notation is_vec := (is_vector (V := V) minc maxc).
Local Notation is_vec_in := (is_vector_in (V := V) minc maxc).
Local Notation vector_in := (vector_in (V := V) minc maxc).
Local Notation vectors := (vectors (V := V) minc maxc).

Lemma vec_in_same o l (r m m' : memory) : same m m' -> is_vec_in o l r m -> is_vec_in o l r m'.
Proof.
  intros Hs (Hl & H). split; auto. destruct (u_pointer (b_storage o)).
  - destruct H as (H1 & (k & H2 & H3) & H4). split; auto. split. { exists k. rewrite <- Hs. auto. } intros b Hb. rewrite <- Hs. auto.
  - destruct H as (H1 & H2 & H3 & H4). repeat (split; auto). intros b. rewrite <- Hs. auto.
Qed.
Lemma vec_in_same_rest o l (r r' m : memory) : same r r' -> is_vec_in o l r m -> is_vec_in o l r' m.
Proof.
  intros Hs (Hl & H). split; auto. destruct (u_pointer (b_storage o)).
  - destruct H as (H1 & (k & H2 & H3) & H4). split. { now rewrite <- Hs. } split; eauto. intros b Hb. rewrite <- Hs. auto.
  - destruct H as (H1 & H2 & H3 & H4). repeat (split; auto). intros b. rewrite <- Hs. auto.
Qed.
Lemma in_same o l (r m m' : memory) : same m m' -> vector_in o l r m -> vector_in o l r m'.
Proof.
  intros Hs. destruct l as [l|]; cbn. { now apply vec_in_same. }
  intros [[H1 H2]|H]; [left|right]. { split; auto. intros b. rewrite <- Hs. auto. } eapply vec_in_same; eauto.
Qed.
Lemma in_same_rest o l (r r' m : memory) : same r r' -> vector_in o l r m -> vector_in o l r' m.
Proof.
  intros Hs. destruct l as [l|]; cbn. { now apply vec_in_same_rest. }
  intros [[H1 H2]|H]; [left|right]. { split; auto. intros b. rewrite <- Hs. auto. } eapply vec_in_same_rest; eauto.
Qed.
Lemma in_swap o l t u (others mid m : memory) :
  vector_in o l mid m -> vector_in t u others mid -> exists mid', vector_in t u mid' m /\ vector_in o l others mid'.
Proof.
  (* an object is either nowhere in memory or a vector *)
  assert (Hn : forall (o : bvector) l (r m : memory), vector_in o l r m -> (exists vs, is_vec_in o vs r m /\ forall r m, is_vec_in o vs r m -> vector_in o l r m) \/
            (same m r /\ forall r m, same m r -> vector_in o l r m)).
  { intros x [vs|] r m' H; cbn in H |- *; eauto. destruct H as [[H1 H2]|H]; [right|left]; eauto 6. }
  intros Ho Ht. destruct (Hn _ _ _ _ Ho) as [(vs & Ho' & Hob)|[Ho' Hob]]; destruct (Hn _ _ _ _ Ht) as [(us & Ht' & Htb)|[Ht' Htb]].
  - destruct (vectors_swap_in minc maxc _ _ _ _ _ _ _ Ht' Ho') as (mid' & H1 & H2). exists mid'. auto.
  - exists m. split. { apply Htb. now intros b. } eapply in_same_rest; [|apply Hob; exact Ho']. exact Ht'.
  - exists others. split. { eapply in_same; [|exact Ht]. intros b. symmetry. apply Ho'. } apply Hob. now intros b.
  - exists m. split. { apply Htb. now intros b. } apply Hob. intros b. rewrite Ho'. apply Ht'.
Qed.

Lemma in_size o l (r m : memory) : vector_in o l r m -> b_size o = match l with Some l => length l | None => 0 end.
Proof. destruct l as [l|]; cbn. { intros [H _]. exact H. } intros [[[_ H] _]|[H _]]; exact H. Qed.
Lemma in_elements o l (r m : memory) : vector_in o l r m ->
  Forall2 (makes m) (elements_of o) (match l with Some l => l | None => [] end) /\ length (match l with Some l => l | None => [] end) <= maxc.
Proof.
  assert (Hv : forall vs, is_vec_in o vs r m -> Forall2 (makes m) (elements_of o) vs /\ length vs <= maxc).
  { intros vs H. split. { eapply copies_of; eauto. } destruct H as [_ H]. destruct (u_pointer (b_storage o)).
    - destruct H as (_ & (k & _ & H) & _). lia.
    - destruct H as (-> & _). cbn. lia. }
  destruct l as [l|]; cbn [SpecVecPrograms.vector_in]. { apply Hv. }
  intros [[[_ H] _]|H]; [|exact (Hv _ H)]. unfold elements_of. rewrite H. split; [constructor|apply Nat.le_0_l].
Qed.
Lemma vec_in_vector o vs (r : memory) (w : world) : is_vec o vs r w -> vector_in o (Some vs) r (heap w) /\ unused_names w.
Proof. intros H. exact H. Qed.

(** ** Nothing comes from elsewhere: exceptions come from the script, names are not reused *)
Definition later {V} (k : nat) (w w' : Mem.world V) : Prop := incl (script w') (script w) /\ next w <= next w'.
Lemma later_evolution : evolution (@later V).
Proof.
  constructor; unfold later.
  - intros w. split; [apply incl_refl|lia].
  - intros a b w w' w'' [H1 H2] [H3 H4]. split; [eapply incl_tran; eauto|lia].
  - auto.
  - intros w b cs. split; [apply incl_refl|cbn; lia].
  - intros w h. split; [apply incl_refl|cbn; lia].
  - intros w b s H. split; [rewrite H; cbn; apply incl_tl, incl_refl|cbn; lia].
Qed.
Local Notation EV := later_evolution.
Definition calm_m {X A} (m : M V X A) : Prop := evolves (@later V) 0 m.
Lemma calm_any {X A} k (m : M V X A) : evolves (@later V) k m -> calm_m m.
Proof. intros H x w. specialize (H x w). destruct (m x w); auto. Qed.
Lemma calm_bind {X A B} (m : M V X A) (k : A -> M V X B) : calm_m m -> (forall a, calm_m (k a)) -> calm_m (bind m k).
Proof. intros H1 H2. apply (evolves_bind0 _ EV); auto. Qed.
Lemma calm_constructor {X} (m : M V X bvector) body : calm_m m -> calm_m body -> calm_m (constructor m body).
Proof.
  intros H1 H2 x w. unfold constructor. specialize (H1 x w). destruct (m x w) as [x1 o w1|x1 w1|]; auto.
  specialize (H2 o w1). destruct (body o w1) as [o2 a w2|o2 w2|]; auto. { eapply (ev_trans _ EV 0 0); eauto. }
  pose proof (evolves_deallocate_storage (@later V) EV (b_storage o2) x1 w2) as H3.
  destruct (deallocate_storage (b_storage o2) x1 w2); auto. eapply (ev_trans _ EV 0 0); eauto. eapply (ev_trans _ EV 0 0); eauto.
Qed.
Lemma calm_default : calm_m (bv_default (V := V) minc).
Proof. apply (calm_any 1), (evolves_default _ EV). Qed.
Lemma calm_fill {X} n (k : storage -> bvector) : calm_m (X := X) (bind (reservation_size (V := V) minc maxc n) (fun n => bind (allocate_storage n) (fun st => ret (k st)))).
Proof.
  apply calm_bind; [apply (evolves_reservation _ EV)|intros c]. apply calm_bind; [apply (calm_any 1), (evolves_allocate_storage _ EV)|intros b; apply (evolves_ret _ EV)].
Qed.
Lemma calm_filled (mks : list (maker V)) : calm_m (bind (X := bvector) get (fun o => uninitialized_copy moved (bv_data o) 0 mks)).
Proof. apply calm_bind; [apply (evolves_get _ EV)|intros o; apply (evolves_copy moved _ EV)]. Qed.
Lemma calm_from (mks : list (maker V)) : calm_m (bv_from moved minc maxc false (Source mks true)).
Proof. unfold bv_from. cbn [s_sized s_elements]. apply calm_constructor; [apply calm_fill|apply calm_filled]. Qed.
Lemma calm_copy o : calm_m (bv_copy moved minc maxc o).
Proof. apply calm_constructor; [apply calm_fill|apply calm_filled]. Qed.
Lemma calm_destroy : calm_m (bv_destroy (V := V)). Proof. apply (evolves_bv_destroy _ EV). Qed.
Lemma calm_copy_assign t : calm_m (bv_copy_assign moved minc maxc false t).
Proof.
  unfold bv_copy_assign. apply calm_bind; [apply (evolves_get _ EV)|intros o]. destruct (bv_data o).
  - apply (calm_any 2), (evolves_assign moved _ EV minc maxc 1). apply (evolves_default _ EV).
  - apply calm_bind.
    + unfold bv_replace_empty_allocation. apply calm_bind; [apply (evolves_get _ EV)|intros x]. apply calm_bind; [apply (evolves_require _ EV)|intros _].
      apply calm_bind; [apply (evolves_reservation _ EV)|intros n]. apply calm_bind; [apply (evolves_deallocate_storage _ EV)|intros _].
      apply calm_bind; [apply (calm_any 1), (evolves_allocate_storage _ EV)|intros s; apply (evolves_put _ EV)].
    + intros _. apply calm_bind; [apply (evolves_get _ EV)|intros x]. apply calm_bind; [apply (evolves_copy moved _ EV)|intros _; apply (evolves_put _ EV)].
Qed.
Lemma calm_self_move : calm_m (bv_self_move_assign (V := V)).
Proof.
  unfold bv_self_move_assign. apply calm_bind; [apply (evolves_get _ EV)|intros o]. apply calm_bind; [apply (evolves_destroy_range _ EV)|intros _].
  apply calm_bind; [apply (evolves_put _ EV)|intros _; apply (evolves_deallocate_storage _ EV)].
Qed.
Lemma calm_swap : calm_m (bv_swap (V := V)).
Proof. unfold bv_swap. apply calm_bind; [apply (evolves_get _ EV)|intros o; apply (evolves_put _ EV)]. Qed.
Lemma calm_one {A} i (m : M V bvector A) : calm_m m -> calm_m (one_of i m).
Proof.
  intros H os w. unfold one_of. destruct (nth_error os i) as [o|]; [|exact I]. specialize (H o w). destruct (m o w); auto.
Qed.
Lemma calm_two {A} i j (m : M V (bvector * bvector) A) : calm_m m -> calm_m (two_of i j m).
Proof.
  intros H os w. unfold two_of. destruct (nth_error os i) as [o|]; [|exact I]. destruct (nth_error os j) as [t|]; [|exact I].
  specialize (H (o, t) w). destruct (m (o, t) w); auto.
Qed.
Lemma calm_another (m : M V unit bvector) : calm_m m -> calm_m (another m).
Proof.
  intros H. apply calm_bind; [now apply (evolves_unit _ 0)|intros o]. apply calm_bind; [apply (evolves_get _ EV)|intros os; apply (evolves_put _ EV)].
Qed.
Lemma calm_looking {A} j (k : bvector -> M V (list bvector) A) : (forall o, calm_m (k o)) -> calm_m (looking_at j k).
Proof. intros H. apply calm_bind; [apply (evolves_get _ EV)|intros os]. destruct (nth_error os j); auto. apply evolves_bad. Qed.
Lemma calm_step s : calm_m (do_step moved minc maxc s).
Proof.
  pose proof (evolves_default _ EV minc : evolves (@later V) 1 (bv_default (V := V) minc)) as Hd.
  destruct s as [|vs|j|j|i|i c|i j k|i j|i p j|i j|i j|i j]; cbn [do_step].
  - apply calm_another, calm_default.
  - apply calm_another, calm_from.
  - apply calm_looking. intros o. apply calm_another, calm_copy.
  - apply calm_looking. intros o. apply calm_bind; [apply (evolves_get _ EV)|intros os; apply (evolves_put _ EV)].
  - apply calm_bind; [apply calm_one, calm_destroy|intros _]. apply calm_bind; [apply (evolves_get _ EV)|intros os; apply (evolves_put _ EV)].
  - apply calm_one. apply (calm_any 2). apply (perform_evolves moved minc maxc EV c).
  - apply calm_looking. intros o. apply calm_one. apply (calm_any 2), (evolves_push_back moved _ EV minc maxc 1 Hd).
  - apply calm_looking. intros o. apply calm_one. apply (calm_any 2), (evolves_append_sized moved _ EV minc maxc 1 Hd).
  - apply calm_looking. intros o. apply calm_bind; [|intros; apply (evolves_ret _ EV)]. apply calm_one. apply (calm_any 2), (evolves_insert moved _ EV minc maxc 1 Hd).
  - apply calm_looking. intros o. apply calm_one, calm_copy_assign.
  - destruct (i =? j); [apply calm_one, calm_self_move|apply calm_two]. apply (evolves_move_assign _ EV).
  - apply calm_two, calm_swap.
Qed.
Lemma later_unused (w w' : world) : later 0 w w' -> unused_names w -> same (heap w') (heap w) -> unused_names w'.
Proof. intros [_ Hn] Hu Hs b Hb. rewrite Hs. apply Hu. lia. Qed.
Lemma later_rest o l (rest : memory) (w w' : world) : vector_in o l rest (heap w) -> later 0 w w' -> unused_names w -> same (heap w') rest -> unused_names w'.
Proof.
  intros Hin [_ Hn] Hu Hs b Hb. rewrite Hs. pose proof (Hu b ltac:(lia)) as Hnone. destruct (rest b) as [cs|] eqn:E; auto. exfalso.
  assert (Hv : forall vs, is_vec_in o vs rest (heap w) -> False).
  { intros vs [_ H]. destruct (u_pointer (b_storage o)) as [p|].
    - destruct H as (H1 & _ & H2). assert (b <> p) by congruence. rewrite H2 in Hnone by assumption. congruence.
    - destruct H as (_ & _ & _ & H). rewrite H in Hnone. congruence. }
  destruct l as [l|]; cbn [SpecVecPrograms.vector_in] in Hin; eauto. destruct Hin as [[_ H]|H]; eauto. rewrite H in Hnone. congruence.
Qed.

(** ** The steps *)
Lemma sizes_nth j (ls : list (state (V := V))) : nth j (sizes_of ls) 0 = length (elements j ls).
Proof.
  unfold sizes_of, elements, at_index. pose proof (map_nth (fun l : state (V := V) => match l with Some l => length l | None => 0 end) ls None j) as H.
  etransitivity; [exact H|]. destruct (nth j ls None); reflexivity.
Qed.
Lemma sizes_length (ls : list (state (V := V))) : length (sizes_of ls) = length ls.
Proof. apply map_length. Qed.
Lemma gone_nth j (ls : list (state (V := V))) : nth j (gone_of ls) true = match at_index j ls with Some _ => false | None => true end.
Proof.
  unfold gone_of, at_index. exact (map_nth (fun l : state (V := V) => match l with Some _ => false | None => true end) ls None j).
Qed.
Lemma at_nth j (ls : list (state (V := V))) l : nth_error ls j = Some l -> at_index j ls = l.
Proof. intros H. unfold at_index. now apply nth_error_nth. Qed.
Lemma elements_nth j (ls : list (state (V := V))) l : nth_error ls j = Some l -> elements j ls = match l with Some l => l | None => [] end.
Proof. intros H. unfold elements. now rewrite (at_nth _ _ _ H). Qed.
Lemma at_replace i (ls : list (state (V := V))) l : at_index i ls = Some l -> replace_at i (Some l) ls = ls.
Proof.
  intros H. apply replace_same. unfold at_index in H. rewrite <- H. apply nth_error_nth'. destruct (Nat.lt_ge_cases i (length ls)); auto.
  rewrite nth_overflow in H by assumption. discriminate.
Qed.

Lemma look_ok {A} j os (o : bvector) (k : bvector -> M V (list bvector) A) w : nth_error os j = Some o -> looking_at j k os w = k o os w.
Proof. intros H. unfold looking_at, bind, get. now rewrite H. Qed.

Lemma destroy_any o l (rest : memory) (w : world) :
  vector_in o l rest (heap w) -> unused_names w ->
  ends (bv_destroy o w) (fun _ _ w' => same (heap w') rest /\ unused_names w') (fun _ _ => False).
Proof.
  intros Hin Hu. pose proof (calm_destroy o w) as Hc.
  assert (H : ends (bv_destroy o w) (fun _ _ w' => same (heap w') rest) (fun _ _ => False)).
  { destruct l as [l|]; cbn [SpecVecPrograms.vector_in] in Hin. { apply (destroy_vec moved minc maxc Hmm o l rest w). now split. }
    destruct Hin as [[H1 H2]|H]. { rewrite moved_from_destroy by assumption. exact H2. }
    apply (destroy_vec moved minc maxc Hmm o [] rest w). now split. }
  unfold ends in *. destruct (bv_destroy o w) as [o1 [] w1|o1 w1|]; try contradiction. split; auto. eapply later_rest; eauto.
Qed.

Lemma move_assign_is o t (w : world) :
  match bv_destroy o w with
  | Ret _ _ w' => bv_move_assign (o, t) w = Ret (fst (bv_move t), snd (bv_move t)) tt w'
  | _ => True
  end.
Proof.
  unfold bv_destroy, bv_move_assign, bind, get, put. cbn [fst snd].
  assert (Hd : forall n i, match destroy_range (bv_data o) i n o w with
                           | Ret o' _ w' => o' = o /\ destroy_range (bv_data o) i n (o, t) w = Ret (o, t) tt w'
                           | _ => True end).
  { intros n. generalize w. induction n as [|n IH]; intros w0 i. { cbn. auto. }
    unfold destroy_range in *. cbn [for_each]. unfold bind. unfold destroy at 1 3.
    destruct (find_cell w0 (bv_data o) i) as [[[b cs] [v|]]|]; auto. apply IH. }
  specialize (Hd (b_size o) 0). destruct (destroy_range (bv_data o) 0 (b_size o) o w) as [o1 [] w1|o1 w1|]; auto. destruct Hd as [-> Hd].
  rewrite Hd. unfold deallocate_storage. destruct (u_pointer (b_storage o)) as [b|]; [|reflexivity]. unfold deallocate.
  destruct (heap w1 b) as [cs|]; auto. destruct (negb _); auto. match goal with |- context [forallb ?f cs] => destruct (forallb f cs) end; auto.
Qed.
Lemma move_any t u (rest m : memory) : vector_in t u rest m -> vector_in (fst (bv_move t)) u rest m.
Proof. destruct t as [[p s] n]. intros H. exact H. Qed.

Lemma untouched_in o o' l (rest : memory) (w w' : world) :
  vector_in o l rest (heap w) -> untouched o o' w w' -> vector_in o' l rest (heap w') /\ unused_names w'.
Proof. intros H (-> & Hs & Hu). split; auto. eapply in_same; [|exact H]. intros b. symmetry. apply Hs. Qed.

Lemma rest_unique o l (r r' m : memory) : vector_in o l r m -> vector_in o l r' m -> same r r'.
Proof.
  assert (Hp : forall l r, vector_in o l r m -> match u_pointer (b_storage o) with
                                               | Some b => r b = None /\ forall b', b' <> b -> m b' = r b' | None => same m r end).
  { intros l0 r0 H. assert (Hv : forall vs, is_vec_in o vs r0 m -> match u_pointer (b_storage o) with
        | Some b => r0 b = None /\ forall b', b' <> b -> m b' = r0 b' | None => same m r0 end).
    { intros vs [_ Hv]. destruct (u_pointer (b_storage o)); tauto. }
    destruct l0 as [l0|]; cbn [SpecVecPrograms.vector_in] in H; [exact (Hv _ H)|]. destruct H as [[[H1 _] H2]|H]; [now rewrite H1|exact (Hv _ H)]. }
  intros H H' b. apply Hp in H, H'. destruct (u_pointer (b_storage o)) as [p|].
  - destruct H as [H1 H2], H' as [H3 H4]. destruct (Nat.eq_dec b p) as [->|Hb]; [congruence|]. rewrite <- H2, <- H4; auto.
  - now rewrite <- H, <- H'.
Qed.
Lemma same_makes (m m' : memory) mks vs : same m m' -> Forall2 (makes m) mks vs -> Forall2 (makes m') mks vs.
Proof.
  intros Hs H. induction H as [|mk v mks vs Hmk H IH]; constructor; auto. destruct mk as [u|[b|] k|[b|] k|[b|] k]; cbn in *; auto.
  destruct Hmk as (cs & H1 & H2). exists cs. rewrite <- Hs. auto.
Qed.
Lemma element_make o l k (m : memory) : Forall2 (makes m) (elements_of o) l -> k < length l ->
  exists v, firstn 1 (skipn k l) = [v] /\ makes m (CopyOf (bv_data o) k) v.
Proof.
  intros Hmk Hk. destruct (nth_error l k) as [v|] eqn:E. 2:{ apply nth_error_None in E. lia. }
  exists v. split.
  - clear - E. revert k E. induction l as [|a l IH]; intros [|k]; cbn; intros; try discriminate. { congruence. } now apply IH.
  - pose proof (Forall2_len _ _ _ Hmk) as HL. unfold elements_of in HL, Hmk. rewrite map_length, seq_length in HL.
    assert (Hnk : nth_error (map (CopyOf (V := V) (bv_data o)) (seq 0 (b_size o))) k = Some (CopyOf (bv_data o) k)).
    { rewrite nth_error_map. rewrite (nth_error_nth' _ 0) by (rewrite seq_length; lia). rewrite seq_nth by lia. reflexivity. }
    clear - Hmk Hnk E. revert k Hnk E. generalize (map (CopyOf (V := V) (bv_data o)) (seq 0 (b_size o))), l, Hmk.
    intros a b Hf. generalize (CopyOf (V := V) (bv_data o)). induction Hf as [|x y a b Hxy Hf IH]; intros f [|k]; cbn; try discriminate.
    + intros H1 H2. congruence.
    + intros H1 H2. assert (H3 : nth_error a k = Some ((fun n => f (S n)) k)) by exact H1. exact (IH (fun n => f (S n)) k H3 H2).
Qed.

Section Growing.
Context (Hlt : minc < maxc).
Lemma copy_assign_any o l t us (rest : memory) (w : world) :
  vector_in o l rest (heap w) -> unused_names w -> Forall2 (makes rest) (elements_of t) us -> length us <= maxc ->
  ends (bv_copy_assign moved minc maxc false t o w)
    (fun o' _ w' => vector_in o' (Some us) rest (heap w') /\ unused_names w')
    (fun o' w' => (someone_throws w \/ maxc < 2 * length us) /\
       match l with
       | None => vector_in o' None rest (heap w')
       | Some l => exists n, n <= length l /\ n <= length us /\ vector_in o' (Some (firstn n us ++ skipn n l)) rest (heap w')
       end /\ unused_names w').
Proof.
  intros Hin Hu Hmk Hmax. destruct (u_pointer (b_storage o)) as [b|] eqn:Hp.
  - assert (Hv : is_vec_in o (match l with Some l => l | None => [] end) rest (heap w)).
    { destruct l as [l|]; auto. destruct Hin as [[[H _] _]|H]; [congruence|exact H]. }
    unfold bv_copy_assign, bind, get. change (bv_data o) with (u_pointer (b_storage o)). rewrite Hp. fold (elements_of (V := V) t).
    eapply ends_weaken. { apply (assign_vec moved minc maxc Hmm _ us o _ rest w Hlt (conj Hv Hu) Hmk). }
    + cbv beta. intros o' _ w' H. exact H.
    + cbv beta. intros o' w' [HT (n & Hn1 & Hn2 & [H1 H2])]. split. { destruct HT as [|[H3 H4]]; auto. right. eapply grown_above; eauto. }
      destruct l as [l|]. { split; auto. exists n. auto. } split; auto. right. cbn in Hn1. replace n with 0 in H1 by lia. exact H1.
  - assert (Hv : moved_from o /\ same (heap w) rest /\ (match l with Some l => l | None => [] end) = [] /\ (l = Some [] -> is_vec_in o [] rest (heap w))).
    { assert (Hx : forall vs, is_vec_in o vs rest (heap w) -> moved_from o /\ same (heap w) rest /\ vs = []).
      { intros vs [H1 H2]. rewrite Hp in H2. destruct H2 as (-> & _ & _ & H2). repeat split; auto. }
      destruct l as [l|]; cbn [SpecVecPrograms.vector_in] in Hin.
      - destruct (Hx _ Hin) as (H1 & H2 & ->). auto.
      - destruct Hin as [[H1 H2]|H]. { split; [exact H1|]. split; [exact H2|]. split; [reflexivity|discriminate]. } destruct (Hx _ H) as (H1 & H2 & _). split; [exact H1|]. split; [exact H2|]. split; [reflexivity|discriminate]. }
    destruct Hv as (Hmf & Hs & Hl & Hvl). eapply ends_weaken.
    { apply (copy_assign_null moved minc maxc Hmm false o t us w Hmf Hu); auto. eapply same_makes; [|exact Hmk]. intros x. symmetry. apply Hs. }
    + cbv beta. intros o' _ w' [H1 H2]. split; auto. eapply vec_in_same_rest; eauto.
    + cbv beta. intros o' w' [HT H]. split; auto. destruct H as [H|[H1 H2]].
      * destruct l as [l|].
        { subst l. destruct (untouched_in _ _ _ _ _ _ Hin H) as [Z1 Z2]. split; auto. exists 0. cbn. split; [lia|]. split; [lia|]. exact Z1. }
        exact (untouched_in _ _ _ _ _ _ Hin H).
      * assert (H3 : is_vec_in o' [] rest (heap w')) by (eapply vec_in_same_rest; eauto). split; auto.
        destruct l as [l|]; [|now right]. subst l. exists 0. cbn. split; [lia|]. split; [lia|]. exact H3.
Qed.

Lemma usable_some i (ls : list (state (V := V))) : negb (nth i (gone_of ls) true) = true -> exists l, at_index i ls = Some l /\ elements i ls = l.
Proof. rewrite gone_nth. unfold elements. destruct (at_index i ls) as [l|]; [eauto|discriminate]. Qed.

Lemma In_state i l (ls : list (state (V := V))) (os : list bvector) : length os = length ls -> i < length os -> In (Some l) (replace_at i (Some l) ls).
Proof. intros He Hi. apply In_replace. now rewrite He in Hi. Qed.

(** The step wants a vector of a size whose double is above the largest size. *)
Definition too_large (s : step) (ls : list (state (V := V))) : Prop :=
  match s with
  | Use i c => maxc < 2 * length (after c (elements i ls))
  | AppendAll i j => maxc < 2 * length (elements i ls ++ elements j ls)
  | InsertAll i p j => maxc < 2 * length (firstn p (elements i ls) ++ elements j ls ++ skipn p (elements i ls))
  | CopyAssign _ j => maxc < 2 * length (elements j ls)
  | _ => False
  end.
Lemma step_fine s os ls others w :
  vectors os ls others w -> possible maxc s (sizes_of ls) (gone_of ls) = true ->
  ends (do_step moved minc maxc s os w)
    (fun os' _ w' => vectors os' (then_ s ls) others w')
    (fun os' w' => (someone_throws w \/ too_large s ls) /\
       exists ls', or_else s ls ls' /\ vectors os' ls' others w').
Proof.
  intros Ha Hp. pose proof Ha as [Hin Hu]. pose proof (several_lengths vector_in _ _ _ _ Hin) as Hlen.
  destruct s as [|vs|j|j|i|i c|i j k|i j|i p j|i j|i j|i j]; cbn [possible do_step then_ or_else too_large] in *;
    rewrite ?sizes_nth, ?sizes_length, <- ?Hlen in Hp;
    repeat match goal with H : _ && _ = true |- _ => apply andb_prop in H; destruct H end;
    repeat match goal with
           | H : (_ <? _) = true |- _ => apply Nat.ltb_lt in H
           | H : (_ <=? _) = true |- _ => apply Nat.leb_le in H
           | H : negb (_ =? _) = true |- _ => apply negb_true_iff, Nat.eqb_neq in H
           | H : negb (nth _ _ _) = true |- _ => apply usable_some in H; destruct H as (l & Hli & Hle)
           end.
  - (* New *) pose proof (default_vec moved minc maxc Hmm w Hu) as H. pose proof (calm_default tt w) as Hc.
    eapply ends_weaken. { eapply (another_ok vector_in in_same in_swap _ os ls others w (Some []) (someone_throws w) Ha). unfold ends in *.
      destruct (bv_default minc tt w) as [x o w1|x w1|]; try contradiction.
      - destruct H as [[H1 H2] _]. split; auto.
      - destruct H as [H1 H2]. split; auto. split; auto. eapply later_unused; eauto. }
    + cbv beta. auto.
    + cbv beta. intros os' w' [H1 H2]. split; auto. exists ls. auto.
  - (* NewFrom *) pose proof (from_vec moved minc maxc Hmm false (map Supply vs) vs w Hu (makes_supply _ _) Hp) as H.
    pose proof (calm_from (map Supply vs) tt w) as Hc.
    eapply ends_weaken. { eapply (another_ok vector_in in_same in_swap _ os ls others w (Some vs) (someone_throws w) Ha). unfold ends in *.
      destruct (bv_from moved minc maxc false (Source (map Supply vs) true) tt w) as [x o w1|x w1|]; try contradiction.
      - destruct H as [[H1 H2] _]. split; auto.
      - destruct H as [H1 H2]. split; auto. split; auto. eapply later_unused; eauto. }
    + cbv beta. auto.
    + cbv beta. intros os' w' [H1 H2]. split; auto. exists ls. auto.
  - (* NewCopy *) destruct (focus_one vector_in in_swap j _ _ _ _ Hp Hin) as (o & l & rest & Hno & Hnl & Ho & _).
    rewrite (look_ok _ _ _ _ _ Hno). rewrite (elements_nth _ _ _ Hnl). destruct (in_elements _ _ _ _ Ho) as [Hmk Hmax].
    set (us := match l with Some l => l | None => [] end) in *. pose proof (calm_copy o tt w) as Hc.
    assert (H : ends (bv_copy moved minc maxc o tt w) (fun _ c w' => is_vec c us (heap w) w') (fun _ w' => same (heap w') (heap w) /\ someone_throws w)).
    { assert (Hsz : length (elements_of (V := V) o) = b_size o) by (unfold elements_of; now rewrite map_length, seq_length).
      pose proof (from_vec moved minc maxc Hmm false (elements_of o) us w Hu Hmk Hmax) as H.
      unfold bv_from in H. cbn [s_sized s_elements] in H. rewrite Hsz in H. eapply ends_weaken; [exact H| |]; cbv beta; tauto. }
    eapply ends_weaken. { eapply (another_ok vector_in in_same in_swap _ os ls others w (Some us) (someone_throws w) Ha). unfold ends in *.
      destruct (bv_copy moved minc maxc o tt w) as [x o1 w1|x w1|]; try contradiction.
      - exact H.
      - destruct H as [H1 H2]. split; auto. split; auto. eapply later_unused; eauto. }
    + cbv beta. auto.
    + cbv beta. intros os1 w' [H1 H2]. split; auto. exists ls. auto.
  - (* NewMove *) destruct (focus_one vector_in in_swap j _ _ _ _ Hp Hin) as (o & l & rest & Hno & Hnl & Ho & Hr & Hback).
    rewrite (look_ok _ _ _ _ _ Hno). unfold bind, get, put, ends. rewrite (at_nth _ _ _ Hnl). split; auto.
    eapply (several_end vector_in in_swap); [apply move_any; exact Ho|]. apply Hback. left. split; [split; reflexivity|]. now intros b.
  - (* End *) destruct (focus_one vector_in in_swap i _ _ _ _ Hp Hin) as (o & l & rest & Hno & Hnl & Ho & Hr & _).
    pose proof (destroy_any o l rest w Ho Hu) as H. unfold one_of, bind, get, put. rewrite Hno. unfold ends in *.
    destruct (bv_destroy o w) as [o1 [] w1|o1 w1|]; try contradiction. destruct H as [H1 H2].
    assert (Hrm : remove_at i (replace_at i o1 os) = remove_at i os).
    { clear - Hp. revert os Hp. induction i as [|i IH]; intros [|x os] Hp; cbn [length] in *; try lia; [reflexivity|].
      rewrite replace_S, !remove_S. f_equal. apply IH. lia. }
    rewrite Hrm. split; auto. eapply (several_same vector_in in_same); [|exact Hr]. intros b. symmetry. apply H1.
  - (* Use *) eapply ends_weaken.
    { apply (one_of_ok vector_in in_swap i (perform moved minc maxc c) os ls others w (fun _ l' => l' = Some (after c (elements i ls)))
               (fun l' => exists l0, interrupted c (elements i ls) l0 /\ l' = Some l0) (someone_throws w \/ maxc < 2 * length (after c (elements i ls)))); auto.
      intros o l0 rest _ Hnl Hi _. assert (l0 = Some (elements i ls)) by (rewrite <- (at_nth _ _ _ Hnl), Hle; exact Hli). subst l0.
      eapply ends_weaken. { apply (perform_ok moved minc maxc Hlt c o (elements i ls) rest w (conj Hi Hu)). assumption. }
      - cbv beta. intros o' _ w' [H1 H2]. eauto.
      - cbv beta. intros o' w' [H1 (vs' & H2 & H3 & H4)]. split; auto. exists (Some vs'). eauto. }
    + cbv beta. intros os' _ w' (l' & -> & H'). exact H'.
    + cbv beta. intros os' w' (HT & l' & (l0 & HE & ->) & H'). split; [|eauto]. exact HT.
  - (* PushElement *) assert (Hj : j < length os) by assumption.
    destruct (focus_one vector_in in_swap j _ _ _ _ Hj Hin) as (t & u & rt & Hnt & Hnu & Ht & _).
    rewrite (look_ok _ _ _ _ _ Hnt). destruct (in_elements _ _ _ _ Ht) as [Hmk _]. rewrite <- (elements_nth _ _ _ Hnu) in Hmk.
    destruct (element_make t (elements j ls) k (heap w) Hmk ltac:(assumption)) as (v & Hcut & Hmv). rewrite Hcut.
    eapply ends_weaken.
    { apply (one_of_ok vector_in in_swap i (push_back moved C (CopyOf (bv_data t) k)) os ls others w (fun _ l' => l' = Some (elements i ls ++ [v]))
               (fun l' => l' = Some (elements i ls)) (someone_throws w)); auto.
      intros o l0 rest _ Hnl Hi _. assert (l0 = Some (elements i ls)) by (rewrite <- (at_nth _ _ _ Hnl), Hle; exact Hli). subst l0.
      eapply ends_weaken. { apply (push_back_vec moved minc maxc Hmm _ v o (elements i ls) rest w (conj Hi Hu) Hmv). right. right. lia. }
      - cbv beta. intros o' _ w' [[Y1 Y2] _]. eauto.
      - cbv beta. intros o' w' [Hun HT]. split. { destruct HT as [|[HT _]]; auto. lia. } exists (Some (elements i ls)). split; auto. eapply untouched_in; eauto. }
    + cbv beta. intros os' _ w' (l' & -> & H'). exact H'.
    + cbv beta. intros os' w' (HT & l' & -> & H'). split; auto. exists ls. split; auto. rewrite at_replace in H' by (rewrite Hle; exact Hli). exact H'.
  - (* AppendAll *) assert (Hj : j < length os) by assumption.
    destruct (focus_one vector_in in_swap j _ _ _ _ Hj Hin) as (t & u & rt & Hnt & Hnu & Ht & _).
    rewrite (look_ok _ _ _ _ _ Hnt). destruct (in_elements _ _ _ _ Ht) as [Hmk _]. rewrite <- (elements_nth _ _ _ Hnu) in Hmk.
    eapply ends_weaken.
    { apply (one_of_ok vector_in in_swap i (append moved C (Source (elements_of t) true)) os ls others w (fun _ l' => l' = Some (elements i ls ++ elements j ls))
               (fun l' => l' = Some (elements i ls)) (someone_throws w \/ maxc < 2 * length (elements i ls ++ elements j ls))); auto.
      intros o l0 rest _ Hnl Hi _. assert (l0 = Some (elements i ls)) by (rewrite <- (at_nth _ _ _ Hnl), Hle; exact Hli). subst l0.
      eapply ends_weaken. { apply (append_vec moved minc maxc Hmm _ _ o (elements i ls) rest w Hlt (conj Hi Hu) Hmk). }
      - cbv beta. intros o' _ w' [[Y1 Y2] _]. eauto.
      - cbv beta. intros o' w' [Hun HT]. split. { destruct HT as [|[HT1 HT2]]; auto. right. eapply grown_above; eauto. }
        exists (Some (elements i ls)). split; auto. eapply untouched_in; eauto. }
    + cbv beta. intros os' _ w' (l' & -> & H'). exact H'.
    + cbv beta. intros os' w' (HT & l' & -> & H'). split. { exact HT. }
      exists ls. split; auto. rewrite at_replace in H' by (rewrite Hle; exact Hli). exact H'.
  - (* InsertAll *) assert (Hj : j < length os) by assumption. assert (Hi0 : i < length os) by assumption.
    destruct (focus_two vector_in in_swap i j _ _ _ _ Hi0 Hj ltac:(auto) Hin) as (o & l0 & t & u & mid & rest & Hno & Hnl & Hnt & Hnu & Ho & Ht & Hback & _).
    rewrite (look_ok _ _ _ _ _ Hnt). destruct (in_elements _ _ _ _ Ht) as [Hmk _]. rewrite <- (elements_nth _ _ _ Hnu) in Hmk.
    assert (l0 = Some (elements i ls)) by (rewrite <- (at_nth _ _ _ Hnl), Hle; exact Hli). subst l0.
    apply ends_bind_ret. unfold one_of. rewrite Hno.
    pose proof (insert_vec moved minc maxc Hmm (elements_of t) (elements j ls) o (firstn p (elements i ls)) (skipn p (elements i ls)) mid w) as H'.
    rewrite firstn_skipn in H'. assert (Hfp : length (firstn p (elements i ls)) = p) by (rewrite firstn_length; lia). rewrite Hfp in H'.
    assert (Hne : elements_of (V := V) t <> [] \/ skipn p (elements i ls) = []).
    { match goal with H : _ || _ = true |- _ => apply orb_prop in H; destruct H as [Hz|Hz] end.
      - left. apply negb_true_iff, Nat.eqb_neq in Hz. intros Hnil. pose proof (Forall2_len _ _ _ Hmk) as HL. rewrite Hnil in HL. cbn in HL. lia.
      - right. apply Nat.eqb_eq in Hz. apply skipn_all2. lia. }
    specialize (H' (conj Ho Hu) Hmk Hne). unfold ends in *. destruct (insert moved C p (elements_of t) o w) as [o1 r w1|o1 w1|]; try contradiction.
    + destruct H' as (_ & [Z1 Z2] & _). split; auto. eapply Hback; [exact Z1|]. exact Ht.
    + destruct H' as [Hun HT]. split. { destruct HT as [|[HT1 HT2]]; auto. right. eapply grown_above; eauto. }
      exists ls. split; auto. destruct (untouched_in _ _ _ _ _ _ Ho Hun) as [Z1 Z2]. split; auto.
      pose proof (Hback _ _ _ _ Z1 Ht) as Z3. rewrite at_replace in Z3 by (rewrite Hle; exact Hli). exact Z3.
  - (* CopyAssign *) assert (Hj : j < length os) by assumption. assert (Hi0 : i < length os) by assumption.
    destruct (focus_two vector_in in_swap i j _ _ _ _ Hi0 Hj ltac:(auto) Hin) as (o & l & t & u & mid & rest & Hno & Hnl & Hnt & Hnu & Ho & Ht & Hback & _).
    rewrite (look_ok _ _ _ _ _ Hnt). destruct (in_elements _ _ _ _ Ht) as [Hmk Hmax]. rewrite <- (elements_nth _ _ _ Hnu) in Hmk, Hmax.
    rewrite (at_nth _ _ _ Hnl). unfold one_of. rewrite Hno.
    pose proof (copy_assign_any o l t (elements j ls) mid w Ho Hu Hmk Hmax) as H'. unfold ends in *.
    destruct (bv_copy_assign moved minc maxc false t o w) as [o1 [] w1|o1 w1|]; try contradiction.
    + destruct H' as [Z1 Z2]. split; auto. eapply Hback; eauto.
    + destruct H' as [HT [Z1 Z2]]. split. { exact HT. }
      destruct l as [l|].
      * destruct Z1 as (n & Hn1 & Hn2 & Z1). eexists. split. { exists n. split; [exact Hn1|]. split; [exact Hn2|]. reflexivity. } split; auto. eapply Hback; eauto.
      * exists ls. split; auto. split; auto. pose proof (Hback _ _ _ _ Z1 Ht) as Z3. pose proof (replace_same i _ ls Hnl) as Hsame. change (replace_at i (None : state (V := V)) ls = ls) in Hsame. now rewrite Hsame in Z3.
  - (* MoveAssign *) assert (Hi0 : i < length os) by assumption. eapply (ends_weaken _ _ _ (fun _ _ => False)); [|intros ? ? ? X; exact X|contradiction].
    destruct (Nat.eqb_spec i j) as [->|Hij].
    + destruct (focus_one vector_in in_swap j _ _ _ _ Hi0 Hin) as (o & l & rest & Hno & Hnl & Ho & Hr & Hback).
      unfold one_of. rewrite Hno. rewrite replace_twice by exact (eq_ind _ (fun n => j < n) Hi0 _ Hlen).
      assert (Y : ends (bv_self_move_assign o w) (fun o' _ w' => moved_from o' /\ same (heap w') rest) (fun _ _ => False)).
      { assert (Hv : forall vs, is_vec_in o vs rest (heap w) -> ends (bv_self_move_assign o w) (fun o' _ w' => moved_from o' /\ same (heap w') rest) (fun _ _ => False)).
        { intros vs Y. apply (self_move_vec moved minc maxc Hmm o vs rest w). now split. }
        destruct l as [l|]; cbn [SpecVecPrograms.vector_in] in Ho; eauto. destruct Ho as [[[Y1 Y2] Y3]|Y]; eauto.
        unfold bv_self_move_assign, bind, get, put, bv_data, deallocate_storage. rewrite Y1, Y2. cbn. split; [split; reflexivity|exact Y3]. }
      pose proof (calm_self_move o w) as Hc. unfold ends in *. destruct (bv_self_move_assign o w) as [o1 [] w1|o1 w1|]; try contradiction.
      destruct Y as [Y1 Y2]. split. { apply Hback. left. auto. } eapply later_rest; eauto.
    + destruct (focus_two vector_in in_swap i j _ _ _ _ Hi0 ltac:(assumption) ltac:(auto) Hin) as (o & l & t & u & mid & rest & Hno & Hnl & Hnt & Hnu & Ho & Ht & _ & Hback).
      unfold two_of. rewrite Hno, Hnt, (at_nth _ _ _ Hnu). pose proof (destroy_any o l mid w Ho Hu) as Y. pose proof (move_assign_is o t w) as Hm. unfold ends in Y.
      destruct (bv_destroy o w) as [o1 [] w1|o1 w1|]; try contradiction. destruct Y as [Y1 Y2]. rewrite Hm. unfold ends. split; auto.
      cbn [fst snd]. apply (Hback _ _ _ _ rest).
      * apply move_any. eapply in_same; [|exact Ht]. intros b. symmetry. apply Y1.
      * left. split; [split; reflexivity|now intros b].
  - (* Swap *) assert (Hi0 : i < length os) by assumption. eapply (ends_weaken _ _ _ (fun _ _ => False)); [|intros ? ? ? X; exact X|contradiction].
    destruct (focus_two vector_in in_swap i j _ _ _ _ Hi0 ltac:(assumption) ltac:(auto) Hin) as (o & l & t & u & mid & rest & Hno & Hnl & Hnt & Hnu & Ho & Ht & _ & Hback).
    unfold two_of. rewrite Hno, Hnt, (at_nth _ _ _ Hnu), (at_nth _ _ _ Hnl). unfold bv_swap, bind, get, put, ends. cbn [fst snd]. split; auto.
    destruct (in_swap _ _ _ _ _ _ _ Ho Ht) as (mid' & Z1 & Z2). apply (Hback _ _ _ _ mid').
    + destruct t as [st kt]. exact Z1.
    + destruct o as [so ko]. exact Z2.
Qed.

Lemma step_ok s os ls others w :
  vectors os ls others w -> possible maxc s (sizes_of ls) (gone_of ls) = true ->
  ends (do_step moved minc maxc s os w)
    (fun os' _ w' => vectors os' (then_ s ls) others w')
    (fun os' w' => (someone_throws w \/ exists l, In (Some l) (then_ s ls) /\ maxc < 2 * length l) /\
       exists ls', or_else s ls ls' /\ vectors os' ls' others w').
Proof.
  intros Ha Hp. eapply ends_weaken; [apply (step_fine s os ls others w Ha Hp)|auto|]. cbv beta. intros os' w' [[H|H] Hb]; (split; [|exact Hb]); auto.
  right. pose proof Ha as [Hin _]. pose proof (several_lengths vector_in _ _ _ _ Hin) as Hlen.
  destruct s as [|vs|j|j|i|i c|i j k|i j|i p j|i j|i j|i j]; cbn [too_large possible then_] in *; try contradiction;
    rewrite sizes_length, <- Hlen in Hp; repeat match goal with H : _ && _ = true |- _ => apply andb_prop in H; destruct H end;
    repeat match goal with X : (_ <? _) = true |- _ => apply Nat.ltb_lt in X end;
    (eexists; split; [|exact H]; apply (In_state _ _ _ os); assumption).
Qed.

(** ** Programs *)
Lemma map_replace {A B} (f : A -> B) i x l : map f (replace_at i x l) = replace_at i (f x) (map f l).
Proof. unfold replace_at. rewrite !map_app, firstn_map, skipn_map. reflexivity. Qed.
Lemma map_remove {A B} (f : A -> B) i l : map f (remove_at i l) = remove_at i (map f l).
Proof. unfold remove_at. now rewrite map_app, firstn_map, skipn_map. Qed.
Lemma gone_replace i (l : state (V := V)) ls : gone_of (replace_at i l ls) = replace_at i (match l with Some _ => false | None => true end) (gone_of ls).
Proof. unfold gone_of. rewrite map_replace. reflexivity. Qed.
Lemma gone_app (ls ls' : list (state (V := V))) : gone_of (ls ++ ls') = gone_of ls ++ gone_of ls'.
Proof. apply map_app. Qed.
Lemma gone_same i (ls : list (state (V := V))) l l' : at_index i ls = Some l -> gone_of (replace_at i (Some l') ls) = gone_of ls.
Proof.
  intros H. rewrite gone_replace. rewrite <- (at_replace i ls l H) at 2. rewrite gone_replace. reflexivity.
Qed.
Lemma then_gone s (ls : list (state (V := V))) : possible maxc s (sizes_of ls) (gone_of ls) = true -> gone_of (then_ s ls) = gone_after s (gone_of ls).
Proof.
  intros Hp. destruct s as [|vs|j|j|i|i c|i j k|i j|i p j|i j|i j|i j]; cbn [then_ gone_after possible] in *;
    try (repeat match goal with H : _ && _ = true |- _ => apply andb_prop in H; destruct H end;
         match goal with H : negb (nth _ _ _) = true |- _ => apply usable_some in H; destruct H as (l & Hli & Hle) end;
         now apply (gone_same _ _ l));
    rewrite ?gone_app, ?gone_replace, ?gone_nth; auto.
  apply map_remove.
Qed.
Lemma else_gone s (ls ls' : list (state (V := V))) : possible maxc s (sizes_of ls) (gone_of ls) = true -> or_else s ls ls' -> gone_of ls' = gone_of ls.
Proof.
  intros Hp Ho. destruct s as [|vs|j|j|i|i c|i j k|i j|i p j|i j|i j|i j]; cbn [or_else possible] in *; try contradiction; try (now subst).
  - destruct Ho as (l' & _ & ->). apply andb_prop in Hp. destruct Hp as [Hp _]. apply andb_prop in Hp. destruct Hp as [_ Hp].
    destruct (usable_some _ _ Hp) as (l & H1 & _). now apply (gone_same _ _ l).
  - destruct (at_index i ls) as [l|] eqn:E; [|now subst]. destruct Ho as (n & _ & _ & ->). now apply (gone_same _ _ l).
Qed.
Lemma vectors_sizes os ls others w : vectors os ls others w -> map b_size os = sizes_of ls.
Proof. intros [H _]. eapply (several_map vector_in); [|exact H]. apply in_size. Qed.

Lemma program_ok ss : forall os ls others w,
  vectors os ls others w ->
  ends (program moved minc maxc ss (gone_of ls) os w)
    (fun os' _ w' => exists ls', accounts maxc ss ls ls' /\ vectors os' ls' others w') (fun _ _ => False).
Proof.
  induction ss as [|s ss IH]; intros os ls others w Ha; cbn [program].
  - cbn. exists ls. split; auto. constructor.
  - unfold bind at 1. unfold get. rewrite (vectors_sizes _ _ _ _ Ha). destruct (possible maxc s (sizes_of ls) (gone_of ls)) eqn:Hp.
    + unfold bind, attempt. pose proof (step_ok s os ls others w Ha Hp) as Hs. unfold ends in Hs.
      destruct (do_step moved minc maxc s os w) as [os1 [] w1|os1 w1|]; [| |contradiction].
      * rewrite <- (then_gone s ls Hp). eapply ends_weaken. { apply (IH _ _ _ _ Hs). } 2: auto.
        cbv beta. intros o' _ w' (ls' & He & H'). exists ls'. split; auto. now apply accounts_returns.
      * destruct Hs as [_ (ls1 & Hi & Hv1)]. rewrite <- (else_gone s ls ls1 Hp Hi). eapply ends_weaken. { apply (IH _ _ _ _ Hv1). } 2: auto.
        cbv beta. intros o' _ w' (ls' & He & H'). exists ls'. split; auto. eapply accounts_throws; eauto.
    + eapply ends_weaken. { apply (IH _ _ _ _ Ha). } 2: auto. cbv beta. intros o' _ w' (ls' & He & H'). exists ls'. split; auto. now apply accounts_skips.
Qed.

Lemma program_plain ss : forall os ls others w,
  vectors os ls others w -> ~ someone_throws w -> (forall l, In (Some l) (passing maxc ss ls) -> 2 * length l <= maxc) ->
  ends (program moved minc maxc ss (gone_of ls) os w)
    (fun os' _ w' => vectors os' (plainly maxc ss ls) others w') (fun _ _ => False).
Proof.
  induction ss as [|s ss IH]; intros os ls others w Ha Hq Hd; cbn [program plainly passing] in *.
  - exact Ha.
  - unfold bind at 1. unfold get. rewrite (vectors_sizes _ _ _ _ Ha).
    destruct (possible maxc s (sizes_of ls) (gone_of ls)) eqn:Hp.
    + unfold bind, attempt. pose proof (step_ok s os ls others w Ha Hp) as Hs. unfold ends in Hs.
      pose proof (calm_step s os w) as Hc.
      destruct (do_step moved minc maxc s os w) as [os1 [] w1|os1 w1|]; [| |contradiction].
      * rewrite <- (then_gone s ls Hp). apply IH; auto. { intros Ht. apply Hq. destruct Hc as [Hc _]. apply Hc. exact Ht. }
        intros l Hl. apply Hd. apply in_or_app. auto.
      * destruct Hs as [[Ht|(l & Hl & Hbig)] _]; [contradiction|]. exfalso.
        assert (Hin : In (Some l) (passing maxc ss (then_ s ls))). { destruct ss; cbn; auto. apply in_or_app. auto. }
        specialize (Hd l (in_or_app _ _ _ (or_intror Hin))). lia.
    + apply IH; auto. intros l Hl. apply Hd. apply in_or_app. auto.
Qed.

Lemma ends_program n : forall os ls others w gone, length os = n ->
  vectors os ls others w ->
  ends (program moved minc maxc (repeat (End 0) n) gone os w) (fun os' _ w' => os' = [] /\ same (heap w') others) (fun _ _ => False).
Proof.
  induction n as [|n IH]; intros os ls others w gone Hn Ha.
  - destruct os; [|discriminate]. destruct ls; [|destruct Ha as [[] _]]. cbn. split; auto. apply Ha.
  - cbn [repeat program]. unfold bind at 1. unfold get. destruct os as [|o os]; [discriminate|].
    destruct ls as [|l ls]; [destruct Ha as [[] _]|].
    assert (Hp : forall g sz, possible maxc (End (V := V) 0) (map b_size (o :: os)) g = true /\ possible maxc (End (V := V) 0) (sizes_of (l :: ls)) sz = true) by (split; reflexivity).
    rewrite (proj1 (Hp _ gone)). pose proof (step_ok (End 0) (o :: os) (l :: ls) others w Ha (proj2 (Hp gone _))) as Hs. unfold bind, attempt.
    assert (Hd : match do_step moved minc maxc (End 0) (o :: os) w with Ret os' _ _ => os' = os | _ => True end).
    { cbn [do_step]. unfold one_of, bind, get, put. cbn [nth_error]. destruct (bv_destroy o w) as [o1 [] w1|o1 w1|]; auto. }
    unfold ends in Hs. destruct (do_step moved minc maxc (End 0) (o :: os) w) as [os1 [] w1|os1 w1|]; [| |contradiction].
    + subst os1. change (then_ (End 0) (l :: ls)) with ls in Hs. eapply IH; eauto.
    + destruct Hs as [_ (ls' & [] & _)].
Qed.

Lemma whole_ok ss w :
  unused_names w ->
  ends (whole moved minc maxc ss tt w) (fun _ _ w' => same (heap w') (heap w)) (fun _ _ => False).
Proof.
  intros Hu. unfold whole. assert (Ha : vectors [] [] (heap w) w). { split; auto. intros b. reflexivity. }
  pose proof (program_ok ss [] [] (heap w) w Ha) as H. change (gone_of []) with (@nil bool) in H. unfold ends in *.
  destruct (program moved minc maxc ss [] [] w) as [os [] w1|os w1|]; try contradiction.
  destruct H as (ls & _ & Ha1). pose proof (ends_program (length os) os ls (heap w) w1 (map (fun _ => true) os) eq_refl Ha1) as H. unfold ends in H.
  destruct (program moved minc maxc (repeat (End 0) (length os)) (map (fun _ => true) os) os w1); try contradiction. tauto.
Qed.
End Growing.
End Proofs.
