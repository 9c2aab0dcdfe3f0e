(** * Lemmas for C152: programs with any number of forward lists *)

From Coq Require Import List Arith Bool Lia.
From Verif Require Import LinkedList SpecList SpecForwardPrograms LinkedListProofs ForwardListProofs ForwardErase PropsList PropsExactLists PropsForwardErase.
Import ListNotations.
Local Open Scope nat_scope.

Section Programs.
Context {V : Type}.
Notation memory := (memory (option nat) V).
Notation lists := (@lists V).

Lemma fnot_sentinel (m : memory) s l p : forward_at m s l -> In p (names_of l) -> p <> s.
Proof. intros (_ & _ & N & _) Hp ->. apply nodup_cons in N as (_ & N). exact (N Hp). Qed.
Lemma in_put (st : lists) s l t k : In (t, k) (put st s l) <-> (t = s /\ k = l /\ exists l0, In (s, l0) st) \/ (t <> s /\ In (t, k) st).
Proof.
  unfold put. rewrite in_map_iff. split.
  - intros ((u, j) & E & Hi). cbn [fst] in E. destruct (Nat.eqb_spec u s) as [->|Hne]; injection E as <- <-; [left; eauto|right; auto].
  - intros [(-> & -> & l0 & Hi)|(Hne & Hi)]; [exists (s, l0); cbn; rewrite Nat.eqb_refl; auto|]. exists (t, k). cbn. rewrite (proj2 (Nat.eqb_neq _ _) Hne). auto.
Qed.
Lemma keys_put (st : lists) s l : map fst (put st s l) = map fst st.
Proof.
  unfold put. rewrite map_map. apply map_ext_in. intros (t, k) _. cbn. destruct (Nat.eqb_spec t s) as [->|]; reflexivity.
Qed.
Lemma in_without (st : lists) s t k : In (t, k) (without st s) <-> In (t, k) st /\ t <> s.
Proof.
  unfold without. rewrite filter_In. cbn. rewrite negb_true_iff, Nat.eqb_neq. reflexivity.
Qed.
Lemma keys_without (st : lists) s : NoDup (map fst st) -> NoDup (map fst (without st s)).
Proof.
  induction st as [|(t, k) st IH]; [auto|]. cbn. intro H. apply NoDup_cons_iff in H as [H1 H2]. destruct (t =? s); cbn; [auto|]. constructor; [|auto].
  intro Hi. apply H1. apply in_map_iff in Hi as ((u, j) & <- & Hi). apply filter_In in Hi as [Hi _]. apply in_map_iff. exists (u, j). auto.
Qed.
Lemma one_entry (m : memory) st s l k : represents m st -> In (s, l) st -> In (s, k) st -> l = k.
Proof.
  intros (_ & N & _). revert N. induction st as [|(t, j) st IH]; [intros _ []|]. cbn. intros N. apply NoDup_cons_iff in N as [N1 N2].
  assert (K : forall x, In (s, x) st -> t <> s) by (intros x Hx ->; apply N1, in_map_iff; exists (s, x); auto).
  intros [E|H] [F|G]; [congruence| | |auto]; [injection E as -> ->; now destruct (K _ G)|injection F as -> ->; now destruct (K _ H)].
Qed.
Lemma owned_exists (m : memory) st q : represents m st -> owned st q -> object_at m q <> None.
Proof. intros (_ & _ & H & _) (s & l & Hi & Hq). exact (forward_names m s l q (H s l Hi) Hq). Qed.

Definition goes (m : memory) (st : lists) (m' : memory) (st' : lists) (leak : Prop) : Prop :=
  represents m' st' /\ others_kept m st m' st' /\ (leak \/ nothing_new m st m' st').

(** The lists [old] are replaced by others, made of their objects and of new ones. *)
Lemma rebuild (m m' : memory) st st' (old : lists) :
  represents m st -> incl old st -> valid m' -> NoDup (map fst st') ->
  (forall q, object_at m q <> None -> ~ owned old q -> object_at m' q = object_at m q) ->
  (forall s l, In (s, l) st' -> (In (s, l) st /\ ~ In s (map fst old)) \/ (forward_at m' s l /\ forall q, In q (s :: names_of l) -> owned old q \/ object_at m q = None)) ->
  (forall s l t k, In (s, l) st' -> In (t, k) st' -> ~ (In (s, l) st /\ ~ In s (map fst old)) -> ~ (In (t, k) st /\ ~ In t (map fst old)) -> s <> t -> apart s l t k) ->
  (forall s l, In (s, l) st -> ~ In s (map fst old) -> In (s, l) st') ->
  (forall q, owned old q \/ object_at m q = None -> object_at m' q <> None -> owned st' q) ->
  goes m st m' st' False.
Proof.
  intros R Io Hv N F K A Keep C. pose proof R as (Rv & Rn & Rl & Ra).
  assert (U : forall s l, In (s, l) st -> ~ In s (map fst old) -> forall q, In q (s :: names_of l) -> ~ (owned old q \/ object_at m q = None)).
  { intros s l Hs Hn q Hq [(t & k & Ht & Hq')|Hno].
    - apply (Ra s l t k Hs (Io _ Ht)) with q; [|exact Hq|exact Hq']. intros ->. apply Hn, in_map_iff. exists (t, k). auto.
    - exact (forward_names m s l q (Rl s l Hs) Hq Hno). }
  assert (Same : forall s l, In (s, l) st -> ~ In s (map fst old) -> forward_at m' s l).
  { intros s l Hs Hn. apply forward_same with m; [apply Rl, Hs|]. intros p Hp. pose proof (U s l Hs Hn p Hp) as Hu. apply F; tauto. }
  assert (D : forall s l, In (s, l) st' -> ~ (In (s, l) st /\ ~ In s (map fst old)) -> forall q, In q (s :: names_of l) -> owned old q \/ object_at m q = None).
  { intros s l Hs Hn. destruct (K s l Hs) as [H|[_ H]]; [contradiction|exact H]. }
  assert (Dec : forall s l, In (s, l) st' -> (In (s, l) st /\ ~ In s (map fst old)) \/ ~ (In (s, l) st /\ ~ In s (map fst old))).
  { intros s l Hs. destruct (K s l Hs) as [H|[_ H]]; [now left|]. right. intros [H1 H2]. apply (U s l H1 H2 s); [now left|]. apply H. now left. }
  split; [|split].
  - split; [exact Hv|]. split; [exact N|]. split.
    + intros s l Hs. destruct (K s l Hs) as [[H1 H2]|[H _]]; [exact (Same s l H1 H2)|exact H].
    + intros s l t k Hs Ht Hne p Hp Hp'. destruct (Dec s l Hs) as [[S1 S2]|S], (Dec t k Ht) as [[T1 T2]|T].
      * exact (Ra s l t k S1 T1 Hne p Hp Hp').
      * exact (U s l S1 S2 p Hp (D t k Ht T p Hp')).
      * exact (U t k T1 T2 p Hp' (D s l Hs S p Hp)).
      * exact (A s l t k Hs Ht S T Hne p Hp Hp').
  - intros q Hq Hn. assert (O : ~ owned old q) by (intros (s & l & Hi & Hx); apply Hn; exists s, l; auto).
    split; [apply F; assumption|]. intros (s & l & Hs & Hx). destruct (Dec s l Hs) as [[S1 _]|S]; [apply Hn; exists s, l; auto|]. destruct (D s l Hs S q Hx); [contradiction|congruence].
  - right. intros q Hq. destruct (object_at m q) eqn:E; [|left; apply C; auto].
    destruct (in_dec Nat.eq_dec q (flat_map (fun e => fst e :: names_of (snd e)) st)) as [Hi|Hi].
    + apply in_flat_map in Hi as ((s, l) & Hs & Hx). cbn [fst snd] in Hx. left. destruct (in_dec Nat.eq_dec s (map fst old)) as [Ho|Ho].
      * apply C; [left|exact Hq]. apply in_map_iff in Ho as ((t, k) & Et & Ht). cbn in Et. subst t. rewrite (one_entry m st s l k R Hs (Io _ Ht)) in Hx. exists s, k. auto.
      * exists s, l. auto.
    + right. split; [discriminate|]. intros (s & l & Hs & Hx). apply Hi, in_flat_map. exists (s, l). auto.
Qed.
(** One list is changed. *)
Lemma one_list (m m' : memory) st s l l' D : represents m st -> In (s, l) st -> valid m' -> forward_at m' s l' -> same_except D m m' ->
  (forall q, In q D -> In q (s :: names_of l) \/ object_at m q = None) ->
  (forall q, In q (names_of l') -> In q (names_of l) \/ object_at m q = None) ->
  (forall q, In q D -> object_at m' q <> None -> In q (s :: names_of l')) ->
  (forall q, In q (names_of l) -> object_at m' q <> None -> In q (s :: names_of l')) ->
  goes m st m' (put st s l') False.
Proof.
  intros R Hs Hv Hl F HD Hn HC HC'. apply rebuild with (old := [(s, l)]); try assumption.
  - intros e [<-|[]]. exact Hs.
  - rewrite keys_put. apply R.
  - intros q Hq Ho. apply F. intro Hi. destruct (HD q Hi) as [H|H]; [|contradiction]. apply Ho. exists s, l. split; [now left|exact H].
  - intros t k Ht. apply in_put in Ht as [(-> & -> & _)|(Hne & Ht)].
    + right. split; [exact Hl|]. intros q [<-|Hq]; [left; exists s, l; split; now left|]. destruct (Hn q Hq) as [H|H]; [left; exists s, l; split; [now left|now right]|now right].
    + left. split; [exact Ht|]. cbn. intros [<-|[]]. contradiction.
  - intros t k u j Ht Hu Nt Nu Hne. exfalso. apply in_put in Ht as [(-> & -> & _)|(Ht1 & Ht2)]; [|apply Nt; split; [exact Ht2|cbn; intros [<-|[]]; contradiction]].
    apply in_put in Hu as [(-> & -> & _)|(Hu1 & Hu2)]; [contradiction|]. apply Nu. split; [exact Hu2|cbn; intros [<-|[]]; contradiction].
  - intros t k Ht Hne. apply in_put. right. split; [|exact Ht]. intros ->. apply Hne. now left.
  - assert (Os : forall q, In q (s :: names_of l') -> owned (put st s l') q) by (intros q Hq; exists s, l'; split; [apply in_put; left; eauto|exact Hq]).
    intros q [(t & k & [E|[]] & Hq)|Hno] Hq'.
    + injection E as <- <-. destruct Hq as [<-|Hq]; [apply Os; now left|]. apply Os, HC'; assumption.
    + destruct (in_dec Nat.eq_dec q D) as [Hi|Hi]; [apply Os, HC; assumption|]. rewrite (F q Hi) in Hq'. contradiction.
Qed.
(** A list is added. *)
Lemma another_list (m m' : memory) st s l : represents m st -> valid m' -> forward_at m' s l -> same_except (s :: names_of l) m m' ->
  (forall q, In q (s :: names_of l) -> object_at m q = None) -> goes m st m' (st ++ [(s, l)]) False.
Proof.
  intros R Hv Hl F Hn.
  assert (Ns : ~ In s (map fst st)).
  { intro Hi. apply in_map_iff in Hi as ((t, k) & E & Hi). cbn in E. subst t. apply (owned_exists m st s R); [exists s, k; split; [exact Hi|now left]|]. apply Hn. now left. }
  apply rebuild with (old := []); try assumption.
  - intros e [].
  - rewrite map_app. apply nodup_app. split; [apply R|]. split; [repeat constructor; intros []|]. intros x Hx [<-|[]]. contradiction.
  - intros q Hq _. apply F. intro Hi. exact (Hq (Hn q Hi)).
  - intros t k Ht. apply in_app_or in Ht as [Ht|[E|[]]]; [left; split; [exact Ht|intros []]|]. injection E as <- <-. right. auto.
  - intros t k u j Ht Hu Nt Nu Hne. exfalso. apply in_app_or in Ht as [Ht|[E|[]]]; [apply Nt; split; [exact Ht|intros []]|]. apply in_app_or in Hu as [Hu|[E'|[]]]; [apply Nu; split; [exact Hu|intros []]|]. congruence.
  - intros t k Ht _. apply in_or_app. now left.
  - intros q [(t & k & [] & _)|Hq] Hq'. exists s, l. split; [apply in_or_app; right; now left|]. destruct (in_dec Nat.eq_dec q (s :: names_of l)) as [Hi|Hi]; [exact Hi|]. rewrite (F q Hi) in Hq'. contradiction.
Qed.
(** Two lists are changed. *)
Lemma two_lists (m m' : memory) st s l t k l' k' : represents m st -> In (s, l) st -> In (t, k) st -> s <> t -> valid m' -> forward_at m' s l' -> forward_at m' t k' ->
  same_except (s :: t :: names_of l ++ names_of k) m m' -> (forall q, In q (names_of l ++ names_of k) <-> In q (names_of l' ++ names_of k')) -> (forall q, In q (names_of l') -> In q (names_of k') -> False) ->
  goes m st m' (put (put st s l') t k') False.
Proof.
  intros R Hs Ht Hne Hv Hl Hk F Hn Hd. pose proof R as (_ & _ & Rl & Ra).
  assert (O : forall q, owned [(s, l); (t, k)] q <-> In q (s :: t :: names_of l ++ names_of k)).
  { intro q. cbn [In]. rewrite in_app_iff. split.
    - intros (u & j & [E|[E|[]]] & Hq); injection E as <- <-; destruct Hq; tauto.
    - intros [H|[H|[H|H]]]; [exists s, l|exists t, k|exists s, l|exists t, k]; (split; [cbn; auto|]); cbn; auto. }
  assert (I : forall u j, In (u, j) (put (put st s l') t k') <-> (u = s /\ j = l') \/ (u = t /\ j = k') \/ (u <> s /\ u <> t /\ In (u, j) st)).
  { intros u j. rewrite in_put, in_put. split.
    - intros [(-> & -> & _)|(H1 & [(-> & -> & _)|(H2 & H3)])]; auto.
    - intros [(-> & ->)|[(-> & ->)|(H1 & H2 & H3)]].
      + right. split; [exact Hne|]. left. eauto.
      + left. split; [reflexivity|]. split; [reflexivity|]. exists k. apply in_put. auto.
      + auto. }
  assert (Ns : ~ In s (names_of k')).
  { intro H. assert (H' : In s (names_of l ++ names_of k)) by (apply Hn, in_or_app; now right). apply in_app_or in H' as [H'|H']; [exact (fnot_sentinel m s l s (Rl s l Hs) H' eq_refl)|].
    apply (Ra s l t k Hs Ht Hne s); [now left|now right]. }
  assert (Nt : ~ In t (names_of l')).
  { intro H. assert (H' : In t (names_of l ++ names_of k)) by (apply Hn, in_or_app; now left). apply in_app_or in H' as [H'|H']; [|exact (fnot_sentinel m t k t (Rl t k Ht) H' eq_refl)].
    apply (Ra s l t k Hs Ht Hne t); [now right|now left]. }
  apply rebuild with (old := [(s, l); (t, k)]); try assumption.
  - intros e [<-|[<-|[]]]; assumption.
  - rewrite !keys_put. apply R.
  - intros q _ Ho. apply F. intro Hi. apply Ho, O, Hi.
  - intros u j Hu. apply I in Hu as [(-> & ->)|[(-> & ->)|(H1 & H2 & H3)]].
    + right. split; [exact Hl|]. intros q Hq. left. apply O. cbn. destruct Hq as [<-|Hq]; [auto|]. right. right. apply Hn, in_or_app. auto.
    + right. split; [exact Hk|]. intros q Hq. left. apply O. cbn. destruct Hq as [<-|Hq]; [auto|]. right. right. apply Hn, in_or_app. auto.
    + left. split; [exact H3|]. cbn. intros [H|[H|[]]]; congruence.
  - intros u j x y Hu Hx Nu Nx E. apply I in Hu as [(-> & ->)|[(-> & ->)|(H1 & H2 & H3)]]; [| |exfalso; apply Nu; split; [exact H3|cbn; intros [H|[H|[]]]; congruence]];
      (apply I in Hx as [(-> & ->)|[(-> & ->)|(G1 & G2 & G3)]]; [| |exfalso; apply Nx; split; [exact G3|cbn; intros [H|[H|[]]]; congruence]]); try congruence.
    + intros p [<-|Hp] [Hq|Hq]; [congruence|contradiction|subst p; contradiction|exact (Hd p Hp Hq)].
    + intros p [<-|Hp] [Hq|Hq]; [congruence|contradiction|subst p; contradiction|exact (Hd p Hq Hp)].
  - intros u j Hu Hi. apply I. right. right. split; [intros ->; apply Hi; now left|]. split; [intros ->; apply Hi; right; now left|exact Hu].
  - intros q [Ho|Hno] Hq.
    + apply O in Ho as [<-|[<-|Ho]]; [exists s, l'; split; [apply I; auto|now left]|exists t, k'; split; [apply I; auto|now left]|].
      apply Hn, in_app_or in Ho as [Ho|Ho]; [exists s, l'|exists t, k']; (split; [apply I; auto|now right]).
    + exfalso. apply Hq. rewrite F; [exact Hno|]. intro Hi. apply O in Hi. apply (owned_exists m st q R); [|exact Hno]. destruct Hi as (u & j & Hi & Hx). exists u, j. split; [|exact Hx]. destruct Hi as [<-|[<-|[]]]; assumption.
Qed.
Lemma goes_refl (m m' : memory) st leak : represents m st -> valid m' -> (forall q, object_at m q <> None -> object_at m' q = object_at m q) ->
  (leak \/ forall q, object_at m' q = object_at m q) -> goes m st m' st leak.
Proof.
  intros R Hv F C. pose proof R as (_ & N & Rl & Ra). split; [|split].
  - split; [exact Hv|]. split; [exact N|]. split; [|exact Ra]. intros s l Hs. apply forward_same with m; [apply Rl, Hs|]. intros p Hp. apply F. exact (forward_names m s l p (Rl s l Hs) Hp).
  - intros q Hq Hn. auto.
  - destruct C as [C|C]; [now left|right]. intros q Hq. rewrite C in Hq.
    destruct (in_dec Nat.eq_dec q (flat_map (fun e => fst e :: names_of (snd e)) st)) as [Hi|Hi].
    + apply in_flat_map in Hi as ((s, l) & Hs & Hx). left. exists s, l. auto.
    + right. split; [exact Hq|]. intros (s & l & Hs & Hx). apply Hi, in_flat_map. exists (s, l). auto.
Qed.
Lemma goes_trans (m : memory) st m1 st1 m2 st2 (a b : Prop) : goes m st m1 st1 a -> goes m1 st1 m2 st2 b -> goes m st m2 st2 (a \/ b).
Proof.
  intros (R1 & O1 & N1) (R2 & O2 & N2). split; [exact R2|]. split.
  - intros q Hq Hn. destruct (O1 q Hq Hn) as [E U]. destruct (O2 q) as [E' U']; [congruence|exact U|]. split; [congruence|exact U'].
  - destruct N1 as [N1|N1]; [auto|]. destruct N2 as [N2|N2]; [auto|]. right. intros q Hq. destruct (N2 q Hq) as [H|(H & U)]; [now left|]. destruct (N1 q H) as [H'|H']; [contradiction|now right].
Qed.
Lemma goes_more (m : memory) st m' st' (a b : Prop) : goes m st m' st' a -> (a -> b) -> goes m st m' st' b.
Proof. intros (R & O & N) H. split; [exact R|]. split; [exact O|]. tauto. Qed.

(** ** The calls *)
Definition ok (a : call) (m : memory) (st : lists) : Prop :=
  match perform a m with
  | Returned r m' => exists st', step st a r st' /\ goes m st m' st' False
  | Threw m' => exists st', step st a Thrown st' /\ goes m st m' st' (may_leak a Thrown)
  | Undefined => False
  end.
Lemma ok_returned (a : call) (m : memory) st r m' : perform a m = Returned r m' -> (exists st', step st a r st' /\ goes m st m' st' False) -> ok a m st.
Proof. unfold ok. now intros ->. Qed.
Lemma ok_threw (a : call) (m : memory) st m' : perform a m = Threw m' -> (exists st', step st a Thrown st' /\ goes m st m' st' (may_leak a Thrown)) -> ok a m st.
Proof. unfold ok. now intros ->. Qed.
Lemma reply_returned {A} (f : A -> reply) (x : M (option nat) V A) m a m' : x m = Returned a m' -> replying f x m = Returned (f a) m'.
Proof. unfold replying, bind. now intros ->. Qed.
Lemma reply_threw {A} (f : A -> reply) (x : M (option nat) V A) m m' : x m = Threw m' -> replying f x m = Threw m'.
Proof. unfold replying, bind. now intros ->. Qed.
Lemma new_names (m : memory) st ps : represents m st -> NoDup ps -> (forall p, In p ps -> object_at m p = None) -> new_in st ps.
Proof. intros R N H. split; [exact N|]. intros p Hp Ho. exact (owned_exists m st p R Ho (H p Hp)). Qed.
Lemma new_name (m : memory) st p : represents m st -> object_at m p = None -> new_in st [p].
Proof. intros R H. apply (new_names m); [exact R|repeat constructor; intros []|]. intros q [<-|[]]. exact H. Qed.
Lemma nodup_list (m : memory) s l : forward_at m s l -> NoDup (s :: names_of l).
Proof. now intros (_ & _ & H & _). Qed.
Lemma unchanged_goes (m m' : memory) st leak : represents m st -> valid m' -> unchanged m m' -> goes m st m' st leak.
Proof. intros R Hv H. apply goes_refl; auto. Qed.
Lemma kept_goes (m m' : memory) st (leak : Prop) : represents m st -> valid m' -> kept m m' -> leak -> goes m st m' st leak.
Proof. intros R Hv H Hk. apply goes_refl; auto. Qed.
Local Ltac at_list R := match goal with H : In (?s, ?l) ?st |- _ => pose proof (proj1 (proj2 (proj2 R)) s l H) end.

Lemma ok_new m st : represents m st -> ok New m st.
Proof.
  intros R. destruct (fdefault_ok m (proj1 R)) as (m' & E & _ & Hv & Hs & Hl). eapply ok_returned; [cbn [perform]; apply reply_returned; exact E|]. eexists. split.
  - apply step_new, (new_name m); [exact R|]. apply ffresh, R.
  - apply another_list; try assumption. intros q [<-|[]]. apply ffresh, R.
Qed.
Lemma ok_from m st vs : represents m st -> ok (From vs) m st.
Proof.
  intros R. pose proof (C87_construct_from_range V m vs (proj1 R)) as H. destruct (forward_from vs m) as [s m'|m'|] eqn:E; [| |contradiction].
  - destruct H as (k & <- & Hn & Hv & Hl & Hs). eapply ok_returned; [cbn [perform]; apply reply_returned; exact E|]. eexists. split.
    + apply step_from, (new_names m); [exact R|exact (nodup_list m' s k Hl)|exact Hn].
    + apply another_list; assumption.
  - destruct H as (Hv & Hk). eapply ok_threw; [cbn [perform]; apply reply_threw; exact E|]. exists st. split; [apply step_from_throws|].
    destruct vs as [|v [|w vs]]; [| |apply kept_goes; try assumption; split; [reflexivity|cbn; lia]].
    + discriminate.
    + apply unchanged_goes; [exact R|exact Hv|]. destruct (C85_exactly_what_a_forward_list_loses V m m' [v] (proj1 R) E) as (lost & _ & (r & Hr & Er) & _ & _ & S).
      destruct lost as [|e lost]; [|apply (f_equal (@length V)) in Er; rewrite app_length in Er; destruct r; [contradiction|]; cbn in Er; lia]. intro q. apply S. intros [].
Qed.
Lemma ok_copy m st t k : represents m st -> In (t, k) st -> ok (Copy t) m st.
Proof.
  intros R Ht. at_list R. pose proof (C87_copy_construct V m t k (proj1 R) H) as C. destruct (forward_copy t m) as [s m'|m'|] eqn:E; [| |contradiction].
  - destruct C as (l & El & Hn & Hn' & Hv & Hl & _ & Hs). assert (N : forall q, In q (s :: names_of l) -> object_at m q = None) by (intros q [<-|Hq]; auto).
    eapply ok_returned; [cbn [perform]; apply reply_returned; exact E|]. eexists. split.
    + eapply step_copy; [exact Ht| |exact El]. apply (new_names m); [exact R|exact (nodup_list m' s l Hl)|exact N].
    + apply another_list; assumption.
  - destruct C as (Hv & Hk). eapply ok_threw; [cbn [perform]; apply reply_threw; exact E|]. exists st. split; [eapply step_copy_throws, Ht|]. apply kept_goes; try assumption. now split.
Qed.
Lemma ok_move m st t k : represents m st -> In (t, k) st -> ok (Move t) m st.
Proof.
  intros R Ht. at_list R. destruct (C87_move_construct V m t k (proj1 R) H) as (s & m' & E & Hn & Hv & Hs & Hk & F0).
  assert (F : same_except (s :: t :: names_of k) m m') by (eapply fsame_weaken; [exact F0|]; intros q [<-|[<-|[]]]; cbn; auto).
  assert (Ns : forall u j, In (u, j) st -> s <> u) by (intros u j Hu ->; apply (owned_exists m st u R); [exists u, j; split; [exact Hu|now left]|exact Hn]).
  eapply ok_returned; [cbn [perform]; apply reply_returned; exact E|]. eexists. split; [eapply step_move; [exact Ht|apply (new_name m); assumption]|].
  assert (I : forall u j, In (u, j) (put st t [] ++ [(s, k)]) <-> (u = t /\ j = []) \/ (u = s /\ j = k) \/ (u <> t /\ In (u, j) st)).
  { intros u j. rewrite in_app_iff, in_put. cbn. split.
    - intros [[(-> & -> & _)|(H1 & H2)]|[H1|[]]]; auto. injection H1 as <- <-. auto.
    - intros [(-> & ->)|[(-> & ->)|(H1 & H2)]]; [left; left; eauto|auto|auto]. }
  assert (Nk : ~ In s (names_of k)) by (intro Hi; exact (forward_names m t k s H (or_intror Hi) Hn)).
  assert (Nt : ~ In t (names_of k)) by (intro Hi; exact (fnot_sentinel m t k t H Hi eq_refl)).
  apply rebuild with (old := [(t, k)]); try assumption.
  - intros e [<-|[]]. exact Ht.
  - rewrite map_app, keys_put. apply nodup_app. split; [apply R|]. split; [repeat constructor; intros []|]. intros x Hx [<-|[]]. apply in_map_iff in Hx as ((u, j) & Eu & Hu). cbn in Eu. subst u. exact (Ns s j Hu eq_refl).
  - intros q Hq Ho. apply F. intros [<-|Hi]; [contradiction|]. apply Ho. exists t, k. split; [now left|exact Hi].
  - intros u j Hu. apply I in Hu as [(-> & ->)|[(-> & ->)|(H1 & H2)]].
    + right. split; [exact Hk|]. intros q [<-|[]]. left. exists t, k. split; now left.
    + right. split; [exact Hs|]. intros q [<-|Hq]; [now right|]. left. exists t, k. split; [now left|now right].
    + left. split; [exact H2|]. cbn. intros [<-|[]]. contradiction.
  - assert (A : apart t [] s k) by (intros p [<-|[]] [Hq|Hq]; [exact (Ns t k Ht Hq)|contradiction]).
    intros u j x y Hu Hx Nu Nx Hne. apply I in Hu as [(-> & ->)|[(-> & ->)|(H1 & H2)]]; [| |exfalso; apply Nu; split; [exact H2|cbn; intros [<-|[]]; contradiction]];
      (apply I in Hx as [(-> & ->)|[(-> & ->)|(G1 & G2)]]; [| |exfalso; apply Nx; split; [exact G2|cbn; intros [<-|[]]; contradiction]]); try congruence;
      intros p Hp Hq; [exact (A p Hp Hq)|exact (A p Hq Hp)].
  - intros u j Hu Hi. apply I. right. right. split; [|exact Hu]. intros ->. apply Hi. now left.
  - assert (T : forall q, In q (t :: names_of k) -> owned (put st t [] ++ [(s, k)]) q).
    { intros q [<-|Hq]; [exists t, []; split; [apply I; auto|now left]|exists s, k; split; [apply I; auto|now right]]. }
    intros q [(u & j & [Eu|[]] & Hq)|Hno] Hq'; [injection Eu as <- <-; auto|]. destruct (in_dec Nat.eq_dec q (s :: t :: names_of k)) as [[<-|Hi]|Hi]; [exists s, k; split; [apply I; auto|now left]|auto|].
    rewrite (F q Hi) in Hq'. contradiction.
Qed.
Lemma ok_destroy m st s l : represents m st -> In (s, l) st -> ok (Destroy s) m st.
Proof.
  intros R Hs. at_list R. destruct (C87_destructor V m s l (proj1 R) H) as (m' & E & Hv & Hd & F).
  eapply ok_returned; [cbn [perform]; apply reply_returned; exact E|]. eexists. split; [eapply step_destroy, Hs|]. apply rebuild with (old := [(s, l)]); try assumption.
  - intros e [<-|[]]. exact Hs.
  - apply keys_without, R.
  - intros q Hq Ho. apply F. intro Hi. apply Ho. exists s, l. split; [now left|exact Hi].
  - intros u j Hu. apply in_without in Hu as [Hu Hne]. left. split; [exact Hu|]. cbn. intros [<-|[]]. contradiction.
  - intros u j x y Hu _ Nu _ _. exfalso. apply in_without in Hu as [Hu Hne]. apply Nu. split; [exact Hu|]. cbn. intros [<-|[]]. contradiction.
  - intros u j Hu Hi. apply in_without. split; [exact Hu|]. intros ->. apply Hi. now left.
  - intros q [(u & j & [Eu|[]] & Hq)|Hno] Hq'; exfalso.
    + injection Eu as <- <-. exact (Hq' (Hd q Hq)).
    + apply Hq'. rewrite F; [exact Hno|]. intro Hi. exact (forward_names m s l q H Hi Hno).
Qed.
Local Ltac mem := intros q; rewrite ?fnames_app; cbn [names_of map fst In app]; rewrite ?in_app_iff; cbn [In]; try tauto.
Lemma ok_push_front m st s l v : represents m st -> In (s, l) st -> ok (Push_front s v) m st.
Proof.
  intros R Hs. at_list R. pose proof (C87_push_front V m s l v (proj1 R) H) as C. destruct (forward_push_front s v m) as [p m'|m'|] eqn:E; [| |contradiction].
  - destruct C as (Hn & Hv & Hl & F). eapply ok_returned; [cbn [perform]; apply reply_returned; exact E|]. eexists. split; [eapply step_push_front; [exact Hs|apply (new_name m); assumption]|].
    eapply one_list; try eassumption.
    + mem. intros [<-|[<-|[]]]; auto.
    + mem. intros [<-|Hq]; auto.
    + mem.
    + mem.
  - destruct C as (Hv & U). eapply ok_threw; [cbn [perform]; apply reply_threw; exact E|]. exists st. split; [eapply step_push_front_throws, Hs|]. now apply unchanged_goes.
Qed.
Lemma last_in_list (l : list (nat * V)) s k : In (last_place l s) (s :: names_of (l ++ k)).
Proof. rewrite fnames_app. destruct (last_in l s) as [<-|H]; [now left|]. right. apply in_or_app. now left. Qed.
Lemma ok_pop_front m st s e l : represents m st -> In (s, e :: l) st -> ok (Pop_front s) m st.
Proof.
  intros R Hs. at_list R. destruct e as (p, v). destruct (C87_erase_after V m s [] p v l (proj1 R) H) as (m' & E & Hv & Hl & Hp & F). change (last_place [] s) with s in E, F.
  eapply ok_returned; [cbn [perform]; apply reply_returned; exact E|]. eexists. split; [eapply step_pop_front, Hs|]. eapply one_list; try eassumption.
  - mem.
  - mem.
  - mem. intros [<-|[<-|[]]]; [congruence|tauto].
  - mem. intros [<-|Hq]; [congruence|tauto].
Qed.
Lemma ok_insert_after m st s l1 l2 v : represents m st -> In (s, l1 ++ l2) st -> ok (Insert_after s (last_place l1 s) v) m st.
Proof.
  intros R Hs. at_list R. pose proof (C87_insert_after V m s l1 l2 v (proj1 R) H) as C. pose proof (last_in_list l1 s l2) as P.
  assert (P' : forall p, In (last_place l1 s) (s :: names_of (l1 ++ (p, v) :: l2))) by (intro p; apply last_in_list).
  destruct (insert_after (last_place l1 s) v m) as [p m'|m'|] eqn:E; [| |contradiction].
  - destruct C as (Hn & Hv & Hl & F). eapply ok_returned; [cbn [perform]; apply reply_returned; exact E|]. eexists. split; [eapply step_insert_after; [exact Hs|apply (new_name m); assumption]|].
    eapply one_list; try eassumption.
    + intros q [<-|[<-|[]]]; [now right|left; exact P].
    + mem. intros [Hq|[<-|Hq]]; auto.
    + intros q [<-|[<-|[]]] _; [|apply P']. right. rewrite fnames_app. apply in_elt.
    + mem.
  - destruct C as (Hv & U). eapply ok_threw; [cbn [perform]; apply reply_threw; exact E|]. exists st. split; [eapply step_insert_after_throws, Hs|]. now apply unchanged_goes.
Qed.
Lemma ok_erase_after m st s l1 p v l2 : represents m st -> In (s, l1 ++ (p, v) :: l2) st -> ok (Erase_after s (last_place l1 s)) m st.
Proof.
  intros R Hs. at_list R. destruct (C87_erase_after V m s l1 p v l2 (proj1 R) H) as (m' & E & Hv & Hl & Hp & F).
  eapply ok_returned; [cbn [perform]; apply reply_returned; exact E|]. eexists. split; [eapply step_erase_after, Hs|]. eapply one_list; try eassumption.
  - intros q [<-|[<-|[]]]; left; [right; rewrite fnames_app; apply in_elt|apply last_in_list].
  - mem.
  - intros q [<-|[<-|[]]] G; [contradiction|apply last_in_list].
  - mem. intros [Hq|[<-|Hq]]; try tauto.
Qed.
Lemma ok_erase_all_after m st s l1 l2 : represents m st -> In (s, l1 ++ l2) st -> ok (Erase_all_after s (last_place l1 s)) m st.
Proof.
  intros R Hs. at_list R. destruct (C87_erase_all_after V m s l1 l2 (proj1 R) H) as (m' & E & Hv & Hl & Hd & F).
  eapply ok_returned; [cbn [perform]; apply reply_returned; exact E|]. eexists. split; [eapply step_erase_all_after, Hs|]. eapply one_list; try eassumption.
  - intros q [<-|Hq]; left; [apply last_in_list|]. right. rewrite fnames_app. apply in_or_app. now right.
  - mem.
  - intros q [<-|Hq] G; [apply last_in|]. now destruct (G (Hd q Hq)).
  - mem. intros [Hq|Hq]; try tauto. intro G. now destruct (G (Hd q Hq)).
Qed.
Lemma ok_erase_range_after m st s l1 l2 l3 : represents m st -> In (s, l1 ++ l2 ++ l3) st -> ok (Erase_range_after s (last_place l1 s) (hd_error (names_of l3))) m st.
Proof.
  intros R Hs. at_list R. destruct (C87_erase_range_after V m s l1 l2 l3 (proj1 R) H) as (m' & E & Hv & Hl & Hd & F).
  eapply ok_returned; [cbn [perform]; apply reply_returned; exact E|]. eexists. split; [eapply step_erase_range_after, Hs|]. eapply one_list; try eassumption.
  - intros q [<-|Hq]; left; [apply last_in_list|]. right. rewrite !fnames_app, !in_app_iff. auto.
  - mem.
  - intros q [<-|Hq] G; [apply last_in_list|]. now destruct (G (Hd q Hq)).
  - mem. intros [Hq|[Hq|Hq]]; try tauto. intro G. now destruct (G (Hd q Hq)).
Qed.
Lemma ok_clear m st s l : represents m st -> In (s, l) st -> ok (Clear s) m st.
Proof.
  intros R Hs. at_list R. destruct (C87_clear V m s l (proj1 R) H) as (m' & E & Hv & Hl & Hd & F).
  eapply ok_returned; [cbn [perform]; apply reply_returned; exact E|]. eexists. split; [eapply step_clear, Hs|]. eapply one_list; try eassumption.
  - intros q Hq. now left.
  - intros q [].
  - intros q [<-|Hq] G; [now left|]. now destruct (G (Hd q Hq)).
  - intros q Hq G. now destruct (G (Hd q Hq)).
Qed.
Lemma lists_apart (m : memory) st s l t k : represents m st -> In (s, l) st -> In (t, k) st -> s <> t -> apart s l t k.
Proof. intros (_ & _ & _ & Ra) Hs Ht Hne. exact (Ra s l t k Hs Ht Hne). Qed.
Lemma ok_splice m st s k1 k2 t l1 l2 l3 : represents m st -> In (s, k1 ++ k2) st -> In (t, l1 ++ l2 ++ l3) st -> s <> t -> ok (Splice_after s (last_place k1 s) t (last_place l1 t) (last_place (l1 ++ l2) t)) m st.
Proof.
  intros R Hs Ht Hne. pose proof R as (_ & _ & Rl & _). pose proof (lists_apart m st _ _ _ _ R Hs Ht Hne) as A.
  destruct (C87_splice_after V m s t k1 k2 l1 l2 l3 (proj1 R) (Rl _ _ Hs) (Rl _ _ Ht) A) as (m' & E & Hv & Hl & Hk & F).
  eapply ok_returned; [cbn [perform]; apply reply_returned; exact E|]. eexists. split; [apply (step_splice_after st s k1 k2 t l1 l2 l3); assumption|]. eapply two_lists; try eassumption.
  - eapply fsame_weaken; [exact F|]. pose proof (last_in_list k1 s k2) as P1. pose proof (last_in_list l1 t (l2 ++ l3)) as P2. pose proof (last_in_list (l1 ++ l2) t l3) as P3. rewrite <- app_assoc in P3.
    intros q [<-|[<-|[<-|[]]]]; [destruct P1|destruct P2|destruct P3]; cbn [In]; rewrite in_app_iff; auto.
  - mem.
  - assert (N : NoDup (names_of (l1 ++ l2 ++ l3))) by (pose proof (nodup_list m _ _ (Rl _ _ Ht)) as N; now apply nodup_cons in N).
    rewrite !fnames_app in N. apply nodup_app in N as (_ & N & N1). apply nodup_app in N as (_ & _ & N2).
    mem. intros Hq Hq'. assert (B : forall q, In q (names_of k1) \/ In q (names_of k2) -> In q (names_of l1) \/ In q (names_of l2) \/ In q (names_of l3) -> False).
    { intros x Hx Hx'. apply (A x); right; rewrite !fnames_app, !in_app_iff; tauto. }
    destruct Hq as [Hq|[Hq|Hq]], Hq' as [Hq'|Hq']; try (eapply B; eauto; fail); [exact (N1 q Hq' ltac:(apply in_or_app; auto))|exact (N2 q Hq Hq')].
Qed.
Lemma put_same (m : memory) st s l : represents m st -> In (s, l) st -> put st s l = st.
Proof.
  intros R Hs. unfold put. rewrite <- (map_id st) at 2. apply map_ext_in. intros (t, k) Ht. cbn. destruct (Nat.eqb_spec t s) as [->|]; [|reflexivity]. f_equal. exact (one_entry m st s l k R Hs Ht).
Qed.
Lemma swap_goes m st s l t k : represents m st -> In (s, l) st -> In (t, k) st -> exists m', forward_swap s t m = Returned tt m' /\ goes m st m' (put (put st s k) t l) False.
Proof.
  intros R Hs Ht. pose proof R as (_ & _ & Rl & _). destruct (Nat.eq_dec s t) as [<-|Hne].
  - destruct (C87_self_move_assign V m s l (proj1 R) (Rl _ _ Hs)) as (m' & E & Hv & _ & U). exists m'. split; [exact E|]. rewrite (one_entry m st s l k R Hs Ht) in *. rewrite !(put_same m st s k R Ht). now apply unchanged_goes.
  - pose proof (lists_apart m st _ _ _ _ R Hs Ht Hne) as A. destruct (C87_swap V m s t l k (proj1 R) (Rl _ _ Hs) (Rl _ _ Ht) A) as (m' & E & Hv & Hl & Hk & F). exists m'. split; [exact E|].
    eapply two_lists; try eassumption; [eapply fsame_weaken; [exact F|]; intros q [<-|[<-|[]]]; cbn; auto|mem|]. intros q Hq Hq'. apply (A q); now right.
Qed.
Lemma ok_swap m st s l t k : represents m st -> In (s, l) st -> In (t, k) st -> ok (Swap s t) m st /\ ok (Move_assign s t) m st.
Proof.
  intros R Hs Ht. destruct (swap_goes m st s l t k R Hs Ht) as (m' & E & G). split; (eapply ok_returned; [cbn [perform]; apply reply_returned; exact E|]; eexists); (split; [|exact G]); [now apply step_swap|now apply step_move_assign].
Qed.
(** The new nodes of a copy assignment come after those that were kept. *)
Lemma new_nodes (m : memory) st s (l l' : list (nat * V)) n : represents m st -> In (s, l) st -> NoDup (names_of l') -> (forall p, In p (names_of l') -> In p (names_of l) \/ object_at m p = None) ->
  (length l <= n -> firstn (length l) (names_of l') = names_of l) -> (n < length l -> length l' <= length l) -> new_in st (skipn (length l) (names_of l')).
Proof.
  intros R Hs N H P Q. pose proof N as N'. rewrite <- (firstn_skipn (length l) (names_of l')) in N'. apply nodup_app in N' as (_ & N1 & N2).
  apply (new_names m); [exact R|exact N1|]. intros p Hp. destruct (le_lt_dec (length l) n) as [Hle|Hlt].
  - destruct (H p) as [Hi|Hi]; [rewrite <- (firstn_skipn (length l)); apply in_or_app; now right| |exact Hi]. exfalso. apply (N2 p); [rewrite P by exact Hle; exact Hi|exact Hp].
  - exfalso. specialize (Q Hlt). rewrite skipn_all2 in Hp; [destruct Hp|]. unfold names_of. rewrite map_length. exact Q.
Qed.
Lemma ok_copy_assign m st s l t k : represents m st -> In (s, l) st -> In (t, k) st -> ok (Copy_assign s t) m st.
Proof.
  intros R Hs Ht. pose proof R as (_ & _ & Rl & _). destruct (Nat.eq_dec s t) as [<-|Hne].
  - eapply ok_returned; [cbn [perform]; apply reply_returned, C87_self_copy_assign|]. exists st. split; [eapply step_copy_assign_self, Hs|]. apply unchanged_goes; [exact R|apply R|intro; reflexivity].
  - pose proof (lists_apart m st _ _ _ _ R Hs Ht Hne) as A. pose proof (C87_copy_assign V m s l t k (proj1 R) (Rl _ _ Hs) (Rl _ _ Ht) A) as C.
    assert (NL : forall j : list (nat * V), length (names_of j) = length j) by (intro j; apply map_length).
    destruct (forward_copy_assign s t m) as [u m'|m'|] eqn:E; [| |contradiction].
    + destruct C as (l' & El & P & Hv & Hl & _ & Hd & F & Hn). eapply ok_returned; [cbn [perform]; apply reply_returned; exact E|].
      assert (Len : length l' = length k) by (rewrite <- (map_length snd), El, map_length; reflexivity).
      assert (Nl : NoDup (names_of l')) by (apply nodup_list, nodup_cons in Hl; apply Hl).
      eexists. split; [eapply step_copy_assign; try eassumption|].
      * eapply (new_nodes m st s l l' (length k)); try eassumption; [|lia]. intro Hle. rewrite P by lia. rewrite <- NL. apply firstn_all.
      * assert (In' : forall q, In q (names_of l) -> object_at m' q <> None -> In q (names_of l')).
        { intros q Hq G. rewrite <- (firstn_skipn (length k)) in Hq. apply in_app_or in Hq as [Hq|Hq]; [|now destruct (G (Hd q Hq))].
          destruct (le_lt_dec (length k) (length l)) as [Hle|Hlt]; [rewrite <- (P (length k)) in Hq by lia|rewrite firstn_all2 in Hq by (rewrite NL; lia); rewrite <- (firstn_all (names_of l)), NL, <- (P (length l)) in Hq by lia]; revert Hq; match goal with |- In q (firstn ?n ?x) -> _ => intro Hq; rewrite <- (firstn_skipn n x); apply in_or_app; now left end. }
        eapply one_list; try eassumption.
        -- mem. intros [<-|[Hq|Hq]]; auto. destruct (Hn q Hq); auto.
        -- mem. intros [<-|[Hq|Hq]] G; auto.
        -- intros q Hq G. right. auto.
    + destruct C as (l' & Hv & Hl & _ & F & Hd & Hn & P & i & Hi & El). eapply ok_threw; [cbn [perform]; apply reply_threw; exact E|].
      assert (Nl : NoDup (names_of l')) by (apply nodup_list, nodup_cons in Hl; apply Hl).
      assert (Len : length l' = Nat.max i (length l)) by (rewrite <- (map_length snd), El, app_length, firstn_length, skipn_length, !map_length; lia).
      eexists. split; [eapply step_copy_assign_throws; try eassumption|].
      * eapply (new_nodes m st s l l' (length l)); try eassumption; [intro; exact P|lia].
      * assert (In' : forall q, In q (names_of l) -> object_at m' q <> None -> In q (names_of l')).
        { intros q Hq G. destruct (in_dec Nat.eq_dec q (names_of l')) as [H|H]; [exact H|]. now destruct (G (Hd q Hq H)). }
        apply goes_more with False; [|intros []]. eapply one_list; try eassumption.
        -- mem. intros [<-|[Hq|Hq]]; auto. destruct (Hn q Hq); auto.
        -- mem. intros [<-|[Hq|Hq]] G; auto.
        -- intros q Hq G. right. auto.
Qed.
Lemma ok_write m st s l1 p v l2 w : represents m st -> In (s, l1 ++ (p, v) :: l2) st -> ok (Write p w) m st.
Proof.
  intros R Hs. at_list R. destruct (fset_value_ok m s l1 p v l2 w (proj1 R) H) as (m' & E & Hv & Hl & F & _).
  eapply ok_returned; [cbn [perform]; apply reply_returned; exact E|]. eexists. split; [eapply step_write, Hs|]. eapply one_list; try eassumption; mem.
Qed.
Lemma ok_look m st (a : call) : represents m st -> match a with Begin _ | Next _ | Read _ => exists r st', step st a r st' | _ => False end -> ok a m st.
Proof.
  intros R H. pose proof R as (_ & _ & Rl & _). assert (G : goes m st m st False) by (apply unchanged_goes; [exact R|apply R|intro; reflexivity]).
  destruct a; try contradiction; destruct H as (r & st' & H); inversion H; subst.
  - destruct (C87_iteration V m s [] l (Rl _ _ ltac:(eassumption))) as (E & _). eapply ok_returned; [cbn [perform]; apply reply_returned; exact E|]. eauto.
  - match goal with Hi : In (_, _ ++ _) _ |- _ => destruct (C87_iteration V m _ _ _ (Rl _ _ Hi)) as (_ & E & _) end. eapply ok_returned; [cbn [perform]; apply reply_returned; exact E|]. eauto.
  - match goal with Hi : In (_, _ ++ _ :: _) _ |- _ => destruct (C87_iteration V m _ _ _ (Rl _ _ Hi)) as (_ & _ & C) end. pose proof (C p v (in_elt _ _ _)) as E. eapply ok_returned; [cbn [perform]; apply reply_returned; exact E|]. eauto.
Qed.
Lemma call_ok m st a r st' : represents m st -> step st a r st' -> ok a m st.
Proof.
  intros R H. pose proof H as H0.
  inversion H; subst; first [apply ok_new; assumption|apply ok_from; assumption|eapply ok_copy; eassumption|eapply ok_move; eassumption|eapply ok_destroy; eassumption
    |eapply ok_push_front; eassumption|eapply ok_pop_front; eassumption|eapply ok_insert_after; eassumption|eapply ok_erase_after; eassumption
    |eapply ok_erase_all_after; eassumption|eapply ok_erase_range_after; eassumption|eapply ok_clear; eassumption|eapply ok_splice; eassumption
    |eapply (ok_swap m st); eassumption|eapply ok_copy_assign; eassumption|eapply ok_write; eassumption|apply ok_look; eauto].
Qed.

(** ** Without exceptions *)
Definition calm {A} (x : M (option nat) V A) : Prop :=
  forall m, script m = [] -> match x m with Returned _ m' => script m' = [] | Threw _ => False | Undefined => True end.
Lemma calm_bind {A B} (x : M (option nat) V A) (f : A -> M (option nat) V B) : calm x -> (forall a, calm (f a)) -> calm (bind x f).
Proof. intros Hx Hf m Hm. unfold bind. specialize (Hx m Hm). destruct (x m) as [a m1|m1|]; [apply Hf, Hx|exact Hx|exact I]. Qed.
Lemma calm_rethrow {A} (x : M (option nat) V A) h : calm x -> calm (rethrow_after x h).
Proof. intros Hx m Hm. unfold rethrow_after. specialize (Hx m Hm). destruct (x m) as [a m1|m1|]; [exact Hx|contradiction|exact I]. Qed.
Lemma calm_finally {A} (x : M (option nat) V A) h : calm x -> calm h -> calm (finally x h).
Proof.
  intros Hx Hh m Hm. unfold finally. specialize (Hx m Hm). destruct (x m) as [a m1|m1|]; [|contradiction|exact I]. specialize (Hh m1 Hx). destruct (h m1); [exact Hh|exact I|exact I].
Qed.
Lemma calm_fuel {A} (f : nat -> M (option nat) V A) : (forall n, calm (f n)) -> calm (with_fuel f).
Proof. intros H m Hm. apply H, Hm. Qed.
Local Ltac atom := intros m Hm; cbv [ret undefined may_throw links set_links value set_value new_object end_sentinel destroy_node set_object require]; rewrite ?Hm; try destruct (object_at m _) as [[]|]; cbn; auto.
Lemma calm_ret {A} (a : A) : calm (ret a). Proof. atom. Qed.
Lemma calm_undefined {A} : calm (undefined (A := A)). Proof. atom. Qed.
Lemma calm_require b : calm (require b). Proof. destruct b; atom. Qed.
Lemma calm_may_throw : calm may_throw. Proof. atom. Qed.
Lemma calm_links p : calm (links p). Proof. atom. Qed.
Lemma calm_set_links p l : calm (set_links p l). Proof. atom. Qed.
Lemma calm_value p : calm (value p). Proof. atom. Qed.
Lemma calm_set_value p v : calm (set_value p v). Proof. atom. Qed.
Lemma calm_new f : calm (new_object f). Proof. atom. Qed.
Lemma calm_end p : calm (end_sentinel p). Proof. atom. Qed.
Lemma calm_destroy_node p : calm (destroy_node p). Proof. atom. Qed.
Create HintDb fcalm discriminated.
Hint Resolve calm_ret calm_undefined calm_require calm_may_throw calm_links calm_set_links calm_value calm_set_value calm_new calm_end calm_destroy_node : fcalm.
Local Ltac keep_calm := repeat first [assumption | progress auto with fcalm | apply calm_bind; [|intro] | apply calm_rethrow | apply calm_finally | apply calm_fuel; intro | match goal with |- calm (if ?b then _ else _) => destruct b end].
Lemma calm_make f v : calm (make_node f v).
Proof. unfold make_node. keep_calm. atom. Qed.
Hint Resolve calm_make : fcalm.
Local Ltac keep_calmer := repeat first [progress keep_calm | match goal with |- calm (match ?x with _ => _ end) => destruct x end].
Lemma calm_follow it : calm (follow it). Proof. destruct it; cbn [follow]; keep_calm. Qed.
Hint Resolve calm_follow : fcalm.
Lemma calm_default : calm forward_default. Proof. apply calm_new. Qed.
Lemma calm_begin s : calm (forward_begin s). Proof. apply calm_links. Qed.
Lemma calm_insert_after p v : calm (insert_after p v). Proof. unfold insert_after. keep_calm. Qed.
Lemma calm_erase_after p : calm (erase_after p). Proof. unfold erase_after. keep_calm. Qed.
Lemma calm_splice_after a b c d e : calm (splice_after a b c d e). Proof. unfold splice_after. keep_calm. Qed.
Lemma calm_swap a b : calm (forward_swap a b). Proof. unfold forward_swap. keep_calm. Qed.
Hint Resolve calm_default calm_begin calm_insert_after calm_erase_after calm_splice_after calm_swap : fcalm.
Lemma calm_clear_loop fuel s : calm (forward_clear_loop fuel s). Proof. induction fuel; cbn [forward_clear_loop]; keep_calmer. Qed.
Hint Resolve calm_clear_loop : fcalm.
Lemma calm_clear s : calm (forward_clear s). Proof. unfold forward_clear. keep_calm. Qed.
Hint Resolve calm_clear : fcalm.
Lemma calm_append vs : forall p, calm (append_after p vs). Proof. induction vs; intro p; cbn [append_after]; keep_calm. Qed.
Lemma calm_append_list fuel : forall p it, calm (append_list_after fuel p it). Proof. induction fuel; intros p it; cbn [append_list_after]; keep_calmer. Qed.
Lemma calm_erase_loop fuel p : forall it, calm (erase_after_loop fuel p it). Proof. induction fuel; intros it; cbn [erase_after_loop]; keep_calmer. Qed.
Lemma calm_truncate fuel : forall a b c, calm (copy_truncate_after fuel a b c). Proof. induction fuel; intros a b c; cbn [copy_truncate_after]; keep_calmer. Qed.
Lemma calm_erase_until fuel p last : forall it, calm (erase_until_loop fuel p last it). Proof. induction fuel; intros it; cbn [erase_until_loop]; keep_calmer. Qed.
Hint Resolve calm_append calm_append_list calm_erase_until calm_erase_loop calm_truncate : fcalm.
Lemma calm_perform a : calm (perform a).
Proof. destruct a; cbn [perform]; unfold replying, forward_from, forward_copy, forward_move, forward_destroy, forward_push_front, erase_all_after, erase_range_after, forward_move_assign, forward_copy_assign; keep_calm. Qed.

(** ** Whole programs *)
Lemma program_ok c : forall m st, represents m st -> careful c st -> exists m' tr st', run c m = Some m' /\ runs c st tr st' /\
  goes m st m' st' (exists a r, In (a, r) tr /\ may_leak a r) /\ (script m = [] -> forall a, ~ In (a, Thrown) tr).
Proof.
  induction c as [|a next IH]; intros m st R C.
  - exists m, [], st. split; [reflexivity|]. split; [constructor|]. split; [|intros _ a []]. apply unchanged_goes; [exact R|apply R|intro; reflexivity].
  - destruct C as ((r0 & st0 & S0) & C). pose proof (call_ok m st a r0 st0 R S0) as O. unfold ok in O. pose proof (calm_perform a m) as K. cbn [run]. destruct (perform a m) as [r m1|m1|] eqn:E; [| |contradiction].
    + destruct O as (st1 & S1 & G1). destruct (IH r m1 st1 (proj1 G1) (C r st1 S1)) as (m2 & tr & st2 & E2 & T & G2 & N). exists m2, ((a, r) :: tr), st2.
      split; [exact E2|]. split; [econstructor; eassumption|]. split.
      * eapply goes_more; [exact (goes_trans _ _ _ _ _ _ _ _ G1 G2)|]. intros [[]|(b & rb & Hb & Hl)]. exists b, rb. split; [now right|exact Hl].
      * intros Hm b [Hb|Hb]; [|exact (N (K Hm) b Hb)]. injection Hb as -> ->. unfold perform, replying, bind in E. unfold ret in E. destruct b; repeat match type of E with context [match ?x with _ => _ end] => destruct x; try discriminate end.
    + destruct O as (st1 & S1 & G1). destruct (IH Thrown m1 st1 (proj1 G1) (C Thrown st1 S1)) as (m2 & tr & st2 & E2 & T & G2 & N). exists m2, ((a, Thrown) :: tr), st2.
      split; [exact E2|]. split; [econstructor; eassumption|]. split.
      * eapply goes_more; [exact (goes_trans _ _ _ _ _ _ _ _ G1 G2)|]. intros [H|(b & rb & Hb & Hl)]; [exists a, Thrown; split; [now left|exact H]|]. exists b, rb. split; [now right|exact Hl].
      * intros Hm. now destruct (K Hm).
Qed.

(** ** Elements stay where they are *)
Lemma same_name (l l' : list (nat * V)) n i p v q w : firstn n (names_of l) = firstn n (names_of l') -> i < n -> nth_error l i = Some (p, v) -> nth_error l' i = Some (q, w) -> p = q.
Proof.
  intros H Hi Hp Hq. assert (F : forall j : list (nat * V), nth_error (firstn n (names_of j)) i = option_map fst (nth_error j i)).
  { intro j. unfold names_of. rewrite firstn_map. assert (nth_error (firstn n j) i = nth_error j i) as <- by (rewrite <- (firstn_skipn n j) at 2; destruct (le_lt_dec n (length j)); [symmetry; apply nth_error_app1; rewrite firstn_length; lia|rewrite firstn_all2, skipn_all2, app_nil_r by lia; reflexivity]). apply nth_error_map. }
  pose proof (F l) as Fl. rewrite H, F, Hp, Hq in Fl. cbn in Fl. congruence.
Qed.
Lemma survives (m : memory) st a r st' s l p v : represents m st -> step st a r st' -> In (s, l) st -> In (p, v) l -> ~ ends_life st a s (p, v) ->
  exists t k w, In (t, k) st' /\ In (p, w) k /\ (~ assigns a s (p, v) -> w = v) /\ (~ moves a s -> t = s).
Proof.
  intros R S Hs He Hn.
  assert (One : forall l', In (s, l') st -> l' = l) by (intros l' H; exact (one_entry m st s l' l R H Hs)).
  assert (Stay : In (s, l) st' -> exists t k w, In (t, k) st' /\ In (p, w) k /\ (~ assigns a s (p, v) -> w = v) /\ (~ moves a s -> t = s)) by (intro H; exists s, l, v; auto).
  assert (Same : forall t k, (t = s -> In (p, v) k) -> st' = put st t k -> exists t k w, In (t, k) st' /\ In (p, w) k /\ (~ assigns a s (p, v) -> w = v) /\ (~ moves a s -> t = s)).
  { intros t k Hk ->. destruct (Nat.eq_dec t s) as [->|Hne]; [exists s, k, v; split; [apply in_put; left; eauto|auto]|]. apply Stay, in_put. right. auto. }
  assert (swapped : forall s0 l0 t0 k0 (x : Prop), In (s0, l0) st -> In (t0, k0) st -> exists t k w, In (t, k) (put (put st s0 k0) t0 l0) /\ In (p, w) k /\ (~ x -> w = v) /\ (~ (s0 = s \/ t0 = s) -> t = s)).
  { intros s0 l0 t0 k0 x H1 H2. destruct (Nat.eq_dec t0 s) as [->|Hne].
    - pose proof (One _ H2). subst k0. destruct (Nat.eq_dec s0 s) as [->|Hne'].
      + pose proof (One _ H1). subst l0. exists s, l, v. split; [apply in_put; left; split; [reflexivity|split; [reflexivity|]]; exists l; apply in_put; left; eauto|auto].
      + exists s0, l, v. split; [apply in_put; right; split; [auto|apply in_put; left; eauto]|]. split; [exact He|]. split; [reflexivity|]. tauto.
    - destruct (Nat.eq_dec s0 s) as [->|Hne'].
      + pose proof (One _ H1). subst l0. exists t0, l, v. split; [apply in_put; left; split; [reflexivity|split; [reflexivity|]]; exists k0; apply in_put; right; auto|]. split; [exact He|]. split; [reflexivity|]. tauto.
      + exists s, l, v. split; [apply in_put; right; split; [auto|apply in_put; right; auto]|auto]. }
  destruct S as [s0 H1|s0 l0 H1|vs|t0 k0 s0 l0 H1 H2 H3|t0 k0 H1|t0 k0 s0 H1 H2|s0 l0 H1|s0 l0 p0 v0 H1 H2|s0 l0 v0 H1|s0 e0 l0 H1|s0 l1 l2 p0 v0 H1 H2|s0 l1 l2 v0 H1|s0 l1 p0 v0 l2 H1|s0 l1 l2 H1|s0 l1 l2 l3 H1|s0 l0 H1
    |s0 k1 k2 t0 l1 l2 l3 H1 H2 H3|s0 l0 t0 k0 H1 H2|s0 l0 t0 k0 H1 H2|s0 l0 t0 k0 l' H1 H2 H3 H4 H5 H6|s0 l0 H1|s0 l0 t0 k0 l' i H1 H2 H3 H4 H5 H6 H7
    |s0 l0 H1|s0 l1 l2 H1|s0 l1 p0 v0 l2 H1|s0 l1 p0 v0 l2 w0 H1]; try (apply Stay; first [assumption|apply in_or_app; left; assumption]; fail); cbn [ends_life assigns moves fst] in *.
  - destruct (Nat.eq_dec s t0) as [<-|Hne].
    + rewrite (One _ H1) in *. exists s0, l, v. split; [apply in_or_app; right; now left|]. split; [exact He|]. split; [reflexivity|]. intro N. now destruct N.
    + apply Stay, in_or_app. left. apply in_put. now right.
  - apply Stay, in_without. split; [exact Hs|]. intros ->. now apply Hn.
  - eapply Same; [|reflexivity]. intros ->. rewrite (One _ H1). now right.
  - eapply Same; [|reflexivity]. intros ->. pose proof (One _ H1). subst l. destruct He as [->|He]; [|exact He]. exfalso. eauto.
  - eapply Same; [|reflexivity]. intros ->. pose proof (One _ H1). subst l. rewrite !in_app_iff in *. cbn [In] in *; tauto.
  - eapply Same; [|reflexivity]. intros ->. pose proof (One _ H1). subst l. rewrite !in_app_iff in *. cbn [In] in *. destruct He as [He|[He|He]]; auto. exfalso. apply Hn. split; [reflexivity|]. injection He as -> ->. exists l1, l2. auto.
  - eapply Same; [|reflexivity]. intros ->. pose proof (One _ H1). subst l. rewrite !in_app_iff in *. destruct He as [He|He]; auto. exfalso. apply Hn. split; [reflexivity|]. exists l1, l2. auto.
  - eapply Same; [|reflexivity]. intros ->. pose proof (One _ H1). subst l. rewrite !in_app_iff in *. destruct He as [He|[He|He]]; auto. exfalso. apply Hn. split; [reflexivity|]. exists l1, l2, l3. auto.
  - eapply Same; [|reflexivity]. intros ->. exfalso. now apply Hn.
  - destruct (Nat.eq_dec s s0) as [<-|Hne].
    + exists s, (k1 ++ l2 ++ k2), v. split; [apply in_put; right; split; [exact H3|apply in_put; left; eauto]|]. pose proof (One _ H1). subst l. rewrite !in_app_iff in *. tauto.
    + destruct (Nat.eq_dec s t0) as [<-|Hne'].
      * pose proof (One _ H2). subst l. assert (P : In (s, l1 ++ l3) (put (put st s0 (k1 ++ l2 ++ k2)) s (l1 ++ l3))) by (apply in_put; left; split; [reflexivity|split; [reflexivity|]]; exists (l1 ++ l2 ++ l3); apply in_put; right; auto).
        rewrite !in_app_iff in He. destruct He as [He|[He|He]]; [exists s, (l1 ++ l3), v; rewrite in_app_iff; auto| |exists s, (l1 ++ l3), v; rewrite in_app_iff; auto].
        exists s0, (k1 ++ l2 ++ k2), v. split; [apply in_put; right; split; [auto|apply in_put; left; eauto]|]. rewrite !in_app_iff. split; [tauto|]. split; [reflexivity|]. intro N. now destruct N.
      * apply Stay, in_put. right. split; [auto|]. apply in_put. right. auto.
  - apply swapped; assumption.
  - apply swapped; assumption.
  - destruct (Nat.eq_dec s0 s) as [->|Hne]; [|eapply Same; [|reflexivity]; intro; contradiction]. pose proof (One _ H1). subst l0. apply In_nth_error in He as (i & Hi).
    assert (Hk : i < length k0) by (destruct (le_lt_dec (length k0) i) as [Hle|Hlt]; [|exact Hlt]; exfalso; apply Hn; split; [reflexivity|]; exists l, k0, i; auto).
    assert (Hl : i < length l) by (apply nth_error_Some; congruence).
    assert (Len : length l' = length k0) by (rewrite <- (map_length snd), H4, map_length; reflexivity).
    destruct (nth_error l' i) as [(q, w)|] eqn:Ei; [|apply nth_error_None in Ei; lia].
    exists s, l', w. split; [apply in_put; left; eauto|]. split; [|tauto]. apply nth_error_In with i. rewrite Ei. f_equal. f_equal.
    apply (same_name l' l (S i) i q w p v (H5 (S i) ltac:(lia) ltac:(lia)) ltac:(lia) Ei Hi).
  - destruct (Nat.eq_dec s0 s) as [->|Hne]; [|eapply Same; [|reflexivity]; intro; contradiction]. pose proof (One _ H1). subst l0. apply In_nth_error in He as (j & Hj).
    assert (Hl : j < length l) by (apply nth_error_Some; congruence).
    destruct (nth_error l' j) as [(q, w)|] eqn:Ej; [|exfalso; apply nth_error_None in Ej; apply (f_equal (@length nat)) in H6; unfold names_of in H6; rewrite firstn_length, !map_length in H6; lia].
    exists s, l', w. split; [apply in_put; left; eauto|]. split; [|tauto]. apply nth_error_In with j. rewrite Ej. f_equal. f_equal.
    apply (same_name l' l (length l) j q w p v); [|lia|exact Ej|exact Hj]. rewrite H6. symmetry. apply firstn_all2. unfold names_of. rewrite map_length. lia.
  - destruct (Nat.eq_dec s0 s) as [->|Hne]; [|eapply Same; [|reflexivity]; intro; contradiction]. pose proof (One _ H1). subst l. apply in_elt_inv in He as [He|He].
    + injection He as -> ->. exists s, (l1 ++ (p0, w0) :: l2), w0. split; [apply in_put; left; eauto|]. split; [apply in_elt|tauto].
    + eapply Same; [|reflexivity]. intros _. apply in_app_iff in He. apply in_app_iff. cbn. tauto.
Qed.
End Programs.
