(** * ska_sort, for keys of every type *)

From Coq Require Import List Arith Bool Permutation Lia ZArith.
From Verif Require Import Mem MemLemmas SpecSort SortLemmas AlgoProofs DoubleBuffer RadixLemmas InplaceRadix SpecRadix DoubleBufferProofs InplaceProofs InplaceProofs2 InplaceProofs3 InplaceProofs4.
Import ListNotations.
Local Open Scope nat_scope.

Fixpoint type_induction (P : type -> Prop) (Hb : P TBool) (Hu : forall n, P (TUint n)) (Ht : forall ts, Forall P ts -> P (TTuple ts))
    (Hr : forall t, P t -> P (TRange t)) (t : type) : P t :=
  match t with
  | TBool => Hb
  | TUint n => Hu n
  | TTuple ts => Ht ts ((fix go ts : Forall P ts := match ts with [] => Forall_nil _ | t :: ts => Forall_cons _ (type_induction P Hb Hu Ht Hr t) (go ts) end) ts)
  | TRange t => Hr t (type_induction P Hb Hu Ht Hr t)
  end.

Section Keys.
Context {V : Type}.

Lemma chain_app (x y : list (sub_key V)) a b : chain (x ++ y) a b = lex (chain x) (chain y) a b.
Proof.
  revert a b. induction x as [|k x IH]; intros a b; cbn [app chain]; [reflexivity|].
  unfold lex in *. rewrite !IH. destruct (sub_lt k a b), (sub_lt k b a), (chain x a b), (chain x b a), (chain y a b); reflexivity.
Qed.
Lemma key_less_uint a b : key_less (Ku a) (Ku b) = (a <? b)%Z.
Proof. reflexivity. Qed.
Lemma seq_lt_keys t e : (forall a b, has_type t a -> has_type t b -> element_lt e a b = key_less a b) ->
  forall x y, Forall (has_type t) x -> Forall (has_type t) y -> seq_lt (element_lt e) x y = key_less (Kl x) (Kl y).
Proof.
  intro H. induction x as [|a x IH]; intros [|b y] Hx Hy; try reflexivity.
  inversion_clear Hx as [|? ? Ha Hx']. inversion_clear Hy as [|? ? Hb Hy']. rewrite key_less_cons. cbn [seq_lt]. change (fix go (x y : list key) {struct x} : bool := _) with (seq_lt (element_lt e)).
  rewrite IH, !H by assumption. reflexivity.
Qed.
Lemma first_sub_key_spec t : simple_element t ->
  exists e, first_sub_key t = Some e /\ (forall a, has_type t a -> element_ok e a) /\
    (forall a b, has_type t a -> has_type t b -> element_lt e a b = key_less a b).
Proof.
  induction 1 as [|n|t Ht (e & E & Hok & Hlt)]; cbn [first_sub_key].
  - eexists. split; [reflexivity|]. split; [intros a Ha; exact I|]. intros a b Ha Hb.
    inversion Ha as [p| | |]. inversion Hb as [q| | |]. destruct p, q; reflexivity.
  - eexists. split; [reflexivity|]. split.
    + intros a Ha. inversion Ha as [|? p Hp| |]. exact Hp.
    + intros a b Ha Hb. inversion Ha as [|? p Hp| |]. inversion Hb as [|? q Hq| |]. reflexivity.
  - rewrite E. eexists. split; [reflexivity|]. cbn [element_ok element_lt]. split.
    + intros a Ha x Hx. inversion Ha as [| | |? p Hp]. subst. cbn [elements] in Hx. rewrite Forall_forall in Hp. auto.
    + intros a b Ha Hb. inversion Ha as [| | |? p Hp]. inversion Hb as [| | |? q Hq]. subst. cbn [elements]. apply (seq_lt_keys t); assumption.
Qed.

(** The subkeys of a type give its order. *)
Lemma sub_keys_spec t : simple_ranges t -> forall get : V -> key,
  exists ks, sub_keys t get = Some ks /\
    (forall v, has_type t (get v) -> forall k, In k ks -> sub_ok k v) /\
    (forall a b, has_type t (get a) -> has_type t (get b) -> chain ks a b = key_less (get a) (get b)).
Proof.
  induction t as [|n|ts IH|t IH] using type_induction; intros Hs get.
  - eexists. split; [reflexivity|]. split.
    + intros v Hv k [<-|[]]. exact I.
    + intros a b Ha Hb. inversion Ha as [p Ep Ep'| | |]. inversion Hb as [q Eq Eq'| | |].
      cbn. unfold lex. cbn. rewrite <- Ep', <- Eq'. destruct p, q; reflexivity.
  - eexists. split; [reflexivity|]. split.
    + intros v Hv k [<-|[]]. inversion Hv as [|? p Hp Ep Ep'| |]. cbn. rewrite <- Ep'. exact Hp.
    + intros a b Ha Hb. inversion Ha as [|? p Hp Ep Ep'| |]. inversion Hb as [|? q Hq Eq Eq'| |].
      cbn [chain]. unfold lex. cbn [sub_lt scalar_lt]. rewrite <- Ep', <- Eq'. cbn [as_uint]. rewrite key_less_uint, andb_false_r, orb_false_r. reflexivity.
  - inversion Hs as [| |? Hts|]. subst. clear Hs. cbn [sub_keys].
    set (go := fix go (ts : list type) (index : nat) : option (list (sub_key V)) :=
         match ts with
         | [] => Some []
         | t :: ts => match sub_keys t (fun v => element index (get v)), go ts (S index) with Some a, Some b => Some (a ++ b) | _, _ => None end
         end).
    enough (K : forall ts i, Forall (fun t => simple_ranges t -> forall get : V -> key,
      exists ks, sub_keys t get = Some ks /\ (forall v, has_type t (get v) -> forall k, In k ks -> sub_ok k v) /\
      (forall a b, has_type t (get a) -> has_type t (get b) -> chain ks a b = key_less (get a) (get b))) ts -> Forall simple_ranges ts ->
      exists ks, go ts i = Some ks /\
        (forall v, Forall2 has_type ts (skipn i (elements (get v))) -> forall k, In k ks -> sub_ok k v) /\
        (forall a b, Forall2 has_type ts (skipn i (elements (get a))) -> Forall2 has_type ts (skipn i (elements (get b))) ->
          chain ks a b = key_less (Kl (skipn i (elements (get a)))) (Kl (skipn i (elements (get b)))))).
    { destruct (K ts 0 IH Hts) as (ks & E & Hok & Hlt). exists ks. split; [exact E|]. split.
      - intros v Hv. apply Hok. inversion Hv as [| |? ? Hv' Ev Ev'|]. exact Hv'.
      - intros a b Ha Hb. inversion Ha as [| |? ? Ha' Ea Ea'|]. inversion Hb as [| |? ? Hb' Eb Eb'|]. subst.
        rewrite Hlt by (rewrite <- ?Ea', <- ?Eb'; assumption). rewrite <- Ea', <- Eb'. reflexivity. }
    clear IH Hts ts. induction ts as [|t ts IH']; intros i HI Hts; cbn [go]; fold go.
    + exists []. split; [reflexivity|]. split; [intros; contradiction|]. intros a b Ha Hb. inversion Ha. inversion Hb. reflexivity.
    + inversion_clear HI as [|? ? Ht HI']. inversion_clear Hts as [|? ? Hst Hts'].
      destruct (Ht Hst (fun v => element i (get v))) as (ks1 & -> & Hok1 & Hlt1).
      destruct (IH' (S i) HI' Hts') as (ks2 & -> & Hok2 & Hlt2). exists (ks1 ++ ks2). split; [reflexivity|].
      assert (Hstep : forall v, Forall2 has_type (t :: ts) (skipn i (elements (get v))) ->
        skipn i (elements (get v)) = element i (get v) :: skipn (S i) (elements (get v)) /\ has_type t (element i (get v)) /\ Forall2 has_type ts (skipn (S i) (elements (get v)))).
      { intros v Hv. assert (Hl : i < length (elements (get v))).
        { destruct (Nat.lt_ge_cases i (length (elements (get v)))) as [H|H]; [exact H|]. rewrite skipn_all2 in Hv by exact H. inversion Hv. }
        assert (E : skipn i (elements (get v)) = element i (get v) :: skipn (S i) (elements (get v))).
        { destruct (get v) as [| |ks]; cbn [elements element] in *; try (cbn in Hl; lia). unfold element. 
          rewrite (InplaceProofs4.skipn_cons i ks) by exact Hl. reflexivity. }
        rewrite E in Hv. inversion_clear Hv. auto. }
      split.
      * intros v Hv k Hk. destruct (Hstep v Hv) as (_ & Hv1 & Hv2). apply in_app_or in Hk as [Hk|Hk]; [apply (Hok1 v Hv1 k Hk)|apply (Hok2 v Hv2 k Hk)].
      * intros a b Ha Hb. destruct (Hstep a Ha) as (Ea & Ha1 & Ha2). destruct (Hstep b Hb) as (Eb & Hb1 & Hb2).
        rewrite chain_app, Ea, Eb, key_less_cons. unfold lex. rewrite !Hlt1, !Hlt2 by assumption. reflexivity.
  - clear IH. inversion Hs as [| | |? Ht]. subst. destruct (first_sub_key_spec t Ht) as (e & E & Hok & Hlt). cbn [sub_keys]. rewrite E.
    eexists. split; [reflexivity|]. split.
    + intros v Hv k [<-|[]] x Hx. inversion Hv as [| | |? p Hp Ep Ep']. rewrite <- Ep' in Hx. cbn [elements] in Hx. rewrite Forall_forall in Hp. auto.
    + intros a b Ha Hb. inversion Ha as [| | |? p Hp Ep Ep']. inversion Hb as [| | |? q Hq Eq Eq'].
      cbn [chain]. unfold lex. cbn [sub_lt]. rewrite <- Ep', <- Eq'. cbn [elements]. rewrite (seq_lt_keys t), andb_false_r, orb_false_r by assumption. reflexivity.
Qed.

Lemma inplace_spec std american (sort_all : list V -> list V) t (ex : V -> key) l :
  simple_ranges t -> (forall v, In v l -> has_type t (ex v)) ->
  (forall g, sorting (fun a b => key_less (ex a) (ex b)) g (sort_all g)) ->
  (forall n, n <= length l -> n <= std \/ american <= n) ->
  exists l', inplace_radix_sort std american sort_all t ex l = Some l' /\ sorting (fun a b => key_less (ex a) (ex b)) l l'.
Proof.
  intros Hs Ht Hall Hsz. destruct (sub_keys_spec t Hs ex) as (ks & E & Hok & Hlt). unfold inplace_radix_sort. rewrite E.
  apply (sort_starter_spec (fun a b => key_less (ex a) (ex b)) std american sort_all Hall (fun g => length g <= length l /\ forall v, In v g -> In v l)).
  - intros x g [H1 H2] Hg. split; [pose proof (part_length g x Hg); lia|]. intros v Hv. apply H2. eapply part_in; eauto.
  - intros g [H1 H2]. apply Hsz, H1.
  - split; [lia|auto].
  - intros k v Hk Hv. apply (Hok v); auto.
  - intros a b Ha Hb. symmetry. apply Hlt; auto.
Qed.
End Keys.

(** ** One unsigned integer: which groups matter *)
Section Uint.
Context {V : Type} (std american : nat) (sort_all : list V -> list V) (n : nat) (key : V -> Z).
Let lt (a b : V) := (key a <? key b)%Z.
Context (Hall : forall l, sorting lt l (sort_all l)).

(** [v / 256 ^ j = c]: all but the last [j] bytes are [c]. *)
Definition above (j : nat) (c : Z) (l : list V) : list V := filter (fun v => (key v / 256 ^ Z.of_nat j =? c)%Z) l.
Definition good (k : nat) (l : list V) : Prop := forall j c, 2 <= j <= k -> length (above j c l) <= std \/ american <= length (above j c l).

Lemma above_all j c l : (forall v, In v l -> (key v / 256 ^ Z.of_nat j = c)%Z) -> above j c l = l.
Proof.
  unfold above. induction l as [|a l IH]; intro H; [reflexivity|]. cbn. rewrite (proj2 (Z.eqb_eq _ _)) by (apply H; now left). f_equal. apply IH. intros; apply H; now right.
Qed.
Lemma digit_above v k c : (key v / 256 ^ Z.of_nat (S k) = c)%Z -> (key v / 256 ^ Z.of_nat k = 256 * c + Z.of_nat (digit (key v) k))%Z.
Proof.
  intro H. unfold digit. rewrite Z2Nat.id by (apply Z.mod_pos_bound; lia).
  assert (Q : (key v / 256 ^ Z.of_nat (S k) = key v / 256 ^ Z.of_nat k / 256)%Z).
  { rewrite Nat2Z.inj_succ, Z.pow_succ_r by lia. rewrite Z.mul_comm. rewrite Z.div_div; [reflexivity| |lia]. pose proof (Z.pow_pos_nonneg 256 (Z.of_nat k)). lia. }
  rewrite Q in H. pose proof (Z.div_mod (key v / 256 ^ Z.of_nat k) 256). lia.
Qed.
Lemma filter_none {A} (f : A -> bool) l : (forall v, In v l -> f v = false) -> filter f l = [].
Proof. induction l as [|a l IH]; intro H; [reflexivity|]. cbn. rewrite (H a (or_introl eq_refl)). apply IH. intros; apply H; now right. Qed.

Lemma good_fine k : forall c l, (forall v, In v l -> (key v / 256 ^ Z.of_nat k = c)%Z) -> good k l -> fine lt std american key k (fun _ => True) l.
Proof.
  induction k as [|k IH]; intros c l Hc Hg; cbn [fine]; [exact I|]. split.
  - destruct k as [|k].
    + right. right. intros a b Ha Hb Hd. unfold lt. apply Z.ltb_ge.
      pose proof (digit_above a 0 c (Hc a Ha)) as Da. pose proof (digit_above b 0 c (Hc b Hb)) as Db.
      cbn [Z.of_nat] in Da, Db. change (256 ^ 0)%Z with 1%Z in Da, Db. rewrite Z.div_1_r in Da, Db. lia.
    + pose proof (Hg (S (S k)) c ltac:(lia)) as H. rewrite above_all in H by exact Hc. tauto.
  - intros i g Hp Hlen. set (d := fun v => digit (key v) k) in *.
    assert (Hin : forall v, In v g -> In v l /\ d v = i) by (intros v Hv; apply in_group, (Permutation_in v Hp Hv)).
    apply (IH (256 * c + Z.of_nat i)%Z).
    + intros v Hv. destruct (Hin v Hv) as [Hl Hd]. rewrite (digit_above v k c (Hc v Hl)). fold (d v). now rewrite Hd.
    + intros j e Hj. 
      assert (Q : forall v, (key v / 256 ^ Z.of_nat j = e)%Z -> (key v / 256 ^ Z.of_nat k = e / 256 ^ Z.of_nat (k - j))%Z).
      { intros v Hv. rewrite <- Hv, Z.div_div by (try apply Z.pow_nonzero; try apply Z.pow_pos_nonneg; lia). f_equal. rewrite <- Z.pow_add_r by lia. f_equal. lia. }
      assert (Hs : Permutation (above j e g) (above j e (group d i l))) by (apply filter_perm, Hp).
      rewrite (Permutation_length Hs). unfold above, group. rewrite filter_filter.
      destruct (Z.eq_dec (e / 256 ^ Z.of_nat (k - j)) (256 * c + Z.of_nat i)) as [He|He].
      * replace (filter _ l) with (above j e l); [apply Hg; lia|]. unfold above. apply filter_ext_in. intros v Hv.
        destruct (Z.eqb_spec (key v / 256 ^ Z.of_nat j) e) as [F|F]; cbn [andb]; rewrite ?andb_false_r, ?andb_true_r; [|reflexivity].
        pose proof (Q v F) as Q'. rewrite (digit_above v k c (Hc v Hv)) in Q'. symmetry. apply Nat.eqb_eq. unfold d. lia.
      * rewrite filter_none; [left; apply Nat.le_0_l|]. intros v Hv.
        destruct (Z.eqb_spec (key v / 256 ^ Z.of_nat j) e) as [F|F]; cbn [andb]; rewrite ?andb_false_r, ?andb_true_r; [|reflexivity].
        pose proof (Q v F) as Q'. rewrite (digit_above v k c (Hc v Hv)) in Q'. apply Nat.eqb_neq. unfold d. intro. lia.
Qed.

Lemma uint_spec l : (forall v, In v l -> (0 <= key v < 256 ^ Z.of_nat n)%Z) -> good n l ->
  exists l', inplace_radix_sort std american sort_all (TUint n) (fun v => Ku (key v)) l = Some l' /\ sorting lt l l'.
Proof.
  intros Hr Hg. unfold inplace_radix_sort. cbn [sub_keys sort_starter].
  destruct (Nat.leb_spec (length l) 1) as [T|T]; [exists l; split; [reflexivity|apply short_sorting, T]|].
  cbn [scalar_sort as_uint].
  apply (sort_selector_spec lt std american sort_all Hall key (fun _ _ => false) (fun _ => True)).
  - intros g _ Ha. exists g. split; [reflexivity|]. apply equal_sorting, Ha.
  - intros a b Ha Hb. unfold lex, low, by_mod. rewrite !Z.mod_small by auto. rewrite andb_false_r, orb_false_r. reflexivity.
  - apply (good_fine n 0%Z); [|exact Hg]. intros v Hv. apply Z.div_small. auto.
Qed.
End Uint.
