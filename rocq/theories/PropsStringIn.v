(** * C125: reading strings from a stream *)

From Coq Require Import List Arith Bool NArith ZArith Lia.
From Verif Require Import Mem Vec SpecVec Sbo SpecSbo StringIn SpecStringIn StringInProofs.
Import ListNotations.

(** ** C125. stream >> str reads one word: it skips the spaces, replaces the contents of the string by the characters up to the next
    space, the end of the text or the field width, leaves everything behind them in the stream, and resets the width. When
    there is no memory for a character, the string holds the characters before it and the stream begins with that
    character. *)
Theorem C125_word : forall V (moved : V -> V) space small max o vs (s : stream V) spaces word tail others w,
  small < max -> (N.of_nat max < 2 ^ 63)%N -> is_sbo small max o vs others w ->
  good s = true -> st_rest s = spaces ++ word ++ tail -> all_spaces space spaces -> st_skipws s = true \/ spaces = [] ->
  word <> [] -> stands_first space (wanted max (st_width s)) word tail -> 2 * length word <= max ->
  ends (extract moved space small max (o, s) w)
    (fun p _ w' => is_sbo small max (fst p) word others w' /\ snd p = Stream tail 0 (st_skipws s) false false false)
    (fun p w' => someone_throws w /\ exists n, n < length word /\ is_sbo small max (fst p) (firstn n word) others w' /\
       snd p = Stream (skipn n word ++ tail) (st_width s) (st_skipws s) false false false).
Proof.
  intros V moved space small max o vs s spaces word tail others w Hs Hm Hv Hg Hr Hsp Hsk Hne Hw Hroom.
  assert (X : st_skipws s = true /\ word ++ tail <> [] /\ (word = [] -> match tail with c :: _ => space c = false | [] => True end)
              \/ st_skipws s = false /\ spaces = []).
  { destruct (st_skipws s); [left|right].
    - split; auto. split; [destruct word; [contradiction|discriminate]|contradiction].
    - split; auto. destruct Hsk; [discriminate|auto]. }
  pose proof (extract_ok moved space small max Hs Hm o vs s spaces word tail others w Hv Hg Hr Hsp X Hw Hroom) as H.
  unfold ends in *. destruct (extract moved space small max (o, s) w) as [p [] w'|p w'|]; auto.
  - destruct word; [contradiction|exact H].
  - unfold good in Hg. destruct s as [r wd sk [] [] []]; try discriminate Hg. exact H.
Qed.
Print Assumptions C125_word.

(** No word is left: the string stays as it is, and the stream says so. *)
Theorem C125_no_word : forall V (moved : V -> V) space small max o (s : stream V) w,
  good s = true -> st_skipws s = true -> all_spaces space (st_rest s) ->
  extract moved space small max (o, s) w = Ret (o, Stream [] (st_width s) true true true false) tt w.
Proof. intros V moved space small max. exact (extract_spaces moved space small max). Qed.
Print Assumptions C125_no_word.

(** Spaces are not skipped and the text begins with one, or is empty: an empty string and a failure. *)
Theorem C125_noskipws : forall V (moved : V -> V) space small max o vs (s : stream V) others w,
  small < max -> (N.of_nat max < 2 ^ 63)%N -> is_sbo small max o vs others w ->
  good s = true -> st_skipws s = false -> match st_rest s with [] => True | c :: _ => space c = true end ->
  ends (extract moved space small max (o, s) w)
    (fun p _ w' => is_sbo small max (fst p) [] others w' /\ snd p = Stream (st_rest s) 0 false false true false)
    (fun _ _ => False).
Proof.
  intros V moved space small max o vs s others w Hs Hm Hv Hg Hsk Hfirst.
  assert (Hw : stands_first space (wanted max (st_width s)) [] (st_rest s)). { split; [constructor|]. split; [cbn; lia|]. auto. }
  pose proof (extract_ok moved space small max Hs Hm o vs s [] [] (st_rest s) others w Hv Hg eq_refl (Forall_nil _)
                (or_intror (conj Hsk eq_refl)) Hw (Nat.le_0_l _)) as H.
  unfold ends in *. destruct (extract moved space small max (o, s) w) as [p [] w'|p w'|]; auto.
  - rewrite Hsk in H. exact H.
  - destruct H as (_ & n & Hn & _). cbn in Hn. lia.
Qed.
Print Assumptions C125_noskipws.

(** After an error nothing is read. *)
Theorem C125_not_good : forall V (moved : V -> V) space small max o (s : stream V) w,
  good s = false -> extract moved space small max (o, s) w = Ret (o, set_fail s) tt w.
Proof. intros V moved space small max. exact (extract_not_good moved space small max). Qed.
Print Assumptions C125_not_good.

(** Reading again and again gives the words of the text one after the other, and the next reading fails. *)
Theorem C125_words : forall V (moved : V -> V) space small max words last o vs others w n,
  small < max -> (N.of_nat max < 2 ^ 63)%N -> is_sbo small max o vs others w -> ~ someone_throws w ->
  separated space true words last -> Forall (fun sw => 2 * length (snd sw) <= max) words -> n < length words ->
  ends (extract_times space moved small max (S n) (o, Stream (text words last) 0 true false false false) w)
    (fun p _ w' => is_sbo small max (fst p) (snd (nth n words ([], []))) others w' /\ good (snd p) = true)
    (fun _ _ => False) /\
  ends (bind (extract_times space moved small max (length words)) (fun _ => extract moved space small max)
          (o, Stream (text words last) 0 true false false false) w)
    (fun p _ _ => st_fail (snd p) = true) (fun _ _ => False).
Proof.
  intros V moved space small max words last o vs others w n Hs Hm Hv Hq Hsep Hfit Hn. split.
  - pose proof (words_ok moved space small max Hs Hm words last true o vs others w Hv Hsep Hfit Hq (S n) Hn) as H.
    unfold ends in *. destruct (extract_times space moved small max (S n) _ w) as [p [] w'|p w'|]; auto. destruct H as (_ & H1 & H2). rewrite H2. auto.
  - pose proof (words_ok moved space small max Hs Hm words last true o vs others w Hv Hsep Hfit Hq (length words) (le_n _)) as H.
    unfold bind. unfold ends in *. destruct (extract_times space moved small max (length words) _ w) as [[o1 s1] [] w'|p w'|]; auto.
    destruct H as (_ & _ & H2). cbn [snd] in H2. rewrite H2, skipn_all. cbn [text].
    assert (Hl : all_spaces space last). { clear - Hsep. revert Hsep. generalize true. induction words as [|[a b] words IH]; cbn; auto. intros f (_ & _ & _ & _ & H). eauto. }
    rewrite extract_spaces by auto. reflexivity.
Qed.
Print Assumptions C125_words.

(** After the last word has been read up to the end of the text, eof() should be true, as for every extraction of the standard
    library that meets the end. It is false. *)
Theorem C125_eof_refuted : exists (s : stream nat) o w,
  is_sbo 2 1000 o [] (fun _ => None) w /\ good s = true /\ st_rest s <> [] /\
  match extract (fun _ => 0) (Nat.eqb 32) 2 1000 (o, s) w with
  | Ret p _ _ => st_rest (snd p) = [] /\ sb_size (fst p) = length (st_rest s) /\ st_eof (snd p) = false
  | _ => False
  end.
Proof.
  exists (Stream [97; 98] 0 true false false false), (Sbo 0 (Small []) 0 false), (World (fun b => if b =? 0 then Some [None; None] else None) 1 []).
  split.
  { split.
    - split; [reflexivity|]. left. split; [reflexivity|]. split; [now exists []|]. split; [reflexivity|]. split; [now exists 2|].
      intros b Hb. cbn. destruct b; [now elim Hb|reflexivity].
    - intros b Hb. cbn in *. destruct b; [lia|reflexivity]. }
  split; [reflexivity|]. split; [discriminate|]. vm_compute. repeat split.
Qed.
Print Assumptions C125_eof_refuted.

(** Three words; a width of two; and memory runs out at the third character. *)
Example C125_example :
  let sp := Nat.eqb 32 in
  let words := [([32], [97; 98; 99]); ([32; 32], [100]); ([32], [101; 102])] in
  let o := Sbo 0 (Small []) 0 false in
  let w s := World (V := nat) (fun b => if b =? 0 then Some [None; None] else None) 1 s in
  separated sp true words [32] /\
  stands_first sp (wanted 1000 2) [97; 98] [99; 32] /\
  match extract_times sp (fun _ => 0) 2 1000 3 (o, Stream (text words [32]) 0 true false false false) (w []) with
  | Ret p _ _ => sb_size (fst p) = 2 /\ st_rest (snd p) = [32]
  | _ => False
  end /\
  match extract (fun _ => 0) sp 2 1000 (o, Stream [32; 97; 98; 99; 32] 2 true false false false) (w []) with
  | Ret p _ w' => snd p = Stream [99; 32] 0 true false false false /\ heap w' 0 = Some [Some 97; Some 98]
  | _ => False
  end /\
  match extract (fun _ => 0) sp 2 1000 (o, Stream [32; 97; 98; 99; 32] 0 true false false false) (w [false; false; true]) with
  | Exc p w' => snd p = Stream [99; 32] 0 true false false false /\ heap w' 0 = Some [Some 97; Some 98]
  | _ => False
  end.
Proof.
  cbv zeta. split. { cbn. unfold all_spaces, no_spaces. repeat first [reflexivity | discriminate | (left; reflexivity) | (right; discriminate) | apply Forall_nil | (apply Forall_cons) | split]. }
  split. { split; [repeat constructor|]. split; [cbn; lia|]. left. reflexivity. }
  vm_compute. repeat split.
Qed.
