(** * A dictionary

    What a map is for its user: a function from keys to mapped values, and a number of keys. Nothing here is used by the model (the names of the
    actions and of their replies are in Keyed.v). *)

From Coq Require Import List.
From Verif Require Import Keyed.
Import ListNotations.

Section Dict.
Context {K M : Type} (same : K -> K -> bool).
Record dictionary := { value_of : K -> option M; keys : nat }.
Definition no_entries : dictionary := {| value_of := fun _ => None; keys := 0 |}.

(** Inserting does nothing when there is an entry for the key. Erasing removes the entry. *)
Definition dictionary_act (d : dictionary) (a : action K M) : dictionary * reply M :=
  match a with
  | Insert k v =>
      match value_of d k with
      | Some _ => (d, Inserted false)
      | None => ({| value_of := fun k' => if same k k' then Some v else value_of d k'; keys := keys d + 1 |}, Inserted true)
      end
  | Erase k =>
      match value_of d k with
      | Some _ => ({| value_of := fun k' => if same k k' then None else value_of d k'; keys := keys d - 1 |}, Erased 1)
      | None => (d, Erased 0)
      end
  | Lookup k => (d, Found (value_of d k))
  | Size => (d, Number (keys d))
  end.
Fixpoint dictionary_replies (d : dictionary) (actions : list (action K M)) : list (reply M) :=
  match actions with
  | [] => []
  | a :: actions => let '(d', r) := dictionary_act d a in r :: dictionary_replies d' actions
  end.

(** What a multimap is: a function from keys to lists of mapped values, in the order in which they were inserted, and the number of all. *)
Record multi_dictionary := { values_of : K -> list M; entries : nat }.
Definition no_values : multi_dictionary := {| values_of := fun _ => []; entries := 0 |}.
Definition multi_dictionary_act (d : multi_dictionary) (a : multi_action K M) : multi_dictionary * multi_reply M :=
  match a with
  | MultiInsert k v => ({| values_of := fun k' => if same k k' then values_of d k' ++ [v] else values_of d k'; entries := entries d + 1 |}, MultiInserted)
  | MultiErase k =>
      ({| values_of := fun k' => if same k k' then [] else values_of d k'; entries := entries d - length (values_of d k) |}, MultiErased (length (values_of d k)))
  | MultiLookup k => (d, MultiFound (values_of d k))
  | MultiSize => (d, MultiNumber (entries d))
  end.
Fixpoint multi_dictionary_replies (d : multi_dictionary) (actions : list (multi_action K M)) : list (multi_reply M) :=
  match actions with
  | [] => []
  | a :: actions => let '(d', r) := multi_dictionary_act d a in r :: multi_dictionary_replies d' actions
  end.
End Dict.
