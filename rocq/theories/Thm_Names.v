(** Property theorems about names (C09, C10). *)
From Coq Require Import Ascii String List Bool.
From Verif Require Import Base Names Names_Spec Names_Proofs.
Import ListNotations.
Local Open Scope string_scope.

(** C09: rendering entries to a name and parsing it back is the identity. *)
Theorem C09_name_round_trip :
  forall (marg cond : list string) (dm dc : list (string * string)),
  Forall good_entry marg -> Forall good_entry cond ->
  entries_dict marg dm -> entries_dict cond dc ->
  NoDup (map fst dm) -> NoDup (map fst dc) ->
  str_margcond (margcond_str marg cond) = Ok (dm, dc).
Proof. exact name_round_trip_spec. Qed.
Print Assumptions C09_name_round_trip.

Example C09_hypotheses_met :
  Forall good_entry ["x"; "y=[]"; "z'=1.5"] /\ Forall good_entry ["w=2"] /\
  entries_dict ["x"; "y=[]"; "z'=1.5"] [("x", "x"); ("y", "y=[]"); ("z'", "z'=1.5")] /\
  entries_dict ["w=2"] [("w", "w=2")] /\
  NoDup (map fst [("x", "x"); ("y", "y=[]"); ("z'", "z'=1.5")]) /\
  margcond_str ["x"; "y=[]"; "z'=1.5"] ["w=2"] = "x,y=[],z'=1.5|w=2".
Proof.
  assert (G : forall s, s <> "" -> has_char "," s = false -> has_char "|" s = false ->
               has_char "(" s = false -> has_char ")" s = false -> good_entry s).
  { intros s H1 H2 H3 H4 H5. rewrite has_char_false in *. repeat split; auto. }
  split; [repeat constructor; apply G; try discriminate; reflexivity|].
  split; [repeat constructor; apply G; try discriminate; reflexivity|].
  split; [apply entries_dict_unique; reflexivity|].
  split; [apply entries_dict_unique; reflexivity|].
  split; [|reflexivity].
  repeat constructor; cbn; intuition discriminate.
Qed.

(** C10 is false for every name of the form f(...): it parses to no variable. *)
Theorem C10_parenthesised_names_refuted :
  forall f inside : string,
  f <> "" -> ~ occurs "(" f -> ~ occurs ")" f -> ~ occurs ")" inside ->
  str_margcond (f ++ "(" ++ inside ++ ")") = Ok ([], []).
Proof. exact paren_name_lost. Qed.
Print Assumptions C10_parenthesised_names_refuted.

Example C10_hypotheses_met :
  "p" ++ "(" ++ "x|y" ++ ")" = "p(x|y)" /\ "p" <> "" /\
  ~ occurs "(" "p" /\ ~ occurs ")" "p" /\ ~ occurs ")" "x|y".
Proof.
  repeat split; try discriminate; unfold occurs; cbn; intuition discriminate.
Qed.
