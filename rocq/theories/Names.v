(** Model of the naming functions of /repo/probayes/pd_utils.py (lines 13-82). *)
From Coq Require Import Ascii String ZArith Bool Arith List.
From Verif Require Import Base.
Import ListNotations.
Local Open Scope string_scope.
Local Open Scope bool_scope.

(** str.find(c): position of the first occurrence. *)
Fixpoint find_char (c : ascii) (s : string) : option nat :=
  match s with
  | EmptyString => None
  | String a s' => if Ascii.eqb a c then Some 0
                   else match find_char c s' with Some n => Some (S n) | None => None end
  end.

Definition has_char (c : ascii) (s : string) : bool :=
  match find_char c s with Some _ => true | None => false end.

(** str.split(c): always at least one piece. *)
Fixpoint split_char (c : ascii) (s : string) : list string :=
  match s with
  | EmptyString => [""]
  | String a s' =>
      if Ascii.eqb a c then "" :: split_char c s'
      else match split_char c s' with
           | [] => [String a ""]
           | p :: ps => String a p :: ps
           end
  end.

(** sep.join(l). *)
Fixpoint join (sep : string) (l : list string) : string :=
  match l with
  | [] => ""
  | [s] => s
  | s :: l' => s ++ sep ++ join sep l'
  end.

(** s[:k] and s[k:]. *)
Fixpoint str_take (k : nat) (s : string) : string :=
  match k, s with
  | S k', String a s' => String a (str_take k' s')
  | _, _ => ""
  end.
Fixpoint str_drop (k : nat) (s : string) : string :=
  match k, s with
  | S k', String _ s' => str_drop k' s'
  | _, _ => s
  end.

(** pd_utils.py 13-19 (str2key) on a string. *)
Definition str2key (s : string) : string :=
  match find_char "=" s with
  | Some (S k) => str_take (S k) s
  | _ => s
  end.

(** pd_utils.py 42-45: split a comma-separated list unless it is empty. *)
Definition comma_list (s : string) : list string :=
  if String.eqb s "" then [] else split_char "," s.

(** pd_utils.py 46-49: entries keyed by str2key. *)
Definition keyed (l : list string) : odict string :=
  fold_left (fun d s => od_set d (str2key s) s) l [].

(** pd_utils.py 29-34: treatment of parentheses.  The slice
    [marg_str[lt_paren:1:rt_paren]] of line 34 (start lt_paren, stop 1, step
    rt_paren) contains at most the character at position 0. *)
Definition paren_slice (name : string) : result string :=
  match find_char "(" name, find_char ")" name with
  | None, None => Ok name
  | Some l, Some r =>
      if Nat.ltb l r then Ok (if Nat.eqb l 0 then str_take 1 name else "")
      else Err AssertionError
  | _, _ => Err AssertionError
  end.

(** pd_utils.py 22-50 (str_margcond). *)
Definition str_margcond (name : string) : result (odict string * odict string) :=
  if String.eqb name "" then Ok ([], [])
  else
    let! marg_str := paren_slice name in
    let! (m, c) :=
      if has_char "|" marg_str then
        match split_char "|" name with
        | [m; c] => Ok (m, c)
        | _ => Err AssertionError
        end
      else Ok (marg_str, "") in
    Ok (keyed (comma_list m), keyed (comma_list c)).

(** pd_utils.py 53-59 (margcond_str) from lists of entries. *)
Definition margcond_str (marg cond : list string) : string :=
  let m := join "," marg in
  let c := join "," cond in
  if String.eqb c "" then m else join "|" [m; c].

(** pd_utils.py 62-82 (rekey_dict). *)
Definition rekey_entry (new_key old : string) : string :=
  match find_char "=" old with
  | Some (S k) => new_key ++ str_drop (S k) old
  | _ => new_key
  end.

Definition rekey_dict (d : odict string) (keymap : odict string) : result (odict string) :=
  fold_res (fun acc kv =>
              match od_get keymap (fst kv) with
              | None => Ok (od_set acc (fst kv) (snd kv))
              | Some mk =>
                  let! _ := assert_ (negb (od_mem acc mk)) in
                  Ok (od_set acc mk (rekey_entry mk (snd kv)))
              end) d [].
