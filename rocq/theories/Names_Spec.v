(** Specification vocabulary for names of distributions. *)
From Coq Require Import Ascii String Bool List.
Import ListNotations.
Local Open Scope string_scope.

(** The character occurs in the string. *)
Definition occurs (c : ascii) (s : string) : Prop := In c (list_ascii_of_string s).

(** An entry of a name, such as "x", "x'" or "x=[]" or "x=1.5": not empty and free of
    the characters that structure names. *)
Definition good_entry (s : string) : Prop :=
  s <> "" /\ ~ occurs "," s /\ ~ occurs "|" s /\ ~ occurs "(" s /\ ~ occurs ")" s.

(** [key_of e k]: the key of entry e is what precedes its first "=", or the
    whole entry when "=" does not occur (or comes first). *)
Definition key_of (e k : string) : Prop :=
  (exists r, e = k ++ "=" ++ r /\ k <> "" /\ ~ occurs "=" k) \/
  (k = e /\ (~ occurs "=" e \/ exists r, e = "=" ++ r)).

(** A dictionary holding exactly the entries, in order, each under its key. *)
Definition entries_dict (entries : list string) (d : list (string * string)) : Prop :=
  map snd d = entries /\ Forall (fun kv => key_of (snd kv) (fst kv)) d.
