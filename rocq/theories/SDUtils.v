(** Model of probayes/sd_utils.py: desuffix, get_suffixed and arch_prob. *)
From Coq Require Import String Ascii ZArith Bool Arith List.
From Verif Require Import Base Num Tensor PScales Names.
Import ListNotations.
Set Implicit Arguments.
Local Open Scope bool_scope.

(** key[-1], which raises for the empty string, and key[:-1] *)
Fixpoint last_char (s : string) : option ascii :=
  match s with
  | EmptyString => None
  | String c EmptyString => Some c
  | String _ s' => last_char s'
  end.
Fixpoint init_str (s : string) : string :=
  match s with
  | EmptyString => EmptyString
  | String _ EmptyString => EmptyString
  | String c s' => String c (init_str s')
  end.

(** key[-1] == suffix for a suffix of one character *)
Definition suffixed (suffix : ascii) (k : string) : result bool :=
  match last_char k with None => Err IndexError | Some c => Ok (Ascii.eqb c suffix) end.

(** sd_utils.py 7-19.  Without a suffix, {values} is a set of a dictionary, which
    is not hashable. *)
Definition desuffix {A} (values : odict A) (suffix : ascii) : result (odict A) :=
  let! found := map_res (suffixed suffix) (od_keys values) in
  if negb (existsb (fun b => b) found) then Err TypeError
  else fold_res (fun vals kv =>
         let! s := suffixed suffix (fst kv) in
         let key := if s then init_str (fst kv) else fst kv in
         let! _ := assert_ (negb (od_mem vals key)) in
         Ok (od_set vals key (snd kv))) values [].

(** sd_utils.py 22-30 *)
Definition get_suffixed {A} (values : odict A) (unsuffix : bool) (suffix : ascii) : result (odict A) :=
  fold_res (fun vals kv =>
    let! s := suffixed suffix (fst kv) in
    Ok (if s then od_set vals (if unsuffix then init_str (fst kv) else fst kv) (snd kv) else vals)) values [].

Section Arch.
Context {T : Type} {N : Num T} {F : Fmt T}.
Variable V : Type.   (* values *)

(** A constituent of an architecture: its variables, its scale, and the
    probability it evaluates to for values of these. *)
Record part : Type := mkPart {
  pt_keys : list string; pt_pscale : pspec T; pt_eval : odict V -> odict nat -> result (tensor T) }.

Definition restrict {A} (keys : list string) (d : odict A) : odict A :=
  filter (fun kv => mem_str (fst kv) keys) d.

(** sd_utils.py 33-52; the values and dimensions are dictionaries over the same
    keys. *)
Definition arch_prob (serial : bool) (parts : list part) (values : odict V) (dims : odict nat) : result (tensor T) :=
  let! probs := map_res (fun p => pt_eval p (restrict (pt_keys p) values) (restrict (pt_keys p) dims)) parts in
  if serial then
    match rev probs with p :: _ => Ok p | [] => Err IndexError end
  else
    let! (prob, _) := prod_rule probs (Some (map pt_pscale parts)) None None in Ok prob.
End Arch.
