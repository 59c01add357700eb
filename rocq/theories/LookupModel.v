(** Model of Distribution.lookup (probayes/distribution.py 211-244) and of PD called
    with 'marg' or 'cond' (probayes/pd.py 505-509). *)
From Coq Require Import String ZArith Bool Arith List.
From Verif Require Import Base Num Tensor Names Distr PDModel.
Import ListNotations.
Local Open Scope bool_scope.

Section Lookup.
Context {T : Type} {N : Num T}.

(** What lookup returns under a key: values, or a tuple of arrays under the joined
    keys of variables that share an axis. *)
Inductive found : Type := Single (v : value T) | Shared (l : list (value T)).

(** distribution.py 213, [keys or self._keyset]. *)
Definition asked_keys (d : dist T) (keys : list string) : list string :=
  match keys with [] => d_keylist d | _ => keys end.

(** np.ravel of an array. *)
Definition ravel_value (v : value T) : result (value T) :=
  match v with
  | VArr a => Ok (VArr (of_list n0 (to_list a)))
  | _ => Err TypeError
  end.

Definition dim_eqb (a b : option Z) : bool :=
  match a, b with
  | Some x, Some y => Z.eqb x y
  | None, None => true
  | _, _ => false
  end.

(** distribution.py 230-235: the key and those after it that are asked for, have
    more than one value and lie along the same axis. *)
Definition shared_keys (d : dist T) (keys : list string) (key : string) (later : list (string * bool))
    : result (list string) :=
  let! dim := od_getR (d_dims d) key in
  let! l := fold_res (fun acc (kb : string * bool) =>
              if mem_str (fst kb) keys && negb (snd kb) then
                let! cand := od_getR (d_dims d) (fst kb) in
                Ok (if dim_eqb dim cand then acc ++ [fst kb] else acc)
              else Ok acc) later [] in
  Ok (key :: l).

(** distribution.py 225-244, the loop; [later] pairs the remaining keys with
    aresingleton. *)
Fixpoint lookup_loop (d : dist T) (keys : list string) (later : list (string * bool)) (seen : list string)
    (vals : odict found) : result (odict found) :=
  match later with
  | [] => Ok vals
  | (key, sing) :: rest =>
      if mem_str key keys && negb (mem_str key seen) then
        if sing then
          let! v := od_getR (d_vals d) key in
          lookup_loop d keys rest (key :: seen) (od_set vals key (Single v))
        else
          let! shared := shared_keys d keys key rest in
          match shared with
          | [_] =>
              let! v := od_getR (d_vals d) key in
              let! r := ravel_value v in
              lookup_loop d keys rest (key :: seen) (od_set vals key (Single r))
          | _ =>
              let! l := map_res (fun k => let! v := od_getR (d_vals d) k in ravel_value v) shared in
              lookup_loop d keys rest (shared ++ seen) (od_set vals (join "," shared) (Shared l))
          end
      else lookup_loop d keys rest seen vals
  end.

(** distribution.py 211-244, lookup(keys) *)
Definition lookup (d : dist T) (keys : list string) : result (odict found) :=
  lookup_loop d (asked_keys d keys) (combine (d_keylist d) (d_aresing d)) [] [].

(** distribution.py 216-223, lookup(keys, as_dist=True) *)
Definition lookup_dist (d : dist T) (keys : list string) : result (dist T) :=
  let ks := filter (fun k => mem_str k (asked_keys d keys)) (d_keylist d) in
  let! vals := map_res (fun k => let! v := od_getR (d_vals d) k in Ok (k, v)) ks in
  let! dims := map_res (fun k => let! j := od_getR (d_dims d) k in Ok (k, j)) ks in
  make_dist (join "," ks) vals (Some dims).

(** pd.py 505-509, p('marg') and p('cond'); other strings are refused. *)
Definition pd_parts (p : pd T) (which : string) : result (odict found) :=
  let! _ := assert_ (mem_str which ["marg"; "cond"]%string) in
  let dictionary := if String.eqb which "marg" then p_marg p else p_cond p in
  lookup (p_d p) (od_keys dictionary).

End Lookup.
Arguments found T : clear implicits.
