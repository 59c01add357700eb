(** Model of /repo/probayes/pd_utils.py: product, summate, ismonotonic,
    serialise and deserialise. *)
From Coq Require Import String Ascii ZArith Bool Arith List.
From Verif Require Import Base Num Tensor PScales Names Distr PDModel.
Import ListNotations.
Local Open Scope bool_scope.

Section PDUtils.
Context {T : Type} {N : Num T} {F : Fmt T}.

(** The complex value of a pscale object, for Python's [==] between numbers. *)
Definition cval (s : pspec T) : option (T * T) :=
  match s with
  | PSInt z => Some (n_ofZ z, n0)
  | PSFloat x => Some (x, n0)
  | PSCplx re im => Some (re, im)
  | _ => None
  end.

Definition num_eq (s1 s2 : pspec T) : bool :=
  match cval s1, cval s2 with
  | Some (a, b), Some (c, d) => n_eqb a c && n_eqb b d
  | _, _ => false
  end.

(** [pscale in [0, 1.]] *)
Definition is_plain (s : pspec T) : bool :=
  num_eq s (PSInt 0) || num_eq s (PSFloat n1).

(** pd_utils.py 98: [kwds.get('pscale', None) or prod_pscale(pscales)]. *)
Definition product_pscale (given : pspec T) (pscales : list (pspec T)) : result (pspec T) :=
  if truthy given then Ok given
  else let! p := prod_pscale pscales None in
       Ok (match p with Some p => spec_of p | None => PSNone end).

(** The integer in a unit set: [list(v)[0]] used in an addition. *)
Definition set_int (v : value T) : result Z :=
  match v with VSet [SEint z] => Ok z | _ => Err TypeError end.

(** pd_utils.py 117-143: repeated marginals are only accepted when all arguments
    have the same keys and the same pattern of counted (unit set) values. *)
Fixpoint dup_scan (args : list (pd T)) (marg_keys cond_keys : option (list string))
    (marg_sets : option (list bool)) : result (option (list bool)) :=
  match args with
  | [] => Ok (match marg_keys with Some _ => marg_sets | None => None end)
  | arg :: args' =>
      let mk := od_keys (p_marg arg) in
      let ck := od_keys (p_cond arg) in
      let mismatch := match marg_keys with
                      | Some m => negb (list_eqb String.eqb m mk)
                      | None => false end in
      if mismatch then Ok None
      else
        let marg_keys' := mk in
        let cmismatch := match cond_keys with
                         | Some c => negb (list_eqb String.eqb c ck)
                         | None => false end in
        if cmismatch then Ok None
        else
          match marg_keys' with
          | [] => dup_scan args' (Some marg_keys') (Some ck) marg_sets
          | _ =>
              let! are := map_res (fun k => let! v := od_getR (p_vals arg) k in
                                            Ok (isunitsetint v)) marg_keys' in
              match marg_sets with
              | None => if existsb (fun b => b) are
                        then dup_scan args' (Some marg_keys') (Some ck) (Some are)
                        else Ok None
              | Some s => if list_eqb Bool.eqb s are
                          then dup_scan args' (Some marg_keys') (Some ck) marg_sets
                          else Ok None
              end
          end
  end.

(** pd_utils.py 182-185: add the counts of counted variables. *)
Fixpoint add_counts (flags : list bool) (keys : list string) (val acc : odict (value T))
  : result (odict (value T)) :=
  match keys, flags with
  | [], _ => Ok acc
  | _ :: _, [] => Err IndexError
  | k :: keys', b :: flags' =>
      if (b : bool) then
        let! a := od_getR acc k in
        let! za := set_int a in
        let! v := od_getR val k in
        let! zv := set_int v in
        add_counts flags' keys' val (od_set acc k (VSet [SEint (za + zv)]))
      else add_counts flags' keys' val acc
  end.

(** pd_utils.py 169-185: values of the fast-tracked product. *)
Definition fast_vals (marg_sets : option (list bool)) (vals : list (odict (value T)))
  : result (odict (value T)) :=
  fold_res (fun acc val =>
              let flags := map (fun kv => isunitsetint (snd kv)) val in
              if negb (existsb (fun b => b) flags) then Ok (od_update acc val)
              else
                match marg_sets with
                | None => Err AssertionError
                | Some ms =>
                    let! _ := assert_ (list_eqb Bool.eqb ms (firstn (length ms) flags)) in
                    match acc with
                    | [] => Ok (od_update acc val)
                    | _ => add_counts flags (od_keys acc) val acc
                    end
                end) vals [].

Definition scalar_of (t : tensor T) : T := get t [].

(** pd_utils.py 190, 281: float(sum(probs)) or float(np.prod(probs)). *)
Definition scalar_prod (ps : pspec T) (probs : list (tensor T)) : tensor T :=
  tscalar (if iscomplex ps then fold_left n_add (map scalar_of probs) n0
           else fold_left n_mul (map scalar_of probs) n1).

(** pd_utils.py 152-155, 159-162. *)
Definition all_same (l : list (list string)) : bool :=
  match l with
  | [] => true
  | n :: l' => forallb (fun m => list_eqb String.eqb n m) l'
  end.

(** pd_utils.py 214-222: values of conditioning variables must agree.  The loop
    looks the *name* up among the keys.  np.allclose(l, m) compares with
    |x - y| <= 1e-8 + 1e-5 |y|; it raises ValueError if the sizes do not broadcast. *)
Definition raveled_value (v : value T) : list T :=
  match v with
  | VNum x => [x]
  | VArr a => to_list a
  | _ => []
  end.

Definition isclose (x y : T) : bool :=
  n_leb (n_abs (n_sub x y))
        (n_add (n_div n1 (n_ofZ 100000000)) (n_mul (n_div n1 (n_ofZ 100000)) (n_abs y))).

Definition allclose (l m : list T) : result bool :=
  if length l =? length m then Ok (list_eqb isclose l m)
  else match l, m with
       | [x], _ => Ok (forallb (isclose x) m)
       | _, [y] => Ok (forallb (fun x => isclose x y) l)
       | _, _ => Err ValueError
       end.

Definition check_conds (cond_names : list (list string)) (cond2marg prod_cond : list string)
    (args : list (pd T)) : result (odict (list T)) :=
  fold_res (fun seen ac =>
              let '(arg, cn) := ac in
              let cond_set := filter (fun c => negb (mem_str c cond2marg)) cn in
              let! _ := assert_ (match cond_set with
                                 | [] => true
                                 | _ => seteq_str prod_cond cond_set end) in
              fold_res (fun seen name =>
                          match od_get (p_vals arg) name with
                          | None => Ok seen
                          | Some v =>
                              match od_get seen name with
                              | None => Ok (od_set seen name (raveled_value v))
                              | Some w =>
                                  let! ok := allclose w (raveled_value v) in
                                  if ok then Ok seen else Err ValueError
                              end
                          end) cond2marg seen)
           (combine args cond_names) [].

(** pd_utils.py 233-244: the first values found for a key. *)
Fixpoint find_values (vals : list (odict (value T))) (key : string) : option (value T) :=
  match vals with
  | [] => None
  | val :: vals' => match od_get val key with
                    | Some v => Some v
                    | None => find_values vals' key
                    end
  end.

Definition collect_vals (vals : list (odict (value T))) (keys : list string)
  : result (odict (value T) * list (bool * bool)) :=
  fold_res (fun acc key =>
              match find_values vals key with
              | None => Err AssertionError
              | Some v =>
                  let us := isunitsetint v in
                  let v' := if us then VSet [SEint 0] else v in
                  Ok (od_set (fst acc) key v', snd acc ++ [(issingleton v', us)])
              end) keys ([], []).

(** pd_utils.py 245-252: counted variables hold the sum of the counts. *)
Definition sum_unitsets (vals : list (odict (value T))) (keys : list string)
    (flags : list (bool * bool)) (pv : odict (value T)) : result (odict (value T)) :=
  fold_res (fun acc (kf : string * (bool * bool)) =>
              if snd (snd kf) then
                fold_res (fun acc val =>
                            match od_get val (fst kf) with
                            | None => Ok acc
                            | Some v =>
                                let! _ := assert_ (isunitsetint v) in
                                let! a := od_getR acc (fst kf) in
                                let! za := set_int a in
                                let! zv := set_int v in
                                Ok (od_set acc (fst kf) (VSet [SEint (za + zv)]))
                            end) vals acc
              else Ok acc) (combine keys flags) pv.

Fixpoint nodup_Z (l : list Z) : bool :=
  match l with [] => true | d :: l' => negb (Zmem d l') && nodup_Z l' end.

(** pd_utils.py 254-258. *)
Definition dims_shared (args : list (pd T)) : bool :=
  existsb (fun arg => negb (nodup_Z (some_dims (p_dims arg)))) args.

Fixpoint str_index (k : string) (l : list string) : option nat :=
  match l with
  | [] => None
  | x :: l' => if String.eqb k x then Some 0
               else match str_index k l' with Some n => Some (S n) | None => None end
  end.

(** pd_utils.py 261-274: variables sharing an axis with an earlier one get no
    axis of their own. *)
Definition share_dims (args : list (pd T)) (keys : list string) (newdims : list bool)
  : result (list bool) :=
  let! r :=
    fold_res (fun st ki =>
      let '(nd, seen) := (st : list bool * list string) in
      let '(i, key) := (ki : nat * string) in
      if nth i nd false && negb (mem_str key seen) then
        fold_res (fun st arg =>
          match od_get (p_dims arg) key with
          | None => Ok st
          | Some dim =>
              fold_res (fun st kd =>
                let '(nd, seen) := (st : list bool * list string) in
                let seen' := fst kd :: seen in
                match snd kd, dim with
                | Some ad, Some d =>
                    if negb (String.eqb (fst kd) key) && Z.eqb d ad then
                      match str_index (fst kd) keys with
                      | Some j => Ok (set_nth j false nd, seen')
                      | None => Err ValueError
                      end
                    else Ok (nd, seen')
                | _, _ => Ok (nd, seen')
                end) (p_dims arg) (fst st, key :: snd st)
          end) args (nd, seen)
      else Ok st) (combine (seq 0 (length keys)) keys) (newdims, []) in
  Ok (fst r).

(** np.cumsum of booleans. *)
Fixpoint cumsum_from (n : nat) (l : list bool) : list nat :=
  match l with
  | [] => []
  | b :: l' => let n' := if b : bool then S n else n in n' :: cumsum_from n' l'
  end.
Definition cumsum (l : list bool) : list nat := cumsum_from 0 l.

(** pd_utils.py 284-299: reshape values and assign axes. *)
Definition place_vals (ndims : nat) (keys : list string) (sing : list bool) (cd : list nat)
    (pv : odict (value T))
  : result (odict (value T) * odict Z * list nat) :=
  fold_res (fun st e =>
              let '(pv, dims, psh) := (st : odict (value T) * odict Z * list nat) in
              let '(key, (s, c)) := (e : string * (bool * nat)) in
              if (s : bool) then Ok st
              else
                let! v := od_getR pv key in
                match v with
                | VArr a =>
                    let dim := (Z.of_nat c - 1)%Z in
                    let! j := py_indexR ndims dim in
                    let rsh := set_nth j (tsize a) (repeat 1 ndims) in
                    let! a' := reshape rsh a in
                    Ok (od_set pv key (VArr a'), od_set dims key dim,
                        set_nth j (tsize a) psh)
                | _ => Err AttributeError
                end)
           (combine keys (combine sing cd)) (pv, [], repeat 1 ndims).

(** Update of a dictionary keyed by integers. *)
Fixpoint zd_set (d : list (Z * Z)) (k v : Z) : list (Z * Z) :=
  match d with
  | [] => [(k, v)]
  | (k', v') :: d' => if Z.eqb k k' then (k', v) :: d' else (k', v') :: zd_set d' k v
  end.

(** pd_utils.py 305-314: old and new axes of a factor. *)
Definition axis_map (dims : odict (option Z)) (prod_dims : odict Z) : result (list (Z * Z)) :=
  fold_res (fun acc kd =>
              match snd kd with
              | None => Ok acc
              | Some d => let! nd := od_getR prod_dims (fst kd) in Ok (zd_set acc d nd)
              end) dims [].

Fixpoint expand_to (k : nat) (t : tensor T) : tensor T :=
  match k with 0 => t | S k' => expand_to k' (expand_last t) end.

Definition Zmaximum (l : list Z) : Z :=
  match l with [] => 0%Z | d :: l' => fold_left Z.max l' d end.

(** pd_utils.py 302-323: axes swapping then reshaping of one factor. *)
Definition align_prob (ndims : nat) (prod_dims : odict Z) (prod_shape : list nat)
    (arg : pd T) (prob : tensor T) : result (tensor T) :=
  if ndim prob =? 0 then Ok prob
  else
    let! am := axis_map (p_dims arg) prod_dims in
    let old := map fst am in
    let new := map snd am in
    let! prob1 :=
      if (1 <? length old) && negb (list_eqb Z.eqb old new) then
        let inc := Z.to_nat (Zmaximum new + 1) in
        moveaxis (expand_to (inc - ndim prob) prob) old new
      else Ok prob in
    let! rsh := fold_res (fun rsh d =>
                  let! j := py_indexR ndims d in
                  Ok (set_nth j (nth j prod_shape 1) rsh)) new (repeat 1 ndims) in
    reshape rsh prob1.

(** pd_utils.py 85-328 (product); [given] is the pscale keyword (PSNone if
    absent).  None is returned for no arguments. *)
Definition product (args : list (pd T)) (given : pspec T) : result (option (pd T)) :=
  match args with
  | [] => Ok None
  | arg0 :: _ =>
      let pscales := map (fun a => spec_of (p_pscale a)) args in
      let! pscale := product_pscale given pscales in
      let sing := map (fun a => match p_issing a with Some true => true | _ => false end) args in
      let maybe_fast0 := forallb (fun b => b) sing
                         && forallb (fun s => num_eq pscale s) pscales
                         && is_plain pscale in
      let vals := map (fun a => p_vals a) args in
      let! probs := map_res (fun a => p_probR a) args in
      let marg_names := map (fun a => od_vals (p_marg a)) args in
      let cond_names := map (fun a => od_vals (p_cond a)) args in
      let all_marg_keys := flat_map (fun a => od_keys (p_marg a)) args in
      let! marg_sets :=
        if nodup_str all_marg_keys then Ok None
        else
          let! ms := dup_scan args None None None in
          match ms with Some s => Ok (Some s) | None => Err AssertionError end in
      let maybe_fast := maybe_fast0 || match marg_sets with Some _ => true | None => false end in
      let same := match marg_sets with
                  | Some _ => true
                  | None => all_same marg_names &&
                            (forallb (fun c => match c with [] => true | _ => false end) cond_names
                             || all_same cond_names)
                  end in
      if maybe_fast && same then
        let name := join "|" [join "," (hd [] marg_names); join "," (hd [] cond_names)] in
        let! pv := fast_vals marg_sets vals in
        match marg_sets with
        | Some _ =>
            let! (prob, ps) := prod_rule probs (Some pscales) None (Some pscale) in
            let! r := make_pd name pv (Some (p_dims arg0)) (Some prob) ps in Ok (Some r)
        | None =>
            let! r := make_pd name pv None (Some (scalar_prod pscale probs)) pscale in
            Ok (Some r)
        end
      else
        let prod_marg := concat marg_names in
        let flat_cond := concat cond_names in
        let cond2marg := filter (fun c => mem_str c prod_marg) flat_cond in
        let prod_cond := filter (fun c => negb (mem_str c cond2marg)) flat_cond in
        let! _ := check_conds cond_names cond2marg prod_cond args in
        let prod_keys := map str2key (prod_marg ++ prod_cond) in
        let cond_name := join "," prod_cond in
        let name := if String.eqb cond_name "" then join "," prod_marg
                    else join "|" [join "," prod_marg; cond_name] in
        let! (pv0, flags) := collect_vals vals prod_keys in
        let! pv1 := sum_unitsets vals prod_keys flags pv0 in
        let prod_sing := map fst flags in
        let newdims0 := map negb prod_sing in
        let! newdims := if dims_shared args then share_dims args prod_keys newdims0
                        else Ok newdims0 in
        let cd := cumsum newdims in
        match cd with
        | [] => Err IndexError
        | _ =>
            let ndims := last cd 0 in
            if maybe_fast && (ndims =? 0) then
              let! r := make_pd name pv1 None (Some (scalar_prod pscale probs)) pscale in
              Ok (Some r)
            else
              let! (pv2, prod_dims, prod_shape) := place_vals ndims prod_keys prod_sing cd pv1 in
              let! probs' := map_res (fun ap => align_prob ndims prod_dims prod_shape (fst ap) (snd ap))
                                     (combine args probs) in
              let! (prob, ps) := prod_rule probs' (Some pscales) None (Some pscale) in
              let! r := make_pd name pv2
                          (Some (map (fun kd => (fst kd, Some (snd kd))) prod_dims))
                          (Some prob) ps in
              Ok (Some r)
        end
  end.

(** pd.py 564-565 (PD.__mul__). *)
Definition mul (p q : pd T) : result (pd T) :=
  let! r := product [p; q] PSNone in
  match r with Some x => Ok x | None => Err TypeError end.

(** *** summate *)

(** A scalar value as a number.  SIMPLIFICATION: strings and float/bool sets
    cannot be concatenated into a numeric array (TypeError). *)
Definition num_of (v : value T) : result T :=
  match v with
  | VNum x => Ok x
  | VArr a => match shape a with [] => Ok (get a []) | _ => Err TypeError end
  | _ => Err TypeError
  end.

(** pd_utils.py 366-376: contribution of one sample to the column of [key]. *)
Inductive column : Type := ColCount (z : Z) | ColList (l : list T).

Definition add_sample (cols : odict column) (arg : pd T) : result (odict column) :=
  fold_res (fun cols kv =>
              match od_get cols (fst kv) with
              | None => Err KeyError
              | Some (ColCount z) =>
                  let! _ := assert_ (isunitsetint (snd kv)) in
                  let! zv := set_int (snd kv) in
                  Ok (od_set cols (fst kv) (ColCount (z + zv)))
              | Some (ColList l) =>
                  let! _ := assert_ (negb (isunitsetint (snd kv))) in
                  let! x := num_of (snd kv) in
                  Ok (od_set cols (fst kv) (ColList (l ++ [x])))
              end) (p_vals arg) cols.

(** pd_utils.py 332-411 (summate).  The second half (nonsingletons) always
    raises: AttributeError from Distribution.singleton as soon as there are two
    arguments with a marginal key, AssertionError (line 401) otherwise. *)
Definition summate (args : list (pd T)) : result (option (pd T)) :=
  match args with
  | [] => Ok None
  | arg0 :: rest =>
      let ps0 := p_pscale arg0 in
      let! _ := assert_ (forallb (fun a => num_eq (spec_of ps0) (spec_of (p_pscale a))) rest) in
      let marg_keys := od_keys (p_marg arg0) in
      let cond_keys := od_keys (p_cond arg0) in
      let! _ := assert_ (forallb (fun a => list_eqb String.eqb marg_keys (od_keys (p_marg a))
                                        && list_eqb String.eqb cond_keys (od_keys (p_cond a))) rest) in
      let sum_keys := marg_keys ++ cond_keys in
      let sum_name := match cond_keys with
                      | [] => join "," marg_keys
                      | _ => (join "," marg_keys ++ "|" ++ join "," cond_keys)%string
                      end in
      if forallb (fun a => match p_issing a with Some true => true | _ => false end) args then
        let! cols0 := fold_res (fun cols k =>
                        let! v := od_getR (p_vals arg0) k in
                        Ok (od_set cols k (if isunitsetint v then ColCount 0 else ColList [])))
                        sum_keys [] in
        let! cols := fold_res add_sample args cols0 in
        let! probs := map_res (fun a => let! t := p_probR a in Ok (scalar_of t)) args in
        let vals := map (fun kc => (fst kc, match snd kc with
                                            | ColCount z => VSet [SEint z]
                                            | ColList l => VArr (of_list n0 l)
                                            end)) cols in
        let dims := map (fun kc => (fst kc, match snd kc with
                                            | ColCount _ => None
                                            | ColList _ => Some 0%Z
                                            end)) cols in
        let! r := make_pd sum_name vals (Some dims) (Some (of_list n0 probs)) (spec_of ps0) in
        Ok (Some r)
      else
        match rest, marg_keys with
        | _ :: _, _ :: _ => Err AttributeError
        | _, _ => Err AssertionError
        end
  end.

(** pd_utils.py 414-421 (ismonotonic); np.unique of an empty array is empty. *)
Fixpoint ge_flags (l : list T) : list bool :=
  match l with
  | x :: (y :: _) as l' => n_leb x y :: ge_flags l'
  | _ => []
  end.

Definition ismonotonic (v : value T) : bool :=
  if issingleton v then true
  else match ge_flags (raveled_value v) with
       | [] => false
       | b :: l => forallb (Bool.eqb b) l
       end.

(** *** serialisation (in memory) *)

(** The dictionary of one serialised distribution.  The reserved keys attrs, prob
    and pscale cannot clash with variables (distribution.py 131-132). *)
Record serial : Type := mkSer {
  ser_vals : odict (value T);
  ser_attrs : odict (option Z);
  ser_prob : option (tensor T);
  ser_pscale : pspec T
}.

(** pd.py 66-72 (short_name). *)
Definition short_name (p : pd T) : string :=
  margcond_str (od_keys (p_marg p)) (od_keys (p_cond p)).

(** pd.py 698-703 with distribution.py 286-290 (serialise). *)
Definition serialise1 (p : pd T) : odict serial :=
  [(short_name p, mkSer (p_vals p) (p_dims p) (p_prob p) (spec_of (p_pscale p)))].

(** pd_utils.py 433-441 (serialise) of PDs. *)
Definition serialise (ps : list (pd T)) : odict serial :=
  fold_left (fun acc p => od_update acc (serialise1 p)) ps [].

(** pd_utils.py 444-460 (deserialise), entries holding probabilities. *)
Definition deserialise1 (name : string) (s : serial) : result (pd T) :=
  make_pd name (ser_vals s) (Some (ser_attrs s)) (ser_prob s) (ser_pscale s).

Definition deserialise (d : odict serial) : result (list (pd T)) :=
  map_res (fun ns => deserialise1 (fst ns) (snd ns)) d.

End PDUtils.
