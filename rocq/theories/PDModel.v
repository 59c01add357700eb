(** Model of /repo/probayes/pd.py. *)
From Coq Require Import String Ascii ZArith Bool Arith List.
From Verif Require Import Base Num Tensor PScales Names Distr.
Import ListNotations.
Local Open Scope bool_scope.

Section PD.
Context {T : Type} {N : Num T} {F : Fmt T}.

(** The state of a PD: the Distribution part (its [d_name] is _name), _marg,
    _cond, _prob and _pscale (pd.py 25-28). *)
Record pd : Type := mkPD {
  p_d : dist T;
  p_marg : odict string;
  p_cond : odict string;
  p_prob : option (tensor T);
  p_pscale : pscale T
}.

Definition p_name (p : pd) := d_name (p_d p).
Definition p_vals (p : pd) := d_vals (p_d p).
Definition p_dims (p : pd) := d_dims (p_d p).
Definition p_shape (p : pd) := d_shape (p_d p).
Definition p_keylist (p : pd) := d_keylist (p_d p).
Definition p_issing (p : pd) := d_issing (p_d p).
Definition p_ndim (p : pd) : nat := match d_ndim (p_d p) with Some n => n | None => 0 end.

(** The items of the dictionary together with _aresingleton (pd.py's
    [enumerate(self._keylist)] loops). *)
Definition p_items (p : pd) : list (string * value T * bool) :=
  combine (p_vals p) (d_aresing (p_d p)).

(** Access to _prob; a PD without probabilities has None there, on which the
    array operations raise (SIMPLIFICATION: AttributeError in all cases). *)
Definition p_probR (p : pd) : result (tensor T) :=
  match p_prob p with Some t => Ok t | None => Err AttributeError end.

(** pd.py 122-132: override name entries of singletons. *)
Definition override_names (items : list (string * value T * bool))
    (mc : odict string * odict string) : result (odict string * odict string) :=
  fold_res (fun mc it =>
              match it with
              | (key, v, true) =>
                  let entry := (key ++ "=" ++ fmt_value v)%string in
                  if od_mem (fst mc) key then Ok (od_set (fst mc) key entry, snd mc)
                  else if od_mem (snd mc) key then Ok (fst mc, od_set (snd mc) key entry)
                  else Err ValueError
              | (_, _, false) => Ok mc
              end) items mc.

(** pd.py 88-102: checks of the prob setter. *)
Definition check_prob (d : dist T) (prob : option (tensor T)) : result unit :=
  match prob with
  | None => Ok tt
  | Some t =>
      match d_issing d with
      | Some true => assert_ (ndim t =? 0)
      | _ =>
          let! _ := assert_ (negb (ndim t =? 0)) in
          let! _ := assert_ (match d_ndim d with Some n => n =? ndim t | None => false end) in
          assert_ (list_eqb Nat.eqb (d_shape d) (shape t))
      end
  end.

(** pd.py 31-45, 60-64, 109-133: the constructor PD(name, vals, dims=, prob=,
    pscale=). *)
Definition make_pd (name : string) (vals : odict (value T))
    (dims : option (odict (option Z))) (prob : option (tensor T)) (ps : pspec T)
  : result pd :=
  let! (marg0, cond0) := str_margcond name in
  let! d := make_dist name vals dims in
  let! (marg, cond) := override_names (combine (d_vals d) (d_aresing d)) (marg0, cond0) in
  let name' := margcond_str (od_vals marg) (od_vals cond) in
  let d' := mkDist name' (d_vals d) (d_dims d) (d_ndim d) (d_sizes d) (d_shape d)
                   (d_size d) (d_aresing d) (d_issing d) in
  let! psc := eval_pscale ps in
  let! _ := check_prob d' prob in
  Ok (mkPD d' marg cond prob psc).

Definition keys_marginal (p : pd) (keys : list string) : result unit :=
  assert_ (forallb (fun k => od_mem (p_marg p) k) keys).

Definition Zmem (d : Z) (l : list Z) : bool := existsb (Z.eqb d) l.
(** set.add *)
Definition set_addZ (l : list Z) (d : Z) : list Z := if Zmem d l then l else l ++ [d].

(** Loop state of marginalise (pd.py 144-149). *)
Record mstate : Type := mkMS {
  m_marg : odict string;
  m_vals : odict (value T);
  m_dims : odict (option Z);
  m_delta : Z;
  m_axes : list Z
}.

(** pd.py 150-160: loop body of marginalise. *)
Definition marginalise_step (p : pd) (keys : list string) (st : mstate)
    (it : string * value T * bool) : result mstate :=
  let '(key, v, sing) := it in
  if mem_str key keys then
    let! _ := assert_ (negb sing) in
    let! dim := od_getR (p_dims p) key in
    match dim with
    | Some d => Ok (mkMS (od_del (m_marg st) key) (m_vals st) (m_dims st)
                         (m_delta st + 1) (set_addZ (m_axes st) d))
    | None => Err TypeError
    end
  else
    let! dims :=
      if sing then Ok (m_dims st)
      else let! dim := od_getR (p_dims p) key in
           match dim with
           | Some d => Ok (od_set (m_dims st) key (Some (d - m_delta st)%Z))
           | None => Err TypeError
           end in
    Ok (mkMS (m_marg st) (od_set (m_vals st) key v) dims (m_delta st) (m_axes st)).

(** np.sum over a set of axes. *)
Definition tsum_axes (t : tensor T) (axes : list Z) : result (tensor T) :=
  reduce n_add n0 t axes.
Definition tsum_keep (t : tensor T) (axes : list Z) : result (tensor T) :=
  reduce_keep n_add n0 t axes.
Definition tsum_all (t : tensor T) : T := reduce_all n_add n0 t.

Definition one_ps : pspec T := PSFloat n1.

(** pd.py 136-165 (marginalise); keys is the set of keys as a list. *)
Definition marginalise (p : pd) (keys : list string) : result pd :=
  let! _ := keys_marginal p keys in
  let! st := fold_res (marginalise_step p keys) (p_items p)
               (mkMS (p_marg p) [] [] 0%Z []) in
  let name := margcond_str (od_vals (m_marg st)) (od_vals (p_cond p)) in
  let! prob0 := p_probR p in
  let! prob := rescale prob0 (spec_of (p_pscale p)) one_ps in
  let! sum_prob := tsum_axes prob (m_axes st) in
  let! prob' := rescale sum_prob one_ps (spec_of (p_pscale p)) in
  make_pd name (m_vals st) (Some (m_dims st)) (Some prob') (spec_of (p_pscale p)).

(** pd.py 168-211 (marginal). *)
Definition marginal (p : pd) (keys : list string) : result pd :=
  let! _ := keys_marginal p keys in
  let! kdims := map_res (fun k => od_getR (p_dims p) k) keys in
  let dims := flat_map (fun o => match o with Some d => [d] | None => [] end) kdims in
  let! _ := map_res (fun key =>
              let! dim := od_getR (p_dims p) key in
              match dim with
              | Some d => assert_ (negb (Zmem d dims) || mem_str key keys)
              | None => Ok tt
              end) (p_keylist p) in
  let margs := filter (fun it => od_mem (p_marg p) (fst (fst it))) (p_items p) in
  let marginalise_keys :=
    map (fun it => fst (fst it))
        (filter (fun it => negb (snd it) && negb (mem_str (fst (fst it)) keys)) margs) in
  let marg_scalars := map (fun it => fst (fst it)) (filter (fun it => snd it) margs) in
  let! _ := assert_ (negb (existsb (fun it => snd it) margs)
                     || subset_str marg_scalars keys) in
  marginalise p marginalise_keys.

(** *** conditionalise *)

Record cstate : Type := mkCS {
  c_marg : odict string;
  c_cond : odict string;
  c_dims : odict (option Z);
  c_delta : Z;
  c_norm : bool
}.

(** pd.py 229-246: first loop of conditionalise.  (marg_scalars of lines 237-238
    is never filled because that branch is only reached by nonsingletons.) *)
Definition cond_step (p : pd) (keys : list string) (st : cstate)
    (it : string * value T * bool) : result cstate :=
  let '(key, v, sing) := it in
  let! (marg, cond) :=
    if mem_str key keys then
      let! entry := od_getR (c_marg st) key in
      Ok (od_del (c_marg st) key, od_set (c_cond st) key entry)
    else Ok (c_marg st, c_cond st) in
  if sing then
    Ok (mkCS marg cond (od_set (c_dims st) key None) (c_delta st)
             (c_norm st || mem_str key keys))
  else
    let! dim := od_getR (p_dims p) key in
    match dim with
    | None => Err TypeError
    | Some d =>
        if od_mem (p_marg p) key then
          if mem_str key keys
          then Ok (mkCS marg cond (c_dims st) (c_delta st + 1) (c_norm st))
          else Ok (mkCS marg cond (od_set (c_dims st) key (Some d)) (c_delta st) (c_norm st))
        else Ok (mkCS marg cond (od_set (c_dims st) key (Some (d - c_delta st)%Z))
                      (c_delta st) (c_norm st))
    end.

Definition some_dims (dims : odict (option Z)) : list Z :=
  flat_map (fun kd => match snd kd with Some d => [d] | None => [] end) dims.

Definition zmin_list (l : list Z) (d : Z) : Z := fold_left Z.min l d.

(** pd.py 248-257: shift the remaining dims down; returns dims and dim_max. *)
Definition lower_dims (dims : odict (option Z)) : odict (option Z) * Z :=
  match some_dims dims with
  | [] => (dims, 0%Z)
  | d0 :: ds =>
      let dim_min := zmin_list ds d0 in
      let dims' := map (fun kd => (fst kd, match snd kd with
                                           | Some d => Some (d - dim_min)%Z
                                           | None => None end)) dims in
      (dims', fold_left Z.max (some_dims dims') 0%Z)
  end.

(** pd.py 258-266: place the keys after the remaining dims. *)
Definition append_key_dims (p : pd) (keys : list string) (dims : odict (option Z))
    (dim_max : Z) : result (odict (option Z)) :=
  let! kd := map_res (fun k => let! d := od_getR (p_dims p) k in Ok (k, d)) keys in
  let dim_min := zmin_list (some_dims kd) (Z.of_nat (p_ndim p)) in
  Ok (fold_left (fun acc e => match snd e with
                              | Some d => od_set acc (fst e) (Some (d - dim_min + dim_max + 1)%Z)
                              | None => acc
                              end) kd dims).

(** pd.py 275-284: old and new dims and the axes to sum over. *)
Definition cond_axes (p : pd) (keys : list string) (dims : odict (option Z))
  : result (list Z * list Z * list Z) :=
  fold_res (fun acc key =>
              let '(old, new, sum) := acc in
              let! od := od_getR (p_dims p) key in
              match od with
              | None => Ok acc
              | Some o =>
                  if Zmem o old then Ok acc
                  else
                    let! nd := od_getR dims key in
                    match nd with
                    | None => Err TypeError
                    | Some n =>
                        Ok (old ++ [o], new ++ [n],
                            if negb (mem_str key keys) && od_mem (p_marg p) key
                            then set_addZ sum n else sum)
                    end
              end) (p_keylist p) ([], [], []).

(** prob.max(): ValueError on an empty array. *)
Definition tmax (t : tensor T) : result T :=
  match to_list t with
  | [] => Err ValueError
  | x :: l => Ok (fold_left n_max l x)
  end.

(** pd.py 214-295 (conditionalise); keys lists the set of keys in the order in
    which Python iterates over it. *)
Definition conditionalise (p : pd) (keys : list string) : result pd :=
  let! _ := keys_marginal p keys in
  let! st := fold_res (cond_step p keys) (p_items p)
               (mkCS (p_marg p) (p_cond p) [] 0%Z false) in
  let (dims1, dim_max) := lower_dims (c_dims st) in
  let! dims := append_key_dims p keys dims1 dim_max in
  let name := margcond_str (od_vals (c_marg st)) (od_vals (c_cond st)) in
  let! dvals := redim (p_d p) dims in
  let! (old_dims, new_dims, sum_axes) := cond_axes p keys dims in
  let! prob0 := p_probR p in
  let! prob1 := moveaxis prob0 old_dims new_dims in
  let! prob2 := if c_norm st && is_log (p_pscale p)
                then let! m := tmax prob1 in Ok (tmap (fun x => n_sub x m) prob1)
                else Ok prob1 in
  let! prob3 := rescale prob2 (spec_of (p_pscale p)) one_ps in
  let! prob4 := if c_norm st
                then div_prob prob3 (tscalar (tsum_all prob3)) None PSNone
                else Ok prob3 in
  let! prob5 := match sum_axes with
                | [] => Ok prob4
                | _ => let! s := tsum_keep prob4 sum_axes in div_prob prob4 s None PSNone
                end in
  let! prob6 := rescale prob5 one_ps (spec_of (p_pscale p)) in
  make_pd name (d_vals dvals) (Some dims) (Some prob6) (spec_of (p_pscale p)).

(** pd.py 298-317 (PD.redim): for a PD with nonsingletons, line 312 reads the
    attribute _aresingletons, which does not exist. *)
Definition pd_redim (p : pd) (dims : odict (option Z)) : result pd :=
  let! d := redim (p_d p) dims in
  match p_issing p, p_keylist p with
  | Some true, _ | None, [] =>
      make_pd (p_name p) (d_vals d) (Some (d_dims d)) (p_prob p) (spec_of (p_pscale p))
  | _, _ => Err AttributeError
  end.

(** pd.py 320-329 (PD.rekey). *)
Definition pd_rekey (p : pd) (keymap : odict string) : result pd :=
  let! d := rekey (p_d p) keymap in
  let! marg := rekey_dict (p_marg p) keymap in
  let! cond := rekey_dict (p_cond p) keymap in
  let name := margcond_str (od_vals marg) (od_vals cond) in
  make_pd name (d_vals d) (Some (d_dims d)) (p_prob p) (spec_of (p_pscale p)).

(** *** prod *)

(** pd.py 346-358: loop body of prod. *)
Definition prod_step (p : pd) (keys : list string) (st : mstate)
    (it : string * value T * bool) : result mstate :=
  let '(key, v, sing) := it in
  if mem_str key keys then
    let! _ := assert_ (negb sing) in
    let! dim := od_getR (p_dims p) key in
    match dim, v with
    | Some d, VArr a =>
        Ok (mkMS (od_set (m_marg st) key (key ++ "={}")%string)
                 (od_set (m_vals st) key (VSet [SEint (Z.of_nat (tsize a))]))
                 (m_dims st)
                 (if Zmem d (m_axes st) then m_delta st else m_delta st + 1)%Z
                 (set_addZ (m_axes st) d))
    | _, _ => Err TypeError
    end
  else
    let! dims :=
      if sing then Ok (m_dims st)
      else let! dim := od_getR (p_dims p) key in
           match dim with
           | Some d => Ok (od_set (m_dims st) key (Some (d - m_delta st)%Z))
           | None => Err TypeError
           end in
    Ok (mkMS (m_marg st) (od_set (m_vals st) key v) dims (m_delta st) (m_axes st)).

(** pd.py 360-367: the scale of the product. *)
Definition prod_scale (ps : pscale T) (n : nat) : pscale T :=
  match ps with
  | Log re im =>
      if n_eqb re n0 && n_eqb im n0 then ps
      else if n_eqb re n1 && n_eqb im n0 then ps
      else Log (n_add re (n_mul re (n_ofZ (Z.of_nat n))))
               (n_add im (n_mul im (n_ofZ (Z.of_nat n))))
  | Lin c =>
      if n_eqb c n0 || n_eqb c n1 then ps else Lin (n_mul c (n_pow c n))
  end.

(** pd.py 332-370 (PD.prod). *)
Definition pd_prod (p : pd) (keys : list string) : result pd :=
  let! _ := keys_marginal p keys in
  let! st := fold_res (prod_step p keys) (p_items p)
               (mkMS (p_marg p) [] [] 0%Z []) in
  let name := margcond_str (od_vals (m_marg st)) (od_vals (p_cond p)) in
  let! axes := map_res (fun d => py_indexR (length (p_shape p)) d) (m_axes st) in
  let scaling := prod_list (map (fun d => nth d (p_shape p) 0) axes) in
  let psp := prod_scale (p_pscale p) scaling in
  let! prob0 := p_probR p in
  let! prob := if is_log (p_pscale p) then reduce n_add n0 prob0 (m_axes st)
               else reduce n_mul n1 prob0 (m_axes st) in
  make_pd name (m_vals st) (Some (m_dims st)) (Some prob) (spec_of psp).

(** *** expectation *)

Definition pow_value (v : value T) (e : option nat) : result (value T) :=
  match e with
  | None | Some 0 => Ok v
  | Some n => match v with
              | VNum x => Ok (VNum (n_pow x n))
              | VArr a => Ok (VArr (tmap (fun x => n_pow x n) a))
              | _ => Err TypeError
              end
  end.

(** pd.py 373-405 (expectation).  keys = [] stands for None.  SIMPLIFICATION:
    exponents are natural numbers. *)
Definition expectation (p : pd) (keys0 : list string) (exponent : option nat)
  : result (odict (value T)) :=
  let keys := match keys0 with [] => od_keys (p_marg p) | _ => keys0 end in
  let! _ := keys_marginal p keys in
  let! kdims := map_res (fun k => od_getR (p_dims p) k)
                        (filter (fun k => mem_str k keys) (p_keylist p)) in
  let sum_axes := fold_left set_addZ
                    (flat_map (fun o => match o with Some d => [d] | None => [] end) kdims) [] in
  let! prob0 := p_probR p in
  let! prob := rescale prob0 (spec_of (p_pscale p)) one_ps in
  let! sum_prob := match sum_axes with
                   | [] => Ok (tscalar (tsum_all prob))
                   | _ => tsum_axes prob sum_axes
                   end in
  fold_res (fun vals it =>
              let '(key, v, sing) := it in
              if mem_str key keys then
                let! val := pow_value v exponent in
                if (sing : bool) then Ok (od_set vals key val)
                else match val with
                     | VArr a =>
                         let! pv := tbin n_mul prob a in
                         let! num := tsum_axes pv sum_axes in
                         let! e := div_prob num sum_prob None PSNone in
                         Ok (od_set vals key (VArr e))
                     | _ => Err TypeError
                     end
              else if od_mem (p_cond p) key then Ok (od_set vals key v)
              else Ok vals) (p_items p) [].

(** *** sorted *)

(** Indexing one axis with an integer array, full slices elsewhere. *)
Definition take_axis {A} (t : tensor A) (d : nat) (ix : list nat) : tensor A :=
  mkT (set_nth d (length ix) (shape t))
      (fun idx => get t (set_nth d (nth (nth d idx 0) ix 0) idx)).

(** pd.py 464-493 (sorted).  [ix] is the outcome of np.argsort, whose order among
    ties is unspecified. *)
Definition sorted (p : pd) (key : string) (ix : list nat) : result pd :=
  let! dim := od_getR (p_dims p) key in
  match dim with
  | None => make_pd (p_name p) (p_vals p) (Some (p_dims p)) (p_prob p) (spec_of (p_pscale p))
  | Some dz =>
      let! d := py_indexR (length (p_shape p)) dz in
      let! prob := p_probR p in
      let prob' := take_axis prob d ix in
      let! vals := map_res (fun kv =>
                     let! dk := od_getR (p_dims p) (fst kv) in
                     match dk with
                     | Some dz' =>
                         if Z.eqb dz' dz
                         then match snd kv with
                              | VArr a => Ok (fst kv, VArr (take_axis (traveled a) 0 ix))
                              | _ => Err TypeError
                              end
                         else Ok kv
                     | None => Ok kv
                     end) (p_vals p) in
      make_pd (p_name p) vals (Some (p_dims p)) (Some prob') (spec_of (p_pscale p))
  end.

(** pd.py 496-499 (rescaled). *)
Definition rescaled (p : pd) (ps : pspec T) : result pd :=
  let! prob0 := p_probR p in
  let! prob := rescale prob0 (spec_of (p_pscale p)) ps in
  make_pd (p_name p) (p_vals p) (Some (p_dims p)) (Some prob) ps.

(** *** slicing *)

(** One entry of the index tuple built by __call__. *)
Inductive indexer : Type :=
| IxFull                    (* slice(None) *)
| IxNone                    (* slice(0, 0) *)
| IxInt (i : nat)
| IxArr (l : list nat).

(** a[tuple(indexers)] when no integer array is among the indexers. *)
Fixpoint basic_shape (ixs : list indexer) (sh : list nat) : list nat :=
  match ixs, sh with
  | IxInt _ :: ixs', _ :: sh' => basic_shape ixs' sh'
  | IxNone :: ixs', _ :: sh' => 0 :: basic_shape ixs' sh'
  | _ :: ixs', n :: sh' => n :: basic_shape ixs' sh'
  | [], _ => sh
  | _, [] => []
  end.

Fixpoint basic_idx (ixs : list indexer) (idx : list nat) : list nat :=
  match ixs with
  | IxInt i :: ixs' => i :: basic_idx ixs' idx
  | _ :: ixs' => match idx with
                 | i :: idx' => i :: basic_idx ixs' idx'
                 | [] => []
                 end
  | [] => idx
  end.

Definition is_arr (ix : indexer) : bool := match ix with IxArr _ => true | _ => false end.
Definition is_adv (ix : indexer) : bool :=
  match ix with IxArr _ | IxInt _ => true | _ => false end.

(** Common length of the advanced indices (length-one ones stretch);
    None: they do not broadcast. *)
Definition adv_length (ixs : list indexer) : option nat :=
  fold_left (fun acc ix => match acc with
                           | None => None
                           | Some n =>
                               match ix with
                               | IxArr l => if length l =? n then Some n
                                            else if n =? 1 then Some (length l)
                                            else if length l =? 1 then Some n else None
                               | _ => Some n
                               end
                           end) ixs (Some 1).

(** Whether the advanced indices occupy consecutive positions. *)
Definition adv_run_ended (ixs : list indexer) : bool :=   (* no further advanced index *)
  negb (existsb is_adv ixs).
Fixpoint adv_contig_in (ixs : list indexer) : bool :=
  match ixs with
  | [] => true
  | ix :: ixs' => if is_adv ix then adv_contig_in ixs' else adv_run_ended ixs'
  end.
Fixpoint adv_contig (ixs : list indexer) : bool :=
  match ixs with
  | [] => true
  | ix :: ixs' => if is_adv ix then adv_contig_in ixs' else adv_contig ixs'
  end.

Fixpoint first_adv (ixs : list indexer) : nat :=
  match ixs with
  | [] => 0
  | ix :: ixs' => if is_adv ix then 0 else S (first_adv ixs')
  end.

Definition adv_pos (n k : nat) (ix : indexer) : nat :=
  match ix with
  | IxArr l => nth (if length l =? 1 then 0 else k) l 0
  | IxInt i => i
  | _ => 0
  end.

(** Sizes kept by the non-advanced entries. *)
Fixpoint slice_shape (ixs : list indexer) (sh : list nat) : list nat :=
  match ixs, sh with
  | IxFull :: ixs', n :: sh' => n :: slice_shape ixs' sh'
  | IxNone :: ixs', _ :: sh' => 0 :: slice_shape ixs' sh'
  | _ :: ixs', _ :: sh' => slice_shape ixs' sh'
  | _, _ => []
  end.

(** Index into the source from the position k of the advanced axis and the
    positions of the sliced axes. *)
Fixpoint adv_idx (n k : nat) (ixs : list indexer) (rest : list nat) : list nat :=
  match ixs with
  | [] => []
  | ix :: ixs' =>
      if is_adv ix then adv_pos n k ix :: adv_idx n k ixs' rest
      else match rest with
           | i :: rest' => i :: adv_idx n k ixs' rest'
           | [] => []
           end
  end.

(** numpy indexing with a tuple of full/empty slices, integers and integer
    arrays, one per axis: with at least one array the integers are advanced too;
    the advanced axes are merged into one, placed at the first of them when they
    are consecutive and in front otherwise. *)
Definition np_index {A} (t : tensor A) (ixs : list indexer) : result (tensor A) :=
  if existsb is_arr ixs then
    match adv_length ixs with
    | None => Err IndexError
    | Some n =>
        let pos := if adv_contig ixs then first_adv ixs else 0 in
        Ok (mkT (insert_nth pos n (slice_shape ixs (shape t)))
                (fun idx => get t (adv_idx n (nth pos idx 0) ixs
                                           (firstn pos idx ++ skipn (S pos) idx))))
    end
  else Ok (mkT (basic_shape ixs (shape t)) (fun idx => get t (basic_idx ixs idx))).

(** Positions of the entries equal to x: np.nonzero(np.ravel(a) == x)[0]. *)
Definition matches (a : tensor T) (x : T) : list nat :=
  filter (fun k => n_eqb (nth k (to_list a) n0) x) (seq 0 (tsize a)).

(** self[key][ix]: integer array indexing on the first axis. *)
Definition take_first (v : value T) (ix : list nat) : result (value T) :=
  match v with
  | VArr a =>
      match shape a with
      | n :: _ => if forallb (fun i => i <? n) ix then Ok (VArr (take_axis a 0 ix))
                  else Err IndexError
      | [] => Err IndexError
      end
  | _ => Err TypeError
  end.

Record kstate : Type := mkKS {
  k_marg : odict string;
  k_cond : odict string;
  k_dims : odict (option Z);
  k_vals : odict (value T);
  k_slices : list indexer;
  k_delta : Z
}.

(** pd.py 522-558: loop body of __call__.  values maps keys to scalars.
    SIMPLIFICATION: [update_key] of lines 552-556 only ever updates [key]. *)
Definition call_step (p : pd) (values : odict T) (keepdims : bool) (st : kstate)
    (it : string * value T * bool) : result kstate :=
  let '(key, v, sing) := it in
  if (sing : bool) then Ok st
  else
    let! dim := od_getR (p_dims p) key in
    match dim with
    | None => Err TypeError
    | Some dz =>
        match od_get values key with
        | Some x =>
            match v with
            | VArr a =>
                let ms := matches a x in
                let! i := py_indexR (p_ndim p) dz in
                let rename (s : string) (st' : kstate) :=
                  let entry := (key ++ "=" ++ s)%string in
                  if od_mem (k_marg st') key
                  then mkKS (od_set (k_marg st') key entry) (k_cond st') (k_dims st')
                            (k_vals st') (k_slices st') (k_delta st')
                  else if od_mem (k_cond st') key
                  then mkKS (k_marg st') (od_set (k_cond st') key entry) (k_dims st')
                            (k_vals st') (k_slices st') (k_delta st')
                  else st' in
                match ms with
                | [] =>
                    Ok (rename (fmt x)
                         (mkKS (k_marg st) (k_cond st) (k_dims st)
                            (od_set (k_vals st) key (VArr (of_list n0 [])))
                            (set_nth i IxNone (k_slices st)) (k_delta st)))
                | [m] =>
                    if keepdims then
                      let! v' := take_first v ms in
                      let! vals := fold_res (fun vals kv =>
                                     let! dk := od_getR (p_dims p) (fst kv) in
                                     match dk with
                                     | Some dz' =>
                                         if Z.eqb dz dz' && negb (od_mem values (fst kv))
                                         then let! w := take_first (snd kv) ms in
                                              Ok (od_set vals (fst kv) w)
                                         else Ok vals
                                     | None => Ok vals
                                     end) (p_vals p) (od_set (k_vals st) key v') in
                      Ok (rename "[]"%string
                           (mkKS (k_marg st) (k_cond st) (k_dims st) vals
                              (set_nth i (IxArr ms) (k_slices st)) (k_delta st)))
                    else
                      Ok (rename (fmt x)
                           (mkKS (k_marg st) (k_cond st) (od_set (k_dims st) key None)
                              (od_set (k_vals st) key (VNum x))
                              (set_nth i (IxInt m) (k_slices st)) (k_delta st + 1)%Z))
                | _ =>
                    let! v' := take_first v ms in
                    let! vals := fold_res (fun vals kv =>
                                   let! dk := od_getR (p_dims p) (fst kv) in
                                   match dk with
                                   | Some dz' =>
                                       if Z.eqb dz dz' && negb (od_mem values (fst kv))
                                       then let! w := take_first (snd kv) ms in
                                            Ok (od_set vals (fst kv) w)
                                       else Ok vals
                                   | None => Ok vals
                                   end) (p_vals p) (od_set (k_vals st) key v') in
                    Ok (rename "[]"%string
                         (mkKS (k_marg st) (k_cond st) (k_dims st) vals
                            (set_nth i (IxArr ms) (k_slices st)) (k_delta st)))
                end
            | _ => Err TypeError
            end
        | None =>
            Ok (mkKS (k_marg st) (k_cond st)
                     (od_set (k_dims st) key (Some (dz - k_delta st)%Z))
                     (k_vals st) (k_slices st) (k_delta st))
        end
    end.

(** pd.py 502-561 (__call__) with a dictionary of scalars.  An unrecognised key
    reaches [keys()] in the message of line 515, a TypeError. *)
Definition call (p : pd) (values : odict T) (keepdims : bool) : result pd :=
  if negb (subset_str (od_keys values) (p_keylist p)) then Err TypeError
  else
    let! st := fold_res (call_step p values keepdims) (p_items p)
                 (mkKS (p_marg p) (p_cond p) (p_dims p) (p_vals p)
                       (repeat IxFull (p_ndim p)) 0%Z) in
    let name := margcond_str (od_vals (k_marg st)) (od_vals (k_cond st)) in
    let! prob0 := p_probR p in
    let! prob := np_index prob0 (k_slices st) in
    make_pd name (k_vals st) (Some (k_dims st)) (Some prob) (spec_of (p_pscale p)).

(** *** division *)

(** pd.py 598-604: loop body of __truediv__. *)
Definition div_step (p q : pd) (divs : bool)
    (st : odict string * odict string * odict (value T) * list nat)
    (it : string * value T * bool)
  : result (odict string * odict string * odict (value T) * list nat) :=
  let '(marg, cond, vals, rsh) := st in
  let '(key, v, sing) := it in
  if od_mem (p_marg q) key then
    let! entry := od_getR marg key in
    let! rsh' :=
      if negb sing && negb divs then
        let! dim := od_getR (p_dims p) key in
        match dim, od_get (p_vals q) key with
        | Some dz, Some (VArr b) =>
            let! i := py_indexR (length rsh) dz in Ok (set_nth i (tsize b) rsh)
        | _, None => Err KeyError
        | _, _ => Err AttributeError
        end
      else Ok rsh in
    Ok (od_del marg key, od_set cond key entry, vals, rsh')
  else Ok (marg, cond, od_set vals key v, rsh).

(** pd.py 572-615 (__truediv__). *)
Definition truediv (p q : pd) : result pd :=
  let! _ := assert_ (seteq_str (od_keys (p_cond p)) (od_keys (p_cond q))) in
  let divs := match p_issing q with Some true => true | _ => false end in
  let marg_scalars := map (fun it => fst (fst it))
        (filter (fun it => snd it && od_mem (p_marg p) (fst (fst it))) (p_items p)) in
  let! _ := assert_ (negb divs || seteq_str marg_scalars (od_keys (p_marg q))) in
  let! (marg, cond, vals, rsh) :=
    fold_res (div_step p q divs) (p_items p)
      (p_marg p, p_cond p,
       map (fun kv => (fst kv, VStr (snd kv))) (p_cond p), repeat 1 (p_ndim p)) in
  let vals' := fold_left (fun acc kv => if od_mem (p_marg q) (fst kv)
                                        then od_set acc (fst kv) (snd kv) else acc)
                         (p_vals p) vals in
  let name := margcond_str (od_vals marg) (od_vals cond) in
  let! probp := p_probR p in
  let! probq := p_probR q in
  let! divp := if divs then Ok probq else reshape rsh probq in
  let! prob := div_prob probp divp (Some (spec_of (p_pscale p), spec_of (p_pscale q))) PSNone in
  make_pd name vals' (Some (p_dims p)) (Some prob) (spec_of (p_pscale p)).

(** *** remarginalise *)

Fixpoint nondecr (l : list T) : bool :=
  match l with
  | x :: (y :: _) as l' => n_leb x y && nondecr l'
  | _ => true
  end.

Fixpoint nonincr (l : list T) : bool :=
  match l with
  | x :: (y :: _) as l' => n_leb y x && nonincr l'
  | _ => true
  end.

Definition count (f : T -> bool) (l : list T) : nat := length (filter f l).

(** np.digitize(x, bins) (right=False): for non-decreasing bins the number of
    bins <= x, for non-increasing bins the number of bins > x. *)
Definition digitize (bins : list T) (x : T) : result nat :=
  if nondecr bins then Ok (count (fun b => n_leb b x) bins)
  else if nonincr bins then Ok (count (fun b => n_ltb x b) bins)
  else Err ValueError.

(** pd.py 655-658: index of the cell for each value. *)
Definition cell_index (edges : list T) (x : T) : result nat :=
  let! k := digitize edges x in
  Ok (Nat.min (length edges - 1) (k - 1)).

(** rem_prob[idx] += x *)
Definition tadd_at (t : tensor T) (idx : list nat) (x : T) : tensor T :=
  mkT (shape t) (fun j => if list_eqb Nat.eqb j idx then n_add (get t j) x else get t j).

(** pd.py 651-658: for every axis of the target, the cell of every source
    position.  SIMPLIFICATION: an axis to which no variable of the target belongs has no
    cells; the code leaves uninitialised numbers there. *)
Definition remarg_indices (d : dist T) (vals : odict (tensor T)) (size : nat)
  : result (list (list nat)) :=
  fold_res (fun indices kd =>
              match snd kd with
              | None => Ok indices
              | Some dz =>
                  match od_get (d_vals d) (fst kd), od_get vals (fst kd) with
                  | Some (VArr e), Some v =>
                      let! l := map_res (cell_index (to_list e)) (to_list v) in
                      let! i := py_indexR (length indices) dz in
                      Ok (set_nth i l indices)
                  | _, None => Err KeyError
                  | _, _ => Err TypeError
                  end
              end) (d_dims d) (repeat [] (length (d_shape d))).

(** pd.py 670-680: the name of the result.  Line 680 appends the conditional part
    without the '|' separator. *)
Definition remarg_name (d : dist T) (selfname : string) : string :=
  let m := join "," (map (fun kv => match snd kv with
                                    | VNum x => (fst kv ++ "=" ++ fmt x)%string
                                    | VStr s => (fst kv ++ "=" ++ s)%string
                                    | _ => (fst kv ++ "=[]")%string
                                    end) (d_vals d)) in
  if has_char "|" selfname
  then (m ++ nth 1 (split_char "|" selfname) "")%string else m.

(** pd.py 645: np.all(np.array(val.shape) == np.array(self.shape)), which broadcasts:
    one of them may have a single axis, or none (nothing to compare). *)
Definition shapes_agree (s1 s2 : list nat) : bool :=
  match s1, s2 with
  | [n], _ => forallb (Nat.eqb n) s2
  | _, [n] => forallb (Nat.eqb n) s1
  | _, _ => list_eqb Nat.eqb s1 s2
  end.

(** pd.py 618-689 (remarginalise) with the dictionary of target values.  Line 664 reads
    the cell of every source position on every axis: IndexError where there is none. *)
Definition remarginalise (p : pd) (d : dist T) (vals : odict (tensor T)) : result pd :=
  let! _ := assert_ (match p_issing p with Some true => false | _ => true end) in
  let! _ := map_res (fun kv =>
              let! dim := od_getR (d_dims d) (fst kv) in
              match dim with
              | Some _ =>
                  let! _ := assert_ (shapes_agree (shape (snd kv)) (p_shape p)) in
                  assert_ (od_mem (d_vals d) (fst kv))
              | None => Ok tt
              end) vals in
  let! prob0 := p_probR p in
  let! indices := remarg_indices d vals (tsize prob0) in
  let! prob1 := rescale prob0 (spec_of (p_pscale p)) one_ps in
  let rav := to_list prob1 in
  let! _ := if forallb (fun l => length rav <=? length l) indices then Ok tt else Err IndexError in
  let rem := fold_left (fun acc ix =>
               tadd_at acc (map (fun l => nth (fst ix) l 0) indices) (snd ix))
               (combine (seq 0 (length rav)) rav) (mkT (d_shape d) (fun _ => n0)) in
  let name := remarg_name d (p_name p) in
  let! vd := fold_res (fun acc key =>
               let! v := od_getR (p_vals p) key in
               let! dim := od_getR (p_dims p) key in
               Ok (od_set (fst acc) key v, od_set (snd acc) key dim))
               (od_keys (p_cond p)) (d_vals d, d_dims d) in
  let! prob := rescale rem one_ps (spec_of (p_pscale p)) in
  make_pd name (fst vd) (Some (snd vd)) (Some prob) (spec_of (p_pscale p)).

End PD.

Arguments pd T : clear implicits.
