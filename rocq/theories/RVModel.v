(** Model of probayes/rv.py, probayes/rv_utils.py and the parts of
    probayes/prob.py and probayes/sympy_prob.py that random variables use. *)
From Coq Require Import String Ascii ZArith QArith Reals Bool Arith List.
From Verif Require Import Base Num Tensor PScales Names Distr PDModel Likelihoods VariableModel.
Import ListNotations.
Local Open Scope nat_scope.
Local Open Scope bool_scope.
Set Implicit Arguments.

Section RVs.
Context {T : Type} {N : Num T} {F : Fmt T} {TR : Trunc T}.

(** ** Probabilities *)

(** What set_prob accepts: nothing, a scalar, a list or array, a function of the
    value.  scipy and sympy distributions are not modelled. *)
Inductive probarg : Type :=
| PANone | PAScalar (x : T) | PAArray (l : list T) | PAFun (f : T -> T).

(** The probability a random variable holds: a scalar (uniform over the set),
    sympy_prob.py 70-79's Bernoulli expression, an array or a function. *)
Inductive rprob : Type :=
| RPScalar (p : T) | RPBern (bias : T) | RPArray (l : list T) | RPFun (f : T -> T).

(** A transition: a scalar, one matrix, a pair of matrices (forward, reverse), a
    function of predecessor and successor, or a pair of them. *)
Inductive rtran : Type :=
| TRNone
| TRScalar (p : T)
| TRMat (m : tensor T)
| TRMats (fwd rev : tensor T)
| TRFun (f : T -> T -> T)
| TRFuns (fwd rev : T -> T -> T).

(** Conditional CDF and inverse CDF, functions of predecessor and successor; the
    CDF may be evaluated at infinite limits. *)
Record tfun : Type := mkTfun { tf_cdf : T -> atom T -> T; tf_icdf : T -> T -> T }.

Record rv : Type := mkRV {
  rv_name : string;
  rv_state : vstate T;
  rv_pscale : pscale T;
  rv_prob : rprob;
  rv_tran : rtran;
  rv_tfun : option tfun;
  rv_def : bool                 (* the probability is the default one *)
}.

(** bool(pscale) *)
Definition ps_true (s : pspec T) : bool :=
  match s with
  | PSNone => false
  | PSInt z => negb (Z.eqb z 0)
  | PSFloat x => negb (n_eqb x n0)
  | PSCplx re im => negb (n_eqb re n0 && n_eqb im n0)
  | PSStr s => negb (String.eqb s "")
  | PSOther => true
  end.

(** prob.py 133-134: pscale or self._pscale, evaluated. *)
Definition new_pscale (given old : pspec T) : result (pscale T) :=
  eval_pscale (if ps_true given then given else old).

(** variable.py 332, 342: _nlhv, minus the log of the length; minus infinity is
    represented by the constant the code uses for it. *)
Definition nlhv (s : vstate T) : result (option T) :=
  let! len := vlength s None in
  Ok (match len with Some v => Some (n_opp (log_prob1 (as_num v))) | None => None end).

(** rv.py 155-166, _default_prob without ufun: the scalar probability. *)
Definition default_prob (s : vstate T) (ps : pscale T) : result T :=
  let! h := nlhv s in
  match h with
  | Some h => let! t := rescale (tscalar h) (PSStr "log") (spec_of ps) in Ok (get t [])
  | None => Ok (if is_log ps then nni else n0)
  end.

(** np.isclose(prob, 0.5) *)
Definition half : T := n_div n1 (n_ofZ 2).
Definition close_half (p : T) : bool :=
  n_leb (n_abs (n_sub p half))
        (n_add (n_div n1 (n_ofZ 100000000)) (n_mul (n_div n1 (n_ofZ 100000)) half)).

Definition is_bool (s : vstate T) : bool := match vs_vtype s with Some VBool => true | _ => false end.
Definition is_float (s : vstate T) : bool := match vs_vtype s with Some VFloat => true | _ => false end.

(** rv.py 147-152: scalar probabilities of bool variables other than 0.5 become
    a Bernoulli expression, whatever the scale. *)
Definition bernoullise (s : vstate T) (p : rprob) : rprob :=
  match p with
  | RPScalar x => if is_bool s && negb (close_half x) then RPBern x else p
  | _ => p
  end.

(** rv.py 119-152, set_prob on a variable whose previous scale is old. *)
Definition rv_set_prob (nm : string) (s : vstate T) (old given : pspec T) (tran : rtran) (tf : option tfun)
    (prob : probarg) : result rv :=
  let! ps := new_pscale given old in
  let! (p, tr, def) :=
    match prob with
    | PANone => let! x := default_prob s ps in Ok (RPScalar x, TRScalar x, true)
    | PAScalar x => Ok (RPScalar x, tran, false)
    | PAArray l =>
        match vs_vset s with
        | Some vs => let! _ := assert_ (length l =? length vs) in Ok (RPArray l, tran, false)
        | None => Ok (RPArray l, tran, false)
        end
    | PAFun f => Ok (RPFun f, tran, false)
    end in
  Ok (mkRV nm s ps (bernoullise s p) tr tf def).

(** rv.py 57-77, RV(name, vset, vtype, prob, pscale=given): vtype and vset are
    passed on in the order vtype, vset to a constructor that expects vset, vtype.
    Prob.__init__ starts with no scale.  The transition set_prob may have set is
    discarded in line 77. *)
Definition make_rv (name : string) (vset vtype : arg T) (prob : probarg) (given : pspec T) : result rv :=
  let! (nm, s) := make_variable (Some name) vtype vset in
  let! v := rv_set_prob nm s PSNone given TRNone None prob in
  Ok (mkRV nm s (rv_pscale v) (rv_prob v) TRNone None (rv_def v)).

(** rv.py 121-152: set_prob on a random variable. *)
Definition rv_reset_prob (v : rv) (given : pspec T) (prob : probarg) : result rv :=
  rv_set_prob (rv_name v) (rv_state v) (spec_of (rv_pscale v)) given (rv_tran v) (rv_tfun v) prob.

(** rv.py 584-588, RVs(names, vtype, vset, prob). *)
Definition make_rvs (names : list string) (vtype vset : arg T) (prob : probarg) (given : pspec T)
  : result (list rv) :=
  map_res (fun nm => make_rv nm vtype vset prob given) names.

(** rv.py 91-96, assignment of vset: a default probability is set anew, with the
    transition.  (super().set_prob does not pass through the bool branch.) *)
Definition rv_set_vset (v : rv) (a : arg T) : rv * result unit :=
  let (s, r) := set_vset (rv_state v) a in
  let v' := mkRV (rv_name v) s (rv_pscale v) (rv_prob v) (rv_tran v) (rv_tfun v) (rv_def v) in
  match r with
  | Err e => (v', Err e)
  | Ok _ =>
      if rv_def v then
        match default_prob s (rv_pscale v) with
        | Ok x => (mkRV (rv_name v) s (rv_pscale v) (RPScalar x) (TRScalar x) (rv_tfun v) true, Ok tt)
        | Err e => (v', Err e)
        end
      else (v', Ok tt)
  end.

(** rv.py 103-108, assignment of vtype. *)
Definition rv_set_vtype (v : rv) (a : arg T) : rv * result unit :=
  let (s, r) := set_vtype (rv_state v) a in
  let v' := mkRV (rv_name v) s (rv_pscale v) (rv_prob v) (rv_tran v) (rv_tfun v) (rv_def v) in
  match r with
  | Err e => (v', Err e)
  | Ok _ =>
      if rv_def v then
        match default_prob s (rv_pscale v) with
        | Ok x => (mkRV (rv_name v) s (rv_pscale v) (RPScalar x) (TRScalar x) (rv_tfun v) true, Ok tt)
        | Err e => (v', Err e)
        end
      else (v', Ok tt)
  end.

(** rv.py 221-246, set_tran. *)
Definition rv_set_tran (v : rv) (tr : rtran) : rv * result unit :=
  let v' := mkRV (rv_name v) (rv_state v) (rv_pscale v) (rv_prob v) tr (rv_tfun v) (rv_def v) in
  match tr with
  | TRMat m | TRMats m _ =>
      match vs_vset (rv_state v) with
      | None => (v', Err TypeError)
      | Some l =>
          if is_float (rv_state v) then (v', Err AssertionError)
          else if (ndim m =? 2) && forallb (Nat.eqb (length l)) (shape m) then (v', Ok tt)
          else (v', Err AssertionError)
      end
  | _ => (v', Ok tt)
  end.

(** ** Evaluation *)

(** The membership test of the variable as a total function; variables that were
    made have one. *)
Definition inside_b (s : vstate T) (x : pyval T) : bool :=
  match inside s x with Some b => b | None => false end.

(** rv_utils.py 8-48 with a callable inside: prob is None or given, vals the
    positional arguments (None or an array; scalars are 0-d). *)
Definition uniform1 (prob : T) (p_zero : T) (ins : pyval T -> bool) (vals : tensor (pyval T)) : tensor T :=
  tmap (fun x => if ins x then prob else p_zero) vals.

Fixpoint uniform_rest (use_logs : bool) (ins : pyval T -> bool) (acc : tensor T)
    (l : list (option (tensor (pyval T)))) : result (tensor T) :=
  match l with
  | [] => Ok acc
  | a :: l' =>
      let prob := if use_logs then n0 else n1 in
      let p_zero := if use_logs then nni else n0 in
      let u := match a with None => tscalar prob | Some a => uniform1 prob p_zero ins a end in
      let! acc' := tbin (if use_logs then n_add else n_mul) acc u in
      uniform_rest use_logs ins acc' l'
  end.

Definition uniform_prob (vals : list (option (tensor (pyval T)))) (prob : option T) (ins : pyval T -> bool)
    (ps : pspec T) : result (tensor T) :=
  match vals with
  | [] => Err AssertionError
  | v :: rest =>
      let! p := eval_pscale ps in
      let use_logs := is_log p in
      let prob := match prob with Some x => x | None => if use_logs then n0 else n1 end in
      match v with
      | None => Ok (tscalar prob)
      | Some a => uniform_rest use_logs ins (uniform1 prob (if use_logs then nni else n0) ins a) rest
      end
  end.

(** sympy_prob.py 70-79 *)
Definition bernoulli_prob (v bias : T) : T :=
  n_add (n_mul v (n_sub (n_mul (n_ofZ 2) bias) n1)) (n_sub n1 bias).

(** prob.py 325-367, Prob.eval_prob(values, pscale=given) for scalars, arrays and
    functions (random variables with a scalar do not reach it): uncallables (arrays) admit no arguments; a true pscale leads to
    kwds['pscale'] of a dictionary it was popped from. *)
Definition prob_call (p : rprob) (vals : option (tensor (pyval T))) (given : pspec T) : result (tensor T) :=
  let! t :=
    match p, vals with
    | RPArray l, None => Ok (of_list n0 l)
    | RPArray _, Some _ => Err AssertionError
    | RPScalar x, _ => Ok (tscalar x)
    | RPBern b, Some a => Ok (tmap (fun x => bernoulli_prob (as_num x) b) a)
    | RPFun f, Some a => Ok (tmap (fun x => f (as_num x)) a)
    | _, None => Err TypeError
    end in
  if ps_true given then Err KeyError else Ok t.

(** rv.py 305-320, eval_prob.  The values are passed as an argument even if the
    probability is an array. *)
Definition eval_prob (v : rv) (vals : tensor (pyval T)) : result (tensor T) :=
  match rv_prob v with
  | RPScalar x => uniform_prob [Some vals] (Some x) (inside_b (rv_state v)) (spec_of (rv_pscale v))
  | p => prob_call p (Some vals) PSNone
  end.

(** The values an evaluation returns, as an array. *)
Definition out_tensor (o : values_out T) : tensor (pyval T) :=
  match o with OScalar x => tscalar x | OArray l => of_list (PF n0) l end.

(** rv.py 271-303, evaluate without pfun: Bernoulli variables are drawn by their
    sampling function if n <= 0; a uniform number u gives True iff u < bias.  The
    bias is that of the present probability, which is the code's if the probability
    was set once (DistModel and C171 for more than once). *)
Definition rv_evaluate (v : rv) (a : values_in T) (r : rnd T) : result (tensor (pyval T)) :=
  match is_bool (rv_state v), rv_prob v, a with
  | true, RPBern b, VSet 0%Z => Ok (tscalar (PB (n_ltb (r_unif r 0) b)))
  | true, RPBern b, VSet (Zneg p) =>
      Ok (of_list (PF n0) (map (fun i => PB (n_ltb (r_unif r i) b)) (seq 0 (Pos.to_nat p))))
  | _, _, _ => let! o := evaluate (rv_state v) None a r in Ok (out_tensor o)
  end.

(** rv.py 322-333, eval_dist_name *)
Definition vname (name : string) (a : values_in T) : string :=
  match a with
  | VNone => name
  | VGiven [x] true => (name ++ "=" ++ fmt (as_num x))%string
  | _ => (name ++ "=[]")%string
  end.

(** Values as the numbers a distribution holds. *)
Definition to_value (a : tensor (pyval T)) : value T :=
  match shape a with [] => VNum (as_num (get a [])) | _ => VArr (tmap (@as_num T N) a) end.

(** rv.py 489-495, __call__ *)
Definition rv_call (v : rv) (a : values_in T) (r : rnd T) : result (pd T) :=
  let! vals := rv_evaluate v a r in
  let! prob := eval_prob v vals in
  let dims := [(rv_name v, match shape vals with [] => None | _ => Some 0%Z end)] in
  make_pd (vname (rv_name v) a) [(rv_name v, to_value vals)] (Some dims) (Some prob) (spec_of (rv_pscale v)).

(** ** Transitions (rv_utils.py 51-114) *)

Definition sort_vals (l : list (pyval T)) : list (pyval T) :=
  flat_map (fun a => match a with AV v => [v] | AOO _ => [] end) (sort_atoms (map AV l)).

(** list.index *)
Fixpoint val_index (l : list (pyval T)) (x : pyval T) : result nat :=
  match l with
  | [] => Err ValueError
  | y :: l' => if v_eqb y x then Ok 0 else let! i := val_index l' x in Ok (S i)
  end.

(** np.cumsum *)
Fixpoint cumsums (acc : T) (l : list T) : list T :=
  match l with [] => [] | x :: l' => n_add acc x :: cumsums (n_add acc x) l' end.

Definition column (m : tensor T) (n j : nat) : list T := map (fun i => get m [i; j]) (seq 0 n).

Definition is_square (m : tensor T) : bool :=
  match shape m with [a; b] => a =? b | _ => false end.

(** A successor that is to be sampled: {n} or {u}. *)
Inductive unit_in : Type := UInt (n : Z) | UFloat (u : T).

(** rv_utils.py 51-78, matrix_cond_sample for a unit set: the sampled value and
    the indices of predecessor and successor.  u is the number np.random.uniform
    draws for {0}.  The sorted set is a list, indexed by an array in all other
    cases, which raises TypeError. *)
Definition matrix_cond_sample (pred : tensor (pyval T)) (succ : unit_in) (m : tensor T)
    (vset : list (pyval T)) (u : T) : result (pyval T * nat * nat) :=
  match shape pred with
  | [] =>
      let! _ := assert_ (is_square m) in
      let support := nth 0 (shape m) 0 in
      let! _ := assert_ (length vset =? support) in
      let vs := sort_vals vset in
      let! j := val_index vs (get pred []) in
      let cmf := cumsums n0 (column m support j) in
      let! i := digitize cmf u in
      let i := Nat.max 0 (Nat.min (support - 1) i) in
      match succ with
      | UInt 0%Z => let! x := getR vs i in Ok (x, j, i)
      | _ => Err TypeError
      end
  | _ => Err AssertionError
  end.

(** rv_utils.py 81-114, lookup_square_matrix; an index given for rows or columns
    replaces the values. *)
Definition lookup_square_matrix (cols rows : tensor (pyval T)) (m : tensor T) (vset : list (pyval T))
    (col_idx row_idx : option nat) : result (tensor T) :=
  let! _ := assert_ (is_square m) in
  let! _ := assert_ (length vset =? nth 0 (shape m) 0) in
  let vs := sort_vals vset in
  let find (a : tensor (pyval T)) (given : option nat) : result (bool * list nat) :=
    match given with
    | Some i => Ok (true, [i])
    | None =>
        let! l := map_res (val_index vs) (to_list a) in
        Ok (match shape a with [] => true | _ => false end, l)
    end in
  let! (rs, ri) := find rows row_idx in
  let! (cs, ci) := find cols col_idx in
  match rs, cs with
  | true, true => Ok (tscalar (get m [nth 0 ri 0; nth 0 ci 0]))
  | true, false => Ok (mkT [length ci] (fun ix => get m [nth 0 ri 0; nth (nth 0 ix 0) ci 0]))
  | false, true => Ok (mkT [length ri] (fun ix => get m [nth (nth 0 ix 0) ri 0; nth 0 ci 0]))
  | false, false =>
      Ok (mkT [length ri; length ci] (fun ix => get m [nth (nth 0 ix 0) ri 0; nth (nth 1 ix 0) ci 0]))
  end.

(** ** Steps (rv.py 335-545) *)

Inductive succ_in : Type :=
| SNone | SUnit (u : unit_in) | SVals (a : tensor (pyval T)).

Record stepped : Type := mkSt {
  st_succ : tensor (pyval T);
  st_pred : tensor (pyval T);
  st_dims : odict (option Z);
  st_idx : option (nat * nat)      (* predecessor, successor *)
}.

(** rv.py 366-385, _reshape_vals *)
Definition reshape_vals (nm : string) (pred succ : tensor (pyval T)) (idx : option (nat * nat)) : stepped :=
  let nm' := (nm ++ "'")%string in
  match shape succ, shape pred with
  | [], [] => mkSt succ pred [(nm', None); (nm, None)] idx
  | [], _ => mkSt succ pred [(nm', None); (nm, Some 0%Z)] idx
  | _, [] => mkSt succ pred [(nm', Some 0%Z); (nm, None)] idx
  | _, _ =>
      mkSt (mkT [tsize succ; 1] (fun ix => nth (nth 0 ix 0) (to_list succ) (PF n0)))
           (mkT [1; tsize pred] (fun ix => nth (nth 1 ix 0) (to_list pred) (PF n0)))
           [(nm', Some 0%Z); (nm, Some 1%Z)] idx
  end.

Definition is_none (t : rtran) : bool := match t with TRNone => true | _ => false end.

(** Random choices of a step: those of evaluate and of perturbations. *)
Record srnd : Type := mkSR { sr_eval : rnd T; sr_delta : drnd T }.

(** rv.py 335-449, eval_step; dc is the default perturbation.  A Delta produced by
    eval_delta is passed to apply_delta. *)
Definition eval_step (v : rv) (dc : dconf T) (pred : tensor (pyval T)) (succ : succ_in) (reverse : bool)
    (r : srnd) : result stepped :=
  let s := rv_state v in
  let nm := rv_name v in
  let! succ' :=
    match succ with
    | SNone =>
        if is_none (rv_tran v) then Err AssertionError
        else
          match dc_delta dc with
          | DNone => Ok (match shape pred with [] => SUnit (UInt 0) | _ => SVals pred end)
          | _ =>
              let! d := eval_delta s None dc DNone (sr_delta r) in
              let scal := match shape pred with [] => true | _ => false end in
              let! l := apply_delta s None dc scal (to_list pred) d None (sr_delta r) in
              Ok (SVals (mkT (shape pred) (fun ix => nth (nth 0 ix 0) l (PF n0))))
          end
    | _ => Ok succ
    end in
  let given (a : tensor (pyval T)) := Ok (reshape_vals nm pred a None) in
  match rv_tran v with
  | TRNone | TRScalar _ =>
      match succ' with
      | SUnit (UInt n) => let! a := rv_evaluate v (VSet n) (sr_eval r) in given a
      | SUnit (UFloat _) =>
          (* self._limits does not exist *)
          if is_float s then Err AttributeError else Err AssertionError
      | SVals a => given a
      | SNone => Err TypeError
      end
  | TRMat _ | TRMats _ _ =>
      let m := match rv_tran v with
               | TRMat m => m
               | TRMats f b => if reverse then b else f
               | _ => mkT [] (fun _ => n0)
               end in
      match succ' with
      | SUnit q =>
          match vs_vset s with
          | None => Err TypeError
          | Some l =>
              let! (x, j, i) := matrix_cond_sample pred q m (vset_vals l) (r_unif (sr_eval r) 0) in
              Ok (reshape_vals nm pred (tscalar x) (Some (j, i)))
          end
      | SVals a => given a
      | SNone => Err TypeError
      end
  | TRFun _ | TRFuns _ _ =>
      match succ' with
      | SUnit q =>
          match rv_tfun v, shape pred, vs_vset s with
          | Some tf, [], Some [e0; e1] =>
              let x := as_num (get pred []) in
              let! us :=
                match q with
                | UInt n =>
                    let a := tf_cdf tf x (atom_of e0) in
                    let b := tf_cdf tf x (atom_of e1) in
                    Ok (out_tensor (out_map (fun y => y)
                          (uniform (n_min a b) (n_max a b) (Some n) (is_tup e0) (is_tup e1)
                                   (r_unif (sr_eval r)))))
                | UFloat y => Ok (of_list (PF n0) [PF y])
                end in
              given (tmap (fun y => PF (tf_icdf tf x (as_num y))) us)
          | None, _, _ => Err AssertionError
          | _, _ :: _, _ => Err AssertionError
          | _, _, _ => Err TypeError
          end
      | SVals a => given a
      | SNone => Err TypeError
      end
  end.

(** rv.py 452-487, eval_tran; the result None: no transition. *)
Definition eval_tran (v : rv) (st : stepped) (reverse : bool) : result (option (tensor T)) :=
  let s := rv_state v in
  match rv_tran v with
  | TRNone => Ok None
  | TRScalar p =>
      let! t := uniform_prob [Some (st_pred st); Some (st_succ st)] (Some p) (inside_b s) PSNone in
      Ok (Some t)
  | TRMat _ | TRMats _ _ =>
      let m := match rv_tran v with
               | TRMat m => m
               | TRMats f b => if reverse then b else f
               | _ => mkT [] (fun _ => n0)
               end in
      match vs_vset s with
      | None => Err TypeError
      | Some l =>
          let! t := lookup_square_matrix (st_pred st) (st_succ st) m (vset_vals l)
                      (match st_idx st with Some (j, _) => Some j | None => None end)
                      (match st_idx st with Some (_, i) => Some i | None => None end) in
          Ok (Some t)
      end
  | TRFun f => let! t := tbin (fun x y => f (as_num x) (as_num y)) (st_pred st) (st_succ st) in Ok (Some t)
  | TRFuns f b =>
      let! t := tbin (fun x y => (if reverse then b else f) (as_num x) (as_num y)) (st_pred st) (st_succ st) in
      Ok (Some t)
  end.

(** rv.py 498-545, step(pred, succ, reverse) *)
Definition step_name (v : rv) (pred : values_in T) (succ : succ_in) (st : stepped) : string :=
  let nm := rv_name v in
  let nm' := (nm ++ "'")%string in
  let succ_name :=
    match pred, succ, is_float (rv_state v) with
    | VNone, SNone, false => nm'
    | _, _, _ => match shape (st_succ st) with
                 | [] => (nm' ++ "=" ++ fmt (as_num (get (st_succ st) [])))%string
                 | _ => (nm' ++ "=[]")%string
                 end
    end in
  (succ_name ++ "|" ++ vname nm pred)%string.

Definition step (v : rv) (dc : dconf T) (pred : values_in T) (succ : succ_in) (reverse : bool) (r : srnd)
  : result (pd T) :=
  let! p := rv_evaluate v pred (sr_eval r) in
  let! st := eval_step v dc p succ reverse r in
  let! c := eval_tran v st reverse in
  let! cond :=
    match c with
    | Some t => Ok t
    | None => tbin (fun _ _ => n1) (st_succ st) (st_pred st)
    end in
  make_pd (step_name v pred succ st)
          [((rv_name v ++ "'")%string, to_value (st_succ st)); (rv_name v, to_value (st_pred st))]
          (Some (st_dims st)) (Some cond) (spec_of (rv_pscale v)).

End RVs.
Arguments probarg T : clear implicits.
Arguments rprob T : clear implicits.
Arguments rtran T : clear implicits.
Arguments tfun T : clear implicits.
Arguments rv T : clear implicits.
Arguments unit_in T : clear implicits.
Arguments succ_in T : clear implicits.
Arguments stepped T : clear implicits.
Arguments srnd T : clear implicits.
