(** Model of /repo/probayes/pscales.py. *)
From Coq Require Import String ZArith Bool Arith List.
From Verif Require Import Base Num Tensor.
Import ListNotations.
Local Open Scope bool_scope.

Section PScales.
Context {T : Type} {N : Num T}.

(** The Python objects a caller may pass as a pscale.  [PSOther] stands for any
    object which is not None, a number or a string (e.g. a list).  bool is an
    int in Python. *)
Inductive pspec : Type :=
| PSNone
| PSInt (z : Z)
| PSFloat (x : T)
| PSCplx (re im : T)
| PSStr (s : string)
| PSOther.

(** An evaluated pscale: a float coefficient or a complex log offset. *)
Inductive pscale : Type :=
| Lin (c : T)
| Log (re im : T).

(** An evaluated pscale passed on as an argument. *)
Definition spec_of (p : pscale) : pspec :=
  match p with Lin c => PSFloat c | Log re im => PSCplx re im end.

(** pscales.py 16-18 (iscomplex) on an evaluated pscale. *)
Definition is_log (p : pscale) : bool := match p with Log _ _ => true | Lin _ => false end.

(** pscales.py 16-18 (iscomplex) on an arbitrary object. *)
Definition iscomplex (s : pspec) : bool := match s with PSCplx _ _ => true | _ => false end.

(** constants.py 8: COMPLEX_ZERO. *)
Definition complex_zero : pscale := Log n0 n0.

(** pscales.py 21-41 (eval_pscale).  [pscale == 1] is also true of the complex
    number 1+0j, and [pscale in ['log','ln',0]] of 0, 0. and 0j. *)
Definition eval_pscale (s : pspec) : result pscale :=
  match s with
  | PSNone => Ok (Lin n1)
  | PSInt z =>
      if Z.eqb z 1 then Ok (Lin n1)
      else if Z.eqb z 0 then Ok complex_zero
      else Ok (Lin (n_ofZ z))
  | PSFloat x =>
      if n_eqb x n1 then Ok (Lin n1)
      else if n_eqb x n0 then Ok complex_zero
      else Ok (Lin x)
  | PSCplx re im =>
      if n_eqb re n1 && n_eqb im n0 then Ok (Lin n1)
      else if n_eqb re n0 && n_eqb im n0 then Ok complex_zero
      else Ok (Log re im)
  | PSStr s =>
      if String.eqb s "log" || String.eqb s "ln" then Ok complex_zero
      else Err ValueError
  | PSOther => Err ValueError
  end.

(** pscales.py 44-53 (log_prob), scalar case; arrays apply it elementwise. *)
Definition log_prob1 (p : T) : T := if n_leb npz p then n_ln p else nni.
Definition log_prob (p : tensor T) : tensor T := tmap log_prob1 p.

(** pscales.py 56-65 (exp_logp), scalar case; arrays apply it elementwise. *)
Definition exp_logp1 (l : T) : T := if n_leb l log_npi then n_exp l else npi.
Definition exp_logp (l : tensor T) : tensor T := tmap exp_logp1 l.

(** pscales.py 68-75 (logp_offs). *)
Definition logp_offs (s : pspec) : result T :=
  let! p := eval_pscale s in
  match p with
  | Lin c => Ok (n_ln c)
  | Log re im => if n_ltb (n_abs im) npz then Ok re else Ok (n_opp re)
  end.

(** pscales.py 78-85 (prob_coef). *)
Definition prob_coef (s : pspec) : result T :=
  let! p := eval_pscale s in
  match p with
  | Lin c => Ok c
  | Log re im => if n_ltb (n_abs im) npz then Ok (n_exp re) else Ok (n_exp (n_opp re))
  end.

(** pscales.py 88-97 (real_sqrt), scalar case. *)
Definition real_sqrt1 (x : T) : T := if n_leb npz x then n_sqrt x else n0.

(** [pscale == rtype] on evaluated pscales of the same kind. *)
Definition pscale_eqb (p r : pscale) : bool :=
  match p, r with
  | Lin c, Lin d => n_eqb c d
  | Log a b, Log c d => n_eqb a c && n_eqb b d
  | _, _ => false
  end.

(** pscales.py 100-131 (rescale) with both scales given (the one-argument form
    is [rescale p PSNone r]; the dtype conversion of lines 103-105 is the
    identity on model numbers). *)
Definition rescale (prob : tensor T) (ps rs : pspec) : result (tensor T) :=
  let! p := eval_pscale ps in
  let! r := eval_pscale rs in
  if Bool.eqb (is_log p) (is_log r) && pscale_eqb p r then Ok prob
  else
    match p, r with
    | Lin c, Lin d =>
        let coef := n_div c d in
        if n_eqb coef n1 then Ok prob else Ok (tmap (n_mul coef) prob)
    | _, _ =>
        let prob1 := if is_log p then prob else log_prob prob in
        let! op := logp_offs (spec_of p) in
        let! or := logp_offs (spec_of r) in
        let d_offs := n_sub op or in
        let prob2 := if n_leb npz (n_abs d_offs)
                     then tmap (fun x => n_add x d_offs) prob1 else prob1 in
        if is_log r then Ok prob2 else Ok (exp_logp prob2)
    end.

(** pscales.py 143-149: the accumulation loop of prod_pscale. *)
Definition prod_pscale_acc (use_logp : bool) (pscales : list pspec) : result T :=
  fold_res (fun rtype s =>
              let! p := eval_pscale s in
              if use_logp then let! o := logp_offs (spec_of p) in Ok (n_add rtype o)
              else let! c := prob_coef (spec_of p) in Ok (n_mul rtype c))
           pscales (if use_logp then n0 else n1).

(** np.pi, the imaginary part used to mark negative offsets (pscales.py 156):
    modelled by the rational 22/7; only its distance from zero matters. *)
Definition n_pi : T := n_div (n_ofZ 22) (n_ofZ 7).

(** pscales.py 134-157 (prod_pscale); result None for an empty list. *)
Definition prod_pscale (pscales : list pspec) (use_logp : option bool)
  : result (option pscale) :=
  match pscales with
  | [] => Ok None
  | _ =>
      let ul := match use_logp with Some b => b | None => existsb iscomplex pscales end in
      let! rtype := prod_pscale_acc ul pscales in
      if ul then
        if n_ltb (n_abs rtype) npz then Ok (Some complex_zero)
        else if n_ltb n0 rtype then Ok (Some (Log (n_ln rtype) n0))
        else Ok (Some (Log (n_ln (n_opp rtype)) n_pi))
      else Ok (Some (Lin rtype))
  end.

(** pscales.py 180-191 (_apply_prod). *)
Definition apply_prod (use_logp : bool) (probs : list (tensor T)) : result (tensor T) :=
  let op := if use_logp then n_add else n_mul in
  match probs with
  | [] => Err IndexError
  | [p] => Ok p
  | p :: q :: rest =>
      let! pq := tbin op p q in
      fold_res (fun acc r => tbin op acc r) rest pq
  end.

(** [ppscale == pscale] between an evaluated pscale and an arbitrary object. *)
Definition pscale_eq_spec (p : pscale) (s : pspec) : bool :=
  match p, s with
  | Lin c, PSFloat x => n_eqb c x
  | Lin c, PSInt z => n_eqb c (n_ofZ z)
  | Lin c, PSCplx re im => n_eqb c re && n_eqb im n0
  | Log re im, PSCplx re' im' => n_eqb re re' && n_eqb im im'
  | Log re im, PSFloat x => n_eqb re x && n_eqb im n0
  | Log re im, PSInt z => n_eqb re (n_ofZ z) && n_eqb im n0
  | _, _ => false
  end.

(** pscales.py 160-216 (prod_rule).  Keyword arguments not given are None.
    A given 'pscale' keyword is an arbitrary object.  The branch of line 195 is
    only reachable without arguments and then raises TypeError (np.log(None) or
    np.exp(None)). *)
Definition prod_rule (args : list (tensor T)) (pscales_ : option (list pspec))
    (use_logp_ : option bool) (pscale_ : option pspec)
  : result (tensor T * pspec) :=
  let pscales := match pscales_ with Some l => l | None => repeat (PSFloat n1) (length args) end in
  let use_logp := match use_logp_ with Some b => b | None => existsb iscomplex pscales end in
  let! ppscale := prod_pscale pscales (Some use_logp) in
  let ppspec := match ppscale with Some p => spec_of p | None => PSNone end in
  let pscale := match pscale_ with Some s => s | None => ppspec end in
  let! _ := assert_ (length pscales =? length args) in
  if negb (Bool.eqb use_logp (iscomplex ppspec)) then Err TypeError
  else if Bool.eqb use_logp (iscomplex pscale)
       && match ppscale with
          | Some p => pscale_eq_spec p pscale
          | None => match pscale with PSNone => true | _ => false end
          end
       && match pscales with   (* all iscomplex flags agree and there is one *)
          | [] => false
          | s :: l => forallb (fun s' => Bool.eqb (iscomplex s') (iscomplex s)) l
          end
  then let! prob := apply_prod use_logp args in Ok (prob, pscale)
  else
    let probs := zip_with (fun arg s =>
                   if use_logp then (if iscomplex s then arg else log_prob arg)
                   else (if iscomplex s then exp_logp arg else arg)) args pscales in
    let! prob := apply_prod use_logp probs in
    if negb (Bool.eqb use_logp (iscomplex pscale))
    then let! prob' := rescale prob ppspec PSOther in Ok (prob', pscale)
    else Ok (prob, pscale).

(** Python truth value of a pscale object ([pscale or ...]). *)
Definition truthy (s : pspec) : bool :=
  match s with
  | PSNone => false
  | PSInt z => negb (Z.eqb z 0)
  | PSFloat x => negb (n_eqb x n0)
  | PSCplx re im => negb (n_eqb re n0 && n_eqb im n0)
  | PSStr s => negb (String.eqb s "")
  | PSOther => true
  end.

(** pscales.py 219-236 (div_prob). *)
Definition div_prob (dividend divisor : tensor T) (args : option (pspec * pspec))
    (pscale : pspec) : result (tensor T) :=
  let! (s0, s1, out) :=
    match args with
    | None => Ok (PSNone, PSNone, pscale)
    | Some (a, b) =>
        let! a' := eval_pscale a in
        let! b' := eval_pscale b in
        Ok (spec_of a', spec_of b', if truthy pscale then pscale else spec_of a')
    end in
  let! dividend' := rescale dividend s0 PSNone in
  let! divisor' := rescale divisor s1 PSNone in
  let! quotient := tbin (fun x y => n_div x (n_max npz y)) dividend' divisor' in
  rescale quotient PSNone out.

End PScales.

Arguments pspec T : clear implicits.
Arguments pscale T : clear implicits.
