(** Model of the probabilities of random fields (probayes/rf.py, RF.set_prob, _default_prob
    and eval_prob) over variables whose probabilities are numbers, expressions, functions
    or distributions, all of which can change after the field is made.

    Not modelled here: arguments and keywords given with a probability, passdims, values
    that are not numbers (RFModel), multivariate distributions (MVModel), the Bernoulli
    expression made of a number given to a variable of type bool (RVModel; it is an
    expression, too), and objects left by calls that raise (ProbModel). *)
From Coq Require Import String ZArith Bool Arith List.
From Verif Require Import Base Num Tensor PScales Names PDModel PDUtils RVModel SymModel ProbModel.
Import ListNotations.
Set Implicit Arguments.
Local Open Scope bool_scope.

Section FieldProbs.
Context {T : Type} {N : Num T} {E X : Type}.
(** Values of variables by name. *)
Let A : Type := list (string * X).
Variables (repr : E -> string) (log_of : E -> E) (ev : E -> A -> result T).
(** sympy's product of two expressions *)
Variable emul : E -> E -> E.

(** A random variable: its probability object, isiconic (expression.py 61: None before the
    first expression), and what prob shows. *)
Record fpvar : Type := mkFP {
  fp_name : string;
  fp_obj : pobj T E A T;
  fp_icon : option bool;
  fp_prob : option (entry E A T) }.

(** A variable before its first probability. *)
Definition new_var (name : string) : fpvar := mkFP name blank None None.

(** prob.py 143-149, 160, 172-173, 181-182: what prob is after a probability is set, in
    the scale of that moment. *)
Definition shown (o : pobj T E A T) : option (entry E A T) :=
  lookup (po_partials o)
    (match po_kind o with
     | KScipy | KSympy => Some (if is_log (po_scale o) then "logp" else "prob")%string
     | KFun | KNum => None
     end).

(** expression.py 164, 179 and prob.py 204; a sympy distribution passes neither
    (prob.py 152-157). *)
Definition icon_after (old : option bool) (g : given E A T) : option bool :=
  match g with
  | GFun _ | GScipy _ => Some false
  | GNum _ => Some true
  | GSympy _ => old
  end.

(** var.set_prob(g, pscale=q) *)
Definition var_set (v : fpvar) (g : given E A T) (q : pspec T) : result fpvar :=
  match set_prob repr log_of (fp_obj v) g q with
  | (_, Some e) => Err e
  | (o, None) => Ok (mkFP (fp_name v) o (icon_after (fp_icon v) g) (shown o))
  end.
(** var.pscale = q *)
Definition var_scale (v : fpvar) (q : pspec T) : result fpvar :=
  match set_pscale (fp_obj v) q with
  | (_, Some e) => Err e
  | (o, None) => Ok (mkFP (fp_name v) o (fp_icon v) (fp_prob v))
  end.
Definition fp_scale (v : fpvar) : pspec T := spec_of (po_scale (fp_obj v)).

(** A random field: its variables, itself as a probability object, prob and def_prob. *)
Record ffield : Type := mkFF {
  ff_vars : list fpvar;
  ff_obj : pobj T E A T;
  ff_prob : option (entry E A T);
  ff_def : bool }.
Definition ff_scale (f : ffield) : pspec T := spec_of (po_scale (ff_obj f)).

(** rf.py 71-72 and 103-105: the scale of the product. *)
Definition joint_scale (vs : list fpvar) : result (pspec T) :=
  let! p := prod_pscale (map fp_scale vs) None in
  Ok (match p with Some p => spec_of p | None => PSNone end).

(** rf.py 120-128: the product of what prob is for the variables, in order. *)
Definition icon_prod (vs : list fpvar) : result (option E) :=
  fold_res (fun acc v =>
      match fp_prob v with
      | Some (EExpr e) => Ok (Some (match acc with Some p => emul p e | None => e end))
      | _ => Err TypeError (* not of a variable that is iconic *)
      end) vs None.

(** rf.py 116-130, _default_prob of a field whose prob is None. *)
Definition default_prob (f : ffield) : result ffield :=
  if forallb (fun v => match fp_icon v with Some b => b | None => false end) (ff_vars f) then
    let! p := icon_prod (ff_vars f) in
    match p with
    | None => Err TypeError (* no variables, refused before *)
    | Some e =>
        match set_prob repr log_of (ff_obj f) (GNum e) (ff_scale f) with
        | (_, Some x) => Err x
        | (o, None) => Ok (mkFF (ff_vars f) o (shown o) true)
        end
    end
  else Ok f.

(** rf.py 91-113, field.set_prob(g, pscale=q), or without g, or without pscale. *)
Definition field_set (f : ffield) (g : option (given E A T)) (q : option (pspec T)) : result ffield :=
  let! q := match q with Some q => Ok q | None => joint_scale (ff_vars f) end in
  match g with
  | Some g =>
      match set_prob repr log_of (ff_obj f) g q with
      | (_, Some e) => Err e
      | (o, None) => Ok (mkFF (ff_vars f) o (shown o) false)
      end
  | None =>
      let! s := new_pscale q (ff_scale f) in
      default_prob (mkFF (ff_vars f) (with_exprs (with_partials (with_scale (ff_obj f) s) KFun []) (Some [])) None (ff_def f))
  end.

(** rf.py 67-76 (_refresh): the scale only. *)
Definition refresh (f : ffield) : result ffield :=
  let! q := joint_scale (ff_vars f) in
  let! s := eval_pscale q in
  Ok (mkFF (ff_vars f) (with_scale (ff_obj f) s) (ff_prob f) (ff_def f)).

(** rf.py 55-60, RF(v1, ..., vn) *)
Definition make_ff (vs : list fpvar) : result ffield :=
  match vs with
  | [] => Err AssertionError
  | _ => let! f := refresh (mkFF vs blank None false) in field_set f None None
  end.

(** Changes: of the i-th variable, of the field, and one variable more (field.py add_var). *)
Inductive fchange : Type :=
| ChVar (i : nat) (g : given E A T) (q : pspec T)
| ChVarScale (i : nat) (q : pspec T)
| ChField (g : option (given E A T)) (q : option (pspec T))
| ChScale (q : pspec T)
| ChAdd (v : fpvar).

Fixpoint upd (l : list fpvar) (i : nat) (h : fpvar -> result fpvar) : result (list fpvar) :=
  match l, i with
  | [], _ => Err IndexError
  | v :: l, 0%nat => let! v' := h v in Ok (v' :: l)
  | v :: l, S i => let! l' := upd l i h in Ok (v :: l')
  end.
Definition with_vars (f : ffield) (vs : list fpvar) : ffield := mkFF vs (ff_obj f) (ff_prob f) (ff_def f).

Definition ff_change (f : ffield) (c : fchange) : result ffield :=
  match c with
  | ChVar i g q => let! vs := upd (ff_vars f) i (fun v => var_set v g q) in Ok (with_vars f vs)
  | ChVarScale i q => let! vs := upd (ff_vars f) i (fun v => var_scale v q) in Ok (with_vars f vs)
  | ChField g q => field_set f g q
  | ChScale q =>
      match set_pscale (ff_obj f) q with
      | (_, Some e) => Err e
      | (o, None) => Ok (mkFF (ff_vars f) o (ff_prob f) (ff_def f))
      end
  | ChAdd v => refresh (with_vars f (ff_vars f ++ [v])%list)
  end.
Definition ff_run (f : ffield) (h : list fchange) : result ffield := fold_res ff_change h f.

(** Calling a variable with its value. *)
Definition var_call (v : fpvar) (values : A) : result T :=
  match find (fun kx => String.eqb (fst kx) (fp_name v)) values with
  | Some kx => eval_prob ev (fp_obj v) [kx]
  | None => Err KeyError
  end.

(** rf.py 305-338, eval_prob with a number for each variable; rf_utils.py 14-21. *)
Definition ff_call (f : ffield) (values : A) : result T :=
  let! _ := assert_ (seteq_str (map fst values) (map fp_name (ff_vars f))) in
  if match ff_prob f with None => true | Some _ => ff_def f end then
    match ff_vars f with
    | [v] => var_call v values
    | vs =>
        let scales := map fp_scale vs in
        let! ps := product_pscale (ff_scale f) scales in
        let! probs := map_res (fun v => var_call v values) vs in
        let! (t, _) := prod_rule (map (fun x => tscalar x) probs) (Some scales) None (Some ps) in
        Ok (Tensor.get t [])
    end
  else eval_prob ev (ff_obj f) values.

End FieldProbs.
Arguments fpvar : clear implicits.
Arguments ffield : clear implicits.
Arguments fchange : clear implicits.
