(** Model of probability objects on their own (probayes/prob.py, class Prob) and of the
    wrapper of sympy's distributions (probayes/sympy_prob.py), as objects changed by
    calls.

    Not modelled here: arguments and keywords given with the probability, arrays as
    probabilities (ExprModel), multivariate distributions (MVModel), and sympy and scipy
    themselves: expressions are any type with any evaluation. *)
From Coq Require Import String ZArith Bool Arith List.
From Verif Require Import Base Num PScales RVModel SymModel.
Import ListNotations.
Set Implicit Arguments.
Local Open Scope bool_scope.

Section Probs.
Context {T : Type} {N : Num T} {E A V : Type}.
(** The printed form, sympy's logarithm (Expr.subre, simplify, resub) and evaluation of
    expressions. *)
Variables (repr : E -> string) (log_of : E -> E) (ev : E -> A -> result V).

(** A random symbol of sympy.stats: the tree in which its distribution is looked for, its
    first argument if that is a symbol, the density and the distribution function of the
    distribution found if they can be had, and sympy's solutions for the inverse (none if
    solving raises TypeError). *)
Record rsym : Type := mkRS {
  rs_tree : sobj;
  rs_first : option string;
  rs_pdf : option E;
  rs_cdf : option E;
  rs_solve : list E
}.

(** A univariate scipy distribution: the methods it has, and their values. *)
Record sdist : Type := mkSD { sc_methods : list string; sc_call : string -> A -> result V }.

(** What can be called: an expression, a method, a function, a sampler. *)
Inductive entry : Type := EExpr (e : E) | EMeth (d : sdist) (m : string) | EFun (f : A -> result V) | ESamp (r : rsym) (as_float : bool).

(** Dictionaries keyed by strings or None. *)
Definition table : Type := list (option string * entry).
Definition okey_eqb (a b : option string) : bool :=
  match a, b with None, None => true | Some x, Some y => String.eqb x y | _, _ => false end.
Fixpoint lookup (t : table) (k : option string) : option entry :=
  match t with [] => None | (k', e) :: t' => if okey_eqb k k' then Some e else lookup t' k end.
Definition has (t : table) (k : string) : bool := match lookup t (Some k) with Some _ => true | None => false end.
(** update of one key *)
Fixpoint put (t : table) (k : option string) (e : entry) : table :=
  match t with [] => [(k, e)] | (k', e') :: t' => if okey_eqb k k' then (k', e) :: t' else (k', e') :: put t' k e end.

(** What distr is assigned: nothing, something else, a random symbol. *)
Inductive darg : Type := DANone | DAJunk (id : nat) | DASym (r : rsym).

Inductive kind : Type := KFun | KNum | KScipy | KSympy.

Record pobj : Type := mkPO {
  po_scale : pscale T;
  po_kind : kind;
  po_partials : table;
  po_exprs : option table;
  po_distr : darg;
  po_probj : option sobj;
  po_pfun : option (entry * entry);
  po_sfun : option entry
}.

Definition with_scale (p : pobj) (s : pscale T) : pobj :=
  mkPO s (po_kind p) (po_partials p) (po_exprs p) (po_distr p) (po_probj p) (po_pfun p) (po_sfun p).
Definition with_partials (p : pobj) (k : kind) (t : table) : pobj :=
  mkPO (po_scale p) k t (po_exprs p) (po_distr p) (po_probj p) (po_pfun p) (po_sfun p).
Definition with_exprs (p : pobj) (t : option table) : pobj :=
  mkPO (po_scale p) (po_kind p) (po_partials p) t (po_distr p) (po_probj p) (po_pfun p) (po_sfun p).
Definition with_distr (p : pobj) (d : darg) (o : option sobj) (t : option table) : pobj :=
  mkPO (po_scale p) (po_kind p) (po_partials p) t d o (po_pfun p) (po_sfun p).
Definition with_pfun (p : pobj) (f : option (entry * entry)) : pobj :=
  mkPO (po_scale p) (po_kind p) (po_partials p) (po_exprs p) (po_distr p) (po_probj p) f (po_sfun p).
Definition with_sfun (p : pobj) (f : option entry) : pobj :=
  mkPO (po_scale p) (po_kind p) (po_partials p) (po_exprs p) (po_distr p) (po_probj p) (po_pfun p) f.

(** sympy_prob.py 148-179: the expressions of a distribution, with the inverse printed
    shortest (lines 169-174, as expression.py 327-331). *)
Definition dist_exprs (r : rsym) : table :=
  (match rs_pdf r with
   | Some e => [(Some "prob"%string, EExpr e); (Some "logp"%string, EExpr (log_of e))]
   | None => []
   end ++
   match rs_cdf r with
   | Some c => (Some "cdf"%string, EExpr c) ::
       match rs_solve r with
       | i :: l => [(Some "icdf"%string, EExpr (shortest repr i l))]
       | [] => []
       end
   | None => []
   end ++ [(Some "sfun"%string, ESamp r false)])%list.

(** sympy_prob.py 130-179, assignment of distr: what was there is given up first. *)
Definition set_distr (p : pobj) (d : darg) : pobj * option exn :=
  match d with
  | DANone => (with_distr p d None None, None)
  | DAJunk _ => (with_distr p d None None, Some AssertionError)
  | DASym r =>
      match obj_from_dist (rs_tree r) with
      | Err e => (with_distr p d None None, Some e)
      | Ok o =>
          match rs_first r with
          | None => (with_distr p d (Some o) (Some []), Some TypeError)
          | Some _ => (with_distr p d (Some o) (Some (dist_exprs r)), None)
          end
      end
  end.

(** prob.py 25-27 *)
Definition scipy_methods : list string :=
  ["pdf"; "logpdf"; "pmf"; "logpmf"; "cdf"; "logcdf"; "ppf"; "rvs"; "sf"; "logsf"; "isf"; "moment"; "stats"; "expect";
   "entropy"; "fit"; "median"; "mean"; "var"; "std"; "interval"]%string.

(** prob.py 210-215: the methods there are. *)
Definition methods_of (d : sdist) : list string := filter (fun m => mem_str m (sc_methods d)) scipy_methods.
(** prob.py 209-223: these, and the names common to densities and masses. *)
Definition scipy_partials (d : sdist) : table * option exn :=
  let t := map (fun m => (Some m, EMeth d m)) (methods_of d) in
  let common a b :=
    match lookup t (Some a), lookup t (Some b) with
    | Some x, Some y => ((t ++ [(Some "prob"%string, x); (Some "logp"%string, y)])%list, None)
    | Some x, None => ((t ++ [(Some "prob"%string, x)])%list, Some KeyError)
    | None, _ => (t, None)
    end in
  if has t "pdf" then common "pdf"%string "logpdf"%string else common "pmf"%string "logpmf"%string.

(** What set_prob is given. *)
Inductive given : Type := GFun (f : A -> result V) | GNum (e : E) | GScipy (d : sdist) | GSympy (r : rsym).

(** prob.py 124-185, set_prob(prob, pscale=q): a new probability leaves whatever it does
    not have in place. *)
Definition set_prob (p : pobj) (g : given) (q : pspec T) : pobj * option exn :=
  match new_pscale q (spec_of (po_scale p)) with
  | Err e => (p, Some e)
  | Ok s =>
      let p := with_scale p s in
      match g with
      | GFun f => (with_exprs (with_partials p KFun [(None, EFun f)]) (Some []), None)
      | GNum e => (with_exprs (with_partials p KNum [(None, EExpr e)]) (Some [(None, EExpr e)]), None)
      | GScipy d =>
          let p := with_exprs p (Some []) in
          match scipy_partials d with
          | (t, Some e) => (with_partials p KScipy t, Some e)
          | (t, None) =>
              let p := with_partials p KScipy t in
              match lookup t (Some (if is_log s then "logp" else "prob")%string) with
              | None => (p, Some KeyError)
              | Some _ =>
                  let p := match lookup t (Some "cdf"%string), lookup t (Some "ppf"%string) with
                           | Some c, Some i => with_pfun p (Some (c, i))
                           | _, _ => p
                           end in
                  (match lookup t (Some "rvs"%string) with Some f => with_sfun p (Some f) | None => p end, None)
              end
          end
      | GSympy r =>
          let (p, e) := set_distr (with_partials p KSympy []) (DASym r) in
          match e with
          | Some e => (p, Some e)
          | None =>
              let t := dist_exprs r in
              let p := with_partials p KSympy t in
              match lookup t (Some (if is_log s then "logp" else "prob")%string) with
              | None => (p, Some KeyError)
              | Some _ =>
                  let p := match lookup t (Some "cdf"%string), lookup t (Some "icdf"%string) with
                           | Some c, Some i => with_pfun p (Some (c, i))
                           | _, _ => p
                           end in
                  (with_sfun (with_partials p KSympy (put t (Some "sfun"%string) (ESamp r true))) (Some (ESamp r false)), None)
              end
          end
      end
  end.

(** prob.py 236-251, assignment of pscale. *)
Definition set_pscale (p : pobj) (q : pspec T) : pobj * option exn :=
  match eval_pscale q with Err e => (p, Some e) | Ok s => (with_scale p s, None) end.

(** Calls that change the object; set_pfun with a pair of functions (prob.py 263-279). *)
Inductive pcall : Type := SetProb (g : given) (q : pspec T) | SetPscale (q : pspec T) | SetDistr (d : darg) | SetPfun (f : option (entry * entry)).
Definition change (p : pobj) (c : pcall) : pobj * option exn :=
  match c with
  | SetProb g q => set_prob p g q
  | SetPscale q => set_pscale p q
  | SetDistr d => set_distr p d
  | SetPfun f => (with_pfun p f, None)
  end.
Definition history (p : pobj) (h : list pcall) : pobj := fold_left (fun p c => fst (change p c)) h p.
(** Before the first set_prob (class attributes, prob.py 71-86). *)
Definition blank : pobj := mkPO (Lin n1) KFun [] None DANone None None None.

Definition call (e : entry) (a : A) : result V :=
  match e with
  | EExpr e => ev e a
  | EMeth d m => sc_call d m a
  | EFun f => f a
  | ESamp _ _ => Err TypeError (* samplers take a size, see [sfun] *)
  end.
Definition get (t : table) (k : option string) : result entry :=
  match lookup t k with Some e => Ok e | None => Err KeyError end.

(** prob.py 326-380, eval_prob without the keyword pscale. *)
Definition eval_prob (p : pobj) (a : A) : result V :=
  let! e := get (po_partials p)
              (match po_kind p with
               | KScipy | KSympy => Some (if is_log (po_scale p) then "logp" else "prob")%string
               | KFun | KNum => None
               end) in
  call e a.

(** prob.py 387-417, p[arg]: a slice, containers empty or not, strings. *)
Inductive pkey : Type := PSlice | PList (empty : bool) | PDict (empty : bool) | PSet (empty : bool) | PTuple (empty : bool) | PStr (s : string).
Inductive view : Type := VDistr (d : darg) | VObj (o : option sobj) | VExprs (t : option table) | VExpr (e : entry) | VKeys (l : list (option string)).
Definition is_sympy (p : pobj) : bool := match po_kind p with KSympy => true | _ => false end.
Definition is_multi (p : pobj) : bool := match po_kind p with KSympy | KScipy => true | _ => false end.
(** the message of the assertion cannot be made: str has no attribute type *)
Definition container (p : pobj) (empty : bool) (v : result view) : result view :=
  if is_sympy p && empty then v else Err AttributeError.
Definition item (p : pobj) (k : pkey) : result view :=
  match k with
  | PSlice => Err TypeError
  | PSet e => container p e (Ok (VDistr (po_distr p)))
  | PList e => container p e (Ok (VObj (po_probj p)))
  | PDict e => container p e (Ok (VExprs (po_exprs p)))
  | PTuple e => container p e
      match po_exprs p with
      | None => Err TypeError
      | Some t => let! x := get t (Some (if is_log (po_scale p) then "logp" else "prob")%string) in Ok (VExpr x)
      end
  | PStr s =>
      if String.eqb s ""
      then match po_exprs p with None => Err AttributeError | Some t => Ok (VKeys (map fst t)) end
      else (* Expression.__getitem__ (expression.py 467-482) *)
        let! _ := assert_ (is_multi p) in
        let! x := get (po_partials p) (Some s) in Ok (VExpr x)
  end.

End Probs.
Arguments pobj : clear implicits.
Arguments entry : clear implicits.
Arguments given : clear implicits.
Arguments pcall : clear implicits.
Arguments rsym : clear implicits.
Arguments sdist : clear implicits.
Arguments darg : clear implicits.
Arguments table : clear implicits.
Arguments blank {T N E A V}.
Arguments view : clear implicits.
Arguments VDistr {E A V}. Arguments VObj {E A V}. Arguments VExprs {E A V}. Arguments VExpr {E A V}. Arguments VKeys {E A V}.
Arguments GFun {E A V}. Arguments GNum {E A V}. Arguments GScipy {E A V}. Arguments GSympy {E A V}.
Arguments EExpr {E A V}. Arguments EMeth {E A V}. Arguments EFun {E A V}. Arguments ESamp {E A V}.
Arguments DANone {E}. Arguments DAJunk {E}. Arguments DASym {E}.
Arguments SetProb {T E A V}. Arguments SetPscale {T E A V}. Arguments SetDistr {T E A V}. Arguments SetPfun {T E A V}.

(** sympy_prob.py 50-68, sympy_sfun: the i-th draw is [draw i]; a size, and a conversion. *)
Inductive drawn (X : Type) : Type := One (x : X) | Many (l : list X).
Arguments One {X}. Arguments Many {X}.
Definition sfun {X : Type} (draw : nat -> X) (size : Z) (dtype : option (X -> X)) : drawn X :=
  let conv x := match dtype with Some f => f x | None => x end in
  if Z.eqb size 0 then One (conv (draw 0%nat)) else Many (map (fun i => conv (draw i)) (seq 0 (Z.to_nat size))).
