(** Property theorems about probability objects on their own and the wrapper of sympy's
    distributions (C221-C226).  Here [repr] prints an expression, [log_of] is sympy's
    logarithm of one and [ev] evaluates it. *)
From Coq Require Import String ZArith QArith Bool Arith List.
From Verif Require Import Base Num PScales RVModel SymModel Sym_Spec ProbModel ProbO_Spec ProbO_Proofs.
Import ListNotations.
Local Open Scope string_scope.
Local Open Scope list_scope.
Local Open Scope nat_scope.

Section Thms.
Context {T : Type} {N : Num T} {E A V : Type} (repr : E -> string) (log_of : E -> E) (ev : E -> A -> result V).
Notation change := (@change T N E A V repr log_of).
Notation history := (@history T N E A V repr log_of).

(** C221: after set_prob and any calls that change scale, distribution or quantile
    functions, a probability object gives what the last probability gives: the density,
    or its logarithm exactly if the scale then is one of logarithms. *)
Theorem C221_value : forall (p : pobj T E A V) g q h a, snd (change p (SetProb g q)) = None -> (forall c, In c h -> ~ sets_prob c) ->
  let p' := history p (SetProb g q :: h) in stands_for log_of ev g (is_log (po_scale p')) a (eval_prob ev p' a).
Proof. exact (value repr log_of ev). Qed.

(** C221: the scale is the one given with the probability or else the one before, until
    another is assigned. *)
Theorem C221_scale : forall (p : pobj T E A V) h, (forall c, In c h -> ~ (sets_prob c \/ sets_scale c)) ->
  (forall g q, snd (change p (SetProb g q)) = None ->
     new_pscale q (spec_of (po_scale p)) = Ok (po_scale (history p (SetProb g q :: h)))) /\
  (forall q s, eval_pscale q = Ok s -> po_scale (history p (SetPscale q :: h)) = s).
Proof.
  exact (fun p h Hb => conj
    (fun g q H => eq_trans (scale_given repr log_of p g q H) (f_equal Ok (eq_sym (scale_kept repr log_of (fst (change p (SetProb g q))) h Hb))))
    (fun q s Q => eq_trans (scale_kept repr log_of (fst (change p (SetPscale q))) h Hb) (scale_set repr log_of p q Q))).
Qed.

(** C221: a scale is refused only if it cannot be evaluated, and then changes nothing. *)
Theorem C221_refused : forall (p : pobj T E A V) q x, snd (change p (SetPscale q)) = Some x ->
  eval_pscale q = Err x /\ fst (change p (SetPscale q)) = p.
Proof. exact (scale_refused repr log_of). Qed.

(** C222: a probability is accepted exactly if its scale can be evaluated, distributions
    of scipy have a density or mass with its logarithm, and those of sympy can be found,
    are of a symbol and have a density. *)
Theorem C222_accepted_iff : forall (p : pobj T E A V) g q, snd (change p (SetProb g q)) = None <->
  (exists s, new_pscale q (spec_of (po_scale p)) = Ok s) /\
  match g with GScipy d => full d | GSympy r => usable r | _ => True end.
Proof. exact (accepted_iff repr log_of). Qed.

(** C223: the quantile functions that come with a probability are taken over; for sympy
    the inverse is the first of those printed shortest. *)
Theorem C223_taken : forall (p : pobj T E A V) g q h f, snd (change p (SetProb g q)) = None ->
  (forall c, In c h -> ~ (sets_prob c \/ sets_pfun c)) -> quantiles repr g f -> po_pfun (history p (SetProb g q :: h)) = Some f.
Proof. exact (fun p g q h f H Hb => proj1 (quantiles_after repr log_of p g q h H Hb) f). Qed.

(** C223 (false of the code): if none come with it, those of the former probability stay. *)
Theorem C223_stale_refuted : forall (p : pobj T E A V) g q h, snd (change p (SetProb g q)) = None ->
  (forall c, In c h -> ~ (sets_prob c \/ sets_pfun c)) -> (forall f, ~ quantiles repr g f) ->
  po_pfun (history p (SetProb g q :: h)) = po_pfun p.
Proof. exact (fun p g q h H Hb => proj2 (quantiles_after repr log_of p g q h H Hb)). Qed.

(** C223: so is its sampler; if none comes with it, that of the former probability stays. *)
Theorem C223_sampler : forall (p : pobj T E A V) g q h, snd (change p (SetProb g q)) = None ->
  (forall c, In c h -> ~ sets_prob c) ->
  (forall f, sampler g f -> po_sfun (history p (SetProb g q :: h)) = Some f) /\
  ((forall f, ~ sampler g f) -> po_sfun (history p (SetProb g q :: h)) = po_sfun p).
Proof. exact (sampler_after repr log_of). Qed.

(** C224: slices and containers that are not empty are refused, and all containers
    without a distribution of sympy. *)
Theorem C224_refused : forall (p : pobj T E A V), item p PSlice = Err TypeError /\
  forall k, In k [PList; PDict; PSet; PTuple] ->
    item p (k false) = Err AttributeError /\ (is_sympy p = false -> item p (k true) = Err AttributeError).
Proof. exact containers. Qed.

(** C224: p[''] lists the parts of a distribution of sympy, and these are the names under
    which p[name] finds one. *)
Theorem C224_sympy : forall (p : pobj T E A V) r q h, snd (change p (SetProb (GSympy r) q)) = None ->
  (forall c, In c h -> ~ (sets_prob c \/ sets_distr c)) ->
  let p' := history p (SetProb (GSympy r) q :: h) in
  item p' (PStr "") = Ok (VKeys (map Some (part_names r))) /\
  (forall s, s <> "" -> ((exists e, item p' (PStr s) = Ok (VExpr e)) <-> In s (part_names r))).
Proof. exact (sympy_keys repr log_of). Qed.

(** C224 (false of the code): for every distribution of scipy p[''] is empty, although
    p['prob'] and p['logp'] are there. *)
Theorem C224_scipy_refuted : forall (p : pobj T E A V) d q h, snd (change p (SetProb (GScipy d) q)) = None ->
  (forall c, In c h -> ~ (sets_prob c \/ sets_distr c)) ->
  let p' := history p (SetProb (GScipy d) q :: h) in
  item p' (PStr "") = Ok (VKeys []) /\
  (forall log : bool, item p' (PStr (if log then "logp" else "prob")) = Ok (VExpr (EMeth d (method d log)))).
Proof. exact (scipy_keys repr log_of). Qed.

(** C225 (false of the code): assigning distr shows the new distribution, or after a
    refusal the refused object and no density, while calls go on with the old one. *)
Theorem C225_two_refuted : forall (p : pobj T E A V) d, is_sympy p = true ->
  let p' := fst (change p (SetDistr d)) in
  item p' (PSet true) = Ok (VDistr d) /\
  (snd (change p (SetDistr d)) = None -> forall r, d = DASym r -> rs_pdf r <> None ->
     exists e, rs_pdf r = Some e /\ item p' (PTuple true) = Ok (VExpr (EExpr (if is_log (po_scale p) then log_of e else e)))) /\
  (snd (change p (SetDistr d)) <> None -> exists x, item p' (PTuple true) = Err x) /\
  (forall a, eval_prob ev p' a = eval_prob ev p a).
Proof.
  exact (fun p d S => let H := distr_shown repr log_of p d S in
    conj (proj1 H) (conj (proj1 (proj2 H)) (conj (proj1 (proj2 (proj2 H)))
      (fun a => match proj2 (proj2 (proj2 H)) with
                | conj E1 (conj E2 E3) => f_equal3 (fun t k s => let! e := get t (match k with KScipy | KSympy => Some (if is_log s then "logp" else "prob") | _ => None end) in call ev e a) E1 E2 E3
                end)))).
Qed.
End Thms.

(** C226: a sampler of sympy gives one draw for size 0 and otherwise that many draws, in
    the order in which they are drawn, each converted as asked (none for a negative
    size). *)
Theorem C226_samples : forall {X} (draw : nat -> X) size dtype,
  let conv x := match dtype with Some f => f x | None => x end in
  match sfun draw size dtype with
  | One x => size = 0%Z /\ x = conv (draw 0)
  | Many l => size <> 0%Z /\ length l = Z.to_nat size /\ (forall i, i < length l -> nth_error l i = Some (conv (draw i)))
  end.
Proof. exact @sfun_size. Qed.
Print Assumptions C221_value.
Print Assumptions C221_scale.
Print Assumptions C221_refused.
Print Assumptions C222_accepted_iff.
Print Assumptions C223_taken.
Print Assumptions C223_stale_refuted.
Print Assumptions C223_sampler.
Print Assumptions C224_refused.
Print Assumptions C224_sympy.
Print Assumptions C224_scipy_refuted.
Print Assumptions C225_two_refuted.
Print Assumptions C226_samples.

(** Expressions that are strings, and two distributions. *)
Definition ex_log (e : string) : string := ("log(" ++ e ++ ")")%string.
Definition ex_ev (e : string) (a : nat) : result string := Ok e.
Definition ex_sym : rsym string :=
  mkRS (SObj false true [SObj false false []; SObj true false []]) (Some "x") (Some "exp(-x)") (Some "1-exp(-x)") ["-log(1-y)+0"; "-log(1-y)"; "-log(1-z)"].
Definition ex_sci : sdist nat string := mkSD ["pmf"; "logpmf"; "rvs"] (fun m _ => Ok m).
Definition ex_bare : rsym string := mkRS (SObj false false []) (Some "x") (Some "e") None [].

Definition ex_blank : pobj Q string nat string := blank.

Example C222_there :
  snd (change (fun e => e) ex_log ex_blank (SetProb (GSympy ex_sym) PSNone)) = None /\
  snd (change (fun e => e) ex_log ex_blank (SetProb (GScipy ex_sci) PSNone)) = None /\
  snd (change (fun e => e) ex_log ex_blank (SetProb (GSympy ex_bare) PSNone)) = Some ValueError /\
  usable ex_sym /\ full ex_sci.
Proof.
  split; [reflexivity|]. split; [reflexivity|]. split; [reflexivity|]. split.
  - split; [eexists; reflexivity|]. split; discriminate.
  - right. cbn. intuition discriminate.
Qed.

(** The scale is made logarithmic later; the mass function that follows keeps the
    quantile functions of the first distribution. *)
Example C223_there : let p := history (fun e => e) ex_log ex_blank [SetProb (GSympy ex_sym) PSNone; SetPscale (PSStr "log")] in
  eval_prob ex_ev p 3 = Ok "log(exp(-x))" /\ po_pfun p = Some (EExpr "1-exp(-x)", EExpr "-log(1-y)") /\
  quantiles (A := nat) (V := string) (fun e => e) (GSympy ex_sym) (EExpr "1-exp(-x)", EExpr "-log(1-y)") /\
  (forall f, ~ quantiles (fun e : string => e) (GScipy ex_sci) f) /\
  po_pfun (fst (change (fun e => e) ex_log p (SetProb (GScipy ex_sci) PSNone))) = Some (EExpr "1-exp(-x)", EExpr "-log(1-y)").
Proof.
  split; [reflexivity|]. split; [reflexivity|]. split.
  { exists "1-exp(-x)", "-log(1-y)". split; [reflexivity|]. split; [|reflexivity]. exists ["-log(1-y)+0"], ["-log(1-z)"].
    split; [reflexivity|]. split; repeat constructor. }
  split; [|reflexivity]. intros f. cbn. intuition discriminate.
Qed.

Example C225_there : is_sympy (history (fun e => e) ex_log ex_blank [SetProb (GSympy ex_sym) PSNone]) = true /\
  part_names ex_sym = ["prob"; "logp"; "cdf"; "icdf"; "sfun"] /\
  snd (change (fun e => e) ex_log (history (fun e => e) ex_log ex_blank [SetProb (GSympy ex_sym) PSNone]) (SetDistr (DAJunk 0))) <> None.
Proof. split; [reflexivity|]. split; [reflexivity|discriminate]. Qed.

Example C226_there : sfun (fun i => 10 + i) 3 None = Many [10; 11; 12] /\ sfun (fun i => 10 + i) 0 (Some S) = One 11 /\ sfun (fun i => i) (-2) None = Many [].
Proof. split; [|split]; reflexivity. Qed.

Example C221_refused_there : snd (change (fun e => e) ex_log ex_blank (SetPscale (PSStr "bog"))) <> None /\
  snd (change (fun e => e) ex_log ex_blank (SetPscale (PSStr "log"))) = None.
Proof. split; [discriminate|reflexivity]. Qed.

Example C223_sampler_there :
  po_sfun (history (fun e => e) ex_log ex_blank [SetProb (GScipy ex_sci) PSNone; SetProb (GNum "2") PSNone]) = Some (EMeth ex_sci "rvs") /\
  sampler (E := string) (GScipy ex_sci) (EMeth ex_sci "rvs") /\ (forall f, ~ sampler (A := nat) (V := string) (GNum "2") f).
Proof. split; [reflexivity|]. split; [split; [cbn; tauto|reflexivity]|intros f []]. Qed.
