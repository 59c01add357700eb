(** What is meant by a Markov chain made of proposals that are accepted or not. *)
From Coq Require Import String Ascii ZArith Reals Bool Arith List.
From Verif Require Import Base Num Tensor PScales PScales_Spec Names Distr PDModel PD_Spec VariableModel RVModel FieldModel
  RFModel RF_Spec SDModel SPModel SP_Spec ChainModel.
From Verif Require Field_Spec.
Import ListNotations.
Local Open Scope R_scope.

(** No variable's name ends with a prime. *)
Definition unprimed (names : list string) : Prop := forall k, In k names -> forall k0, k <> (k0 ++ "'")%string.

(** A variable that takes real numbers. *)
Definition real_rv (v : rv R) : Prop :=
  vs_vtype (rv_state v) = Some VFloat /\ vs_vset (rv_state v) <> None.

(** The function q computes [h xs ys] from the values xs of the variables before the
    step and ys after it. *)
Definition computes (names : list string) (h : list (pyval R) -> list (pyval R) -> R) (q : tranfun R) : Prop :=
  forall vals xs ys,
  Forall2 (fun k x => od_get vals k = Some (tscalar x)) names xs ->
  Forall2 (fun k y => od_get vals (k ++ "'")%string = Some (tscalar y)) names ys ->
  exists t, q vals = Ok t /\ shape t = [] /\ get t [] = h xs ys.

(** A move by numbers, variable by variable. *)
Definition moved (x d : list R) : list R := map (fun xd => fst xd + snd xd) (combine x d).

(** The limits of a variable, and whether they are excluded. *)
Record limits : Type := mkLim { lm_open : bool; lm_lo : R; lm_hi : R }.

(** A move from x to y within limits: a closed interval moves y to the nearest end, an
    open one leaves x where it is. *)
Definition kept (l : limits) (x y : R) : R :=
  if lm_open l then (if Rlt_dec (lm_lo l) y then (if Rlt_dec y (lm_hi l) then y else x) else x)
  else Rmax (lm_lo l) (Rmin (lm_hi l) y).
Definition moved_in (lims : list limits) (x d : list R) : list R :=
  map (fun lxd => kept (fst lxd) (fst (snd lxd)) (fst (snd lxd) + snd (snd lxd))) (combine lims (combine x d)).

(** Numbers within limits. *)
Definition within1 (l : limits) (x : R) : Prop :=
  if lm_open l then lm_lo l < x < lm_hi l else lm_lo l <= x <= lm_hi l.
Definition within (lims : list limits) (x : list R) : Prop := Forall2 within1 lims x.

(** A variable with an interval as its set of values. *)
Definition interval_rv (v : rv R) (l : limits) : Prop :=
  let e x := if lm_open l then Tup (AV (PF x)) else Bare (AV (PF x)) in
  rv_state v = mkVS (Some VFloat) (Some [e (lm_lo l); e (lm_hi l)]) /\ lm_lo l <= lm_hi l.

(** The chain from x given numbers to move by and thresholds: a move from x to y is
    made if its threshold does not exceed acc x y. *)
Fixpoint accept_chain (move : list R -> list R -> list R) (acc : list R -> list R -> R) (x : list R)
    (steps : list (list R * R)) : list (list R) :=
  match steps with
  | [] => []
  | (d, u) :: steps' =>
      let y := move x d in
      let x' := if Rle_dec u (acc x y) then y else x in
      x' :: accept_chain move acc x' steps'
  end.

(** The chain of a process started at x: the first move is always made. *)
Definition sampled_chain (move : list R -> list R -> list R) (acc : list R -> list R -> R) (x : list R)
    (steps : list (list R * R)) : list (list R) :=
  match steps with
  | [] => []
  | (d, _) :: steps' => let x0 := move x d in x0 :: accept_chain move acc x0 steps'
  end.

(** Metropolis' rule for a density; numbers below the smallest positive float count
    as that in the denominator. *)
Definition metropolis_rule (dens : list R -> R) (x y : list R) : R := Rmin 1 (dens y / Rmax npz (dens x)).

(** The numbers that the delta function returns in a step. *)
Definition returned (r : crnd R) : list R := map as_num (cr_delta r).

(** The move and the threshold of a step, if nums are the numbers to move by. *)
Definition drawn_by (nums : crnd R -> list R) (r : crnd R) : list R * R := (nums r, cr_thresh r).

(** A sample whose verdict is the distribution of the variables at the numbers x, with
    probability dens x. *)
Definition sample_at {F : Fmt R} {Sc : Type} (names : list string) (dens : list R -> R) (s : @opqrstuv (cdist R) Sc) (x : list R) : Prop :=
  exists d, x_v s = Some d /\ valid_pd (cd_pd d) [] /\ od_keys (p_marg (cd_pd d)) = names /\ p_cond (cd_pd d) = [] /\
    (forall i k, nth_error names i = Some k -> variable (cd_pd d) k = Some (Scal (VNum (nth i x 0)))) /\
    forall a, prob_at (cd_pd d) [] a = dens x.

(** Numbers under which scores are computed without overflow: any on a linear scale,
    logarithms of at most that of the largest float on the plain log scale. *)
Definition scored (s : pspec R) (y : R) : Prop := linear_scale s \/ s = PSCplx 0 0 /\ y <= ln npi.

(** A step with n numbers to move by and a threshold drawn from the unit interval. *)
Definition well_drawn_by (nums : crnd R -> list R) (n : nat) (r : crnd R) : Prop := length (nums r) = n /\ cr_thresh r <= 1.

(** Metropolis' rule, except that proposals of no density are accepted. *)
Definition unless_improper (prop : list R -> list R -> R) (rule : list R -> list R -> R) (x y : list R) : R :=
  if Rle_dec (prop x y) 0 then 1 else rule x y.

(** The ratio of densities, both multiplied with the density of the proposal. *)
Definition weighted_rule (dens : list R -> R) (prop : list R -> list R -> R) (x y : list R) : R :=
  Rmin 1 (dens y * prop x y / Rmax npz (dens x * prop x y)).

(** The rule of Metropolis and Hastings. *)
Definition hastings_rule (dens : list R -> R) (prop : list R -> list R -> R) (x y : list R) : R :=
  Rmin 1 (dens y * prop y x / (dens x * prop x y)).

(** Detailed balance of a rule with respect to a density and proposals. *)
Definition balances (dens : list R -> R) (prop : list R -> list R -> R) (rule : list R -> list R -> R) (x y : list R) : Prop :=
  dens x * prop x y * rule x y = dens y * prop y x * rule y x.

(** A function of the present and next values as a function of lists of reals. *)
Definition prop_density (s : pspec R) (q : list (pyval R) -> list (pyval R) -> R) (x y : list R) : R :=
  denote s (q (map PF x) (map PF y)).

(** A value of a bool or real variable. *)
Definition value_for (v : rv R) (x : pyval R) : Prop :=
  match vs_vtype (rv_state v), x with Some VBool, PB _ => True | Some VFloat, PF _ => True | _, _ => False end.

(** A number drawn from -p to p is added to a real value, while a bool stays. *)
Definition uniform_step (p : R) (v : rv R) (x : pyval R) (u : R) : pyval R :=
  match vs_vtype (rv_state v) with Some VBool => x | _ => PF (as_num x + (2 * u - 1) * p) end.

(** Every sampler of the process, created at any time and stepped in any order among
    others while the process is not reset, yields the samples of the chain from start
    that moves by nums. *)
Definition samples_by {F : Fmt R} {TR : Trunc R} (nums : crnd R -> list R) (ch : chain R) (m : mcmc) (names : list string) (start : list R)
    (dens : list R -> R) (move : list R -> list R -> list R) (rule : list R -> list R -> R) : Prop :=
  forall pre post, no_reset (pre ++ post) -> steps_of (created pre) pre = [] ->
  Forall (well_drawn_by nums (length names)) (steps_of (created pre) post) ->
  exists samples,
    outcomes_of (created pre) (snd (run (chain_engine ch) (chain_config ch m) new_process (pre ++ ENew None :: post)))
      = map (fun s => Yield (OutFull s)) samples /\
    Forall2 (sample_at names dens) samples (sampled_chain move rule start (map (drawn_by nums) (steps_of (created pre) post))).

(** The same if the numbers are those that the delta function returns. *)
Definition samples_as {F : Fmt R} {TR : Trunc R} := samples_by (F := F) (TR := TR) returned.

(** The numbers to move by after set_delta([p]), set_delta(x) or set_delta((x,)) on a
    field of variables of the given lengths: drawn uniformly from -p to p, always x, or
    the coordinates of a vector of length x in the direction drawn (none unless
    one number is drawn for each variable, and not zeros only).  With scale=True p and x are multiplied with the lengths, and on
    the sphere also with their Euclidean norm. *)
Definition set_moves (g : fdelta_in R) (scale : bool) (lens : list R) (r : crnd R) : list R :=
  match g with
  | GList p => map (fun il => (2 * d_unif (cr_vars r (fst il)) 0%nat - 1) * (if scale then p * snd il else p))
                 (combine (seq 0 (length lens)) lens)
  | GNum x => map (fun len => if scale then x * len else x) lens
  | GTup x => if Req_EM_T (Field_Spec.sumsq (cr_sphere r)) 0 then [] else if negb (length (cr_sphere r) =? length lens)%nat then []
              else map (fun ul => (if scale then x * sqrt (Field_Spec.sumsq lens) * snd ul else x) * fst ul / sqrt (Field_Spec.sumsq (cr_sphere r)))
                     (combine (cr_sphere r) lens)
  | _ => []
  end.

(** A number, a list of one number or a tuple of one number. *)
Definition moving (g : fdelta_in R) : Prop := match g with GNum _ | GList _ | GTup _ => True | _ => False end.
