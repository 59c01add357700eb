(** What is meant by rejection sampling. *)
From Coq Require Import String Ascii ZArith Reals Bool Arith Permutation List.
From Verif Require Import Base Num Tensor PScales PScales_Spec Names Distr PDModel PD_Spec VariableModel RVModel FieldModel
  RFModel RF_Spec SDModel SD_Spec SPModel SP_Spec ChainModel Chain_Spec OmcModel.
Import ListNotations.
Local Open Scope R_scope.

(** The function g computes gd from the values of the variables, position by position,
    with numpy's broadcasting. *)
Definition proposes (names : list string) (gd : list (pyval R) -> R) (g : propfun R) : Prop :=
  elementwise names gd (fun vals _ => g vals).

(** The numbers drawn uniformly between the limits of the variables. *)
Definition drawn_in (lims : list limits) (r : ornd R) : list R :=
  map (fun il => lm_lo (snd il) + (lm_hi (snd il) - lm_lo (snd il)) * r_unif (or_vars r (fst il)) 0%nat)
    (combine (seq 0 (length lims)) lims).

(** A dictionary that gives each variable a number, or {0} where there is none. *)
Definition asks (names : list string) (d : odict (fentry R)) (given : list (option R)) : Prop :=
  NoDup (od_keys d) /\ incl (od_keys d) names /\
  Forall2 (fun k y => od_get d k = Some (One (match y with Some y => FNum (PF y) | None => FUnit 0 end))) names given.

(** The numbers given, and those drawn for the others. *)
Definition fill (given : list (option R)) (l : list R) : list R :=
  map (fun gx => match fst gx with Some y => y | None => snd gx end) (combine given l).

(** A distribution of the variables marg given cond, at the numbers x, with
    probability y on the scale ps. *)
Definition stands_at {F : Fmt R} (p : pd R) (ps : pscale R) (marg cond : list string) (x : list R) (y : R) : Prop :=
  valid_pd p [] /\ p_pscale p = ps /\ od_keys (p_marg p) = marg /\ od_keys (p_cond p) = cond /\
  (forall i k, nth_error (marg ++ cond)%list i = Some k -> variable p k = Some (Scal (VNum (nth i x 0)))) /\
  forall a, prob_at p [] a = denote (spec_of ps) y.

Definition primed (names : list string) : list string := map (fun k => k ++ "'")%string names.

(** A sample at the numbers x: the probability of x, under the variables' names, the
    proposal, under primed names, and whether the score reaches the threshold t. *)
Definition sample_of {F : Fmt R} (leafs roots : list string) (ps : pscale R) (h gd : list (pyval R) -> R) (score : R -> R -> R)
    (s : @opqrstuv (odist R) R) (xt : list R * R) : Prop :=
  let x := fst xt in let t := snd xt in
  let sc := score (h (map PF x)) (gd (map PF x)) in
  exists p q, x_opqr s = mkOPQR None (Some p) (Some q) None /\
    stands_at (od_pd p) ps leafs roots x (h (map PF x)) /\
    stands_at (od_pd q) ps (primed (leafs ++ roots)) [] x (gd (map PF x)) /\
    x_s s = Some sc /\ x_t s = Some t /\
    (t <= sc -> x_u s = VTrue /\ x_v s = Some p) /\ (sc < t -> x_u s = VFalse).

(** The points of a sampler: that of the first step is filled in where the sampler
    was given numbers, the others are drawn. *)
Definition points (lims : list limits) (given : list (option R)) (rs : list (ornd R)) : list (list R * R) :=
  match rs with
  | [] => []
  | r :: rs => (fill given (drawn_in lims r), or_thresh r) :: map (fun r => (drawn_in lims r, or_thresh r)) rs
  end.

(** Every sampler of the process, created at any time and stepped in any order among
    others while the process is not reset, yields samples at the points. *)
Definition omc_samples {F : Fmt R} {TR : Trunc R} (o : omc R) (score : R -> R -> R) (leafs roots : list string) (h gd : list (pyval R) -> R)
    (pts : list (ornd R) -> list (list R * R)) : Prop :=
  forall pre post, no_reset (pre ++ post) -> steps_of (created pre) pre = [] ->
  exists samples,
    outcomes_of (created pre) (snd (run (om_engine o) (om_config o score) new_process (pre ++ ENew None :: post)))
      = map (fun s => Yield (OutFull s)) samples /\
    Forall2 (sample_of leafs roots (sd_pscale (om_sd o)) h gd score) samples (pts (steps_of (created pre) post)).

(** A process made of leafs and roots whose values are intervals. *)
Definition omc_process {F : Fmt R} (leafs roots : list (rv R)) (lims : list limits) : Prop :=
  printable F /\ leafs <> [] /\ named_apart (names_of (leafs ++ roots)) /\ unprimed (names_of (leafs ++ roots)) /\
  Forall2 interval_rv (leafs ++ roots) lims /\ scales_ok (leafs ++ roots) /\
  (forall v, (leafs ++ roots)%list = [v] -> rv_tran v = TRNone).

(** With a delta set, the later points are the first one. *)
Definition stuck (lims : list limits) (given : list (option R)) (rs : list (ornd R)) : list (list R * R) :=
  match rs with
  | [] => []
  | r0 :: _ => map (fun r => (fill given (drawn_in lims r0), or_thresh r)) rs
  end.

(** ** Summaries *)

(** The points whose score reaches the threshold. *)
Definition accepted (h gd : list (pyval R) -> R) (score : R -> R -> R) (pts : list (list R * R)) : list (list R * R) :=
  filter (fun xt => if Rle_dec (snd xt) (score (h (map PF (fst xt))) (gd (map PF (fst xt)))) then true else false) pts.

(** One distribution along one axis, whose position j holds the numbers and the
    probability of the j-th point. *)
Definition columns (p : pd R) (ps : pscale R) (marg cond : list string) (pts : list (list R * R)) (y : list (pyval R) -> R) : Prop :=
  od_keys (p_marg p) = marg /\ od_keys (p_cond p) = cond /\ p_keylist p = (marg ++ cond)%list /\ p_pscale p = ps /\
  (forall i k, nth_error (marg ++ cond)%list i = Some k -> od_get (p_dims p) k = Some (Some 0%Z) /\
     exists a, od_get (p_vals p) k = Some (VArr a) /\ shape a = [length pts] /\
       forall j x, nth_error pts j = Some x -> get a [j] = nth i (fst x) 0) /\
  exists t, p_prob p = Some t /\ shape t = [length pts] /\
    forall j x, nth_error pts j = Some x -> denote (spec_of ps) (get t [j]) = denote (spec_of ps) (y (map PF (fst x))).

(** ** The processes *)

(** A process made by set_prob of a function that computes h, whose proposal function
    g computes gd. *)
Definition proposal_process {F : Fmt R} {TR : Trunc R} (leafs roots : list (rv R)) (lims : list limits) (d : sdep R) (h : list (pyval R) -> R)
    (g : propfun R) (gd : list (pyval R) -> R) : Prop :=
  let names := names_of (leafs ++ roots) in
  omc_process (F := F) leafs roots lims /\ valid_scale (spec_of (sd_pscale d)) /\ proposes names gd g /\
  exists d0 fn given, make_sd leafs roots None = Ok d0 /\ sd_set_prob d0 (Some fn) given = Ok d /\ elementwise names h fn.

(** The arguments of a sampler, and the variables in the order of their set. *)
Definition sampler_of (leafs roots : list (rv R)) (start : odict (fentry R)) (given : list (option R)) (keyset : list string) : Prop :=
  Permutation keyset (names_of (leafs ++ roots)) /\ asks (names_of (leafs ++ roots)) start given.

(** What a sampler yields, created after pre. *)
Definition yields {F : Fmt R} {TR : Trunc R} (o : omc R) (score : R -> R -> R) (pre post : list (event (ornd R))) (samples : list (@opqrstuv (odist R) R)) : Prop :=
  outcomes_of (created pre) (snd (run (om_engine o) (om_config o score) new_process (pre ++ ENew None :: post)))
    = map (fun s => Yield (OutFull s)) samples.

(** The value of a variable in a sample. *)
Definition value_in (s : @opqrstuv (odist R) R) (k : string) (x : R) : Prop :=
  exists p, f_p (x_opqr s) = Some p /\ variable (od_pd p) k = Some (Scal (VNum x)).
