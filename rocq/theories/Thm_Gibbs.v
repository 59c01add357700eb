(** Property theorems about samplers that draw their variables (C138-C145). *)
From Coq Require Import String ZArith Reals Lra Lia Bool Arith Permutation List.
From Verif Require Import Base Num Tensor RNumLemmas PScales PScales_Spec Distr PDModel PD_Spec VariableModel RVModel RV_Spec FieldModel Field_Spec
  RFModel RF_Spec RF_Thm SDModel SD_Spec SD_Ex SPModel SP_Spec PD_Examples PD_ProductEx Likelihoods CondCovModel CondCov_Spec CondCov_Proofs ChainModel Chain_Spec Chain_Ex
  GibbsModel Gibbs_Spec Gibbs_Proofs Gibbs_Thm Gibbs_More Gibbs_Ex.
Import ListNotations.
Local Open Scope R_scope.

(** C138: a process with a function that draws a variable given all values, tsteps or
    none, and scores by the name of gibbs: whatever the history of its samplers, each
    yields the chain that starts at the given values and for every sample draws the
    variables of a block in order, each from the values that the others have by then,
    and leaves the others alone.  Nothing is rejected. *)
Theorem C138_gibbs_chain :
  forall (F : Fmt R) (TR : Trunc R) (vs : list (rv R)) (start : list R),
  let names := names_of vs in
  let n := length vs in
  printable F -> vs <> [] -> named_apart names -> unprimed names ->
  (forall v, In v vs -> vs_vset (rv_state v) <> None) -> scales_ok vs -> length start = n ->
  forall ts, not_negative ts ->
  exists d0, make_sd vs [] None = Ok d0 /\
  forall (fn : probfun R) (h : list (pyval R) -> R) given d tran tf c G,
  elementwise names h fn -> sd_set_prob d0 (Some fn) given = Ok d -> valid_scale (spec_of (sd_pscale d)) ->
  (forall t, tran = Some t -> exists qd, computes names qd (tran_of t)) -> draws names c (forward tf) ->
  set_tfun d tran tf ts (combine names (map PF start)) = Ok G ->
  scans_as G GibbsRule (fun _ => True) names start (fun x => denote (spec_of (sd_pscale d)) (h (map PF x)))
    (by_scan names c (scan n (at_a_time ts))) None.
Proof. exact @gibbs_law. Qed.
Print Assumptions C138_gibbs_chain.

Example C138_instance :
  printable fmt_ex /\ named_apart (names_of [ex_x; ex_y]) /\ unprimed (names_of [ex_x; ex_y]) /\ scales_ok [ex_x; ex_y] /\
  (forall v, In v [ex_x; ex_y] -> vs_vset (rv_state v) <> None) /\ not_negative (Some 1%Z) /\
  (forall c, draws (names_of [ex_x; ex_y]) c (forward (TfOne (gfunc (names_of [ex_x; ex_y]) c)))) /\
  (forall (TR : Trunc R) d0, make_sd [ex_x; ex_y] [] None = Ok d0 -> forall fn h given d, elementwise (names_of [ex_x; ex_y]) h fn ->
     sd_set_prob d0 (Some fn) given = Ok d -> forall tran tf ts start, exists G, set_tfun d tran tf ts start = Ok G) /\
  (forall r, tfun_samples (by_scan ["x"; "y"]%string ex_c (scan 2 (Some 1%nat))) None [0; 0] (combine (seq 0 3) [r; r; r]) = [[1; 0]; [1; 2]; [3; 2]]).
Proof.
  destruct ex_field as (H1 & H2 & H3 & _). split; [exact ex_printable|]. split; [exact H1|]. split; [exact H2|]. split; [exact H3|].
  split; [exact ex_vset|]. split; [intros t E; injection E as <-; discriminate|]. split; [intros c; apply gfunc_draws; apply H1|].
  split; [|exact ex_scan]. intros TR d0 E0 fn h given d EL ES tran tf ts start. eexists. exact (ex_tfun ex_printable fn h given d EL d0 E0 ES tran tf ts start).
Qed.

(** C139: if the process has one sampler, the sample with number j draws the block with
    number j, counted round and round: any as many consecutive samples as there are
    blocks draw each variable exactly once. *)
Theorem C139_alone :
  forall (F : Fmt R) (TR : Trunc R) (vs : list (rv R)) (start : list R),
  let names := names_of vs in
  let n := length vs in
  printable F -> vs <> [] -> named_apart names -> unprimed names ->
  (forall v, In v vs -> vs_vset (rv_state v) <> None) -> scales_ok vs -> length start = n ->
  forall ts, not_negative ts ->
  exists d0, make_sd vs [] None = Ok d0 /\
  forall (fn : probfun R) (h : list (pyval R) -> R) given d tran tf c G,
  elementwise names h fn -> sd_set_prob d0 (Some fn) given = Ok d -> valid_scale (spec_of (sd_pscale d)) ->
  (forall t, tran = Some t -> exists qd, computes names qd (tran_of t)) -> draws names c (forward tf) ->
  set_tfun d tran tf ts (combine names (map PF start)) = Ok G ->
  forall rs, exists samples, outcomes_of 0 (gb_run G GibbsRule None (alone rs)) = map (fun s => Yield (OutFull s)) samples /\
    Forall2 (sample_at names (fun x => denote (spec_of (sd_pscale d)) (h (map PF x)))) samples
      (tfun_samples (by_scan names c (scan n (at_a_time ts))) None start (combine (seq 0 (length rs)) rs)).
Proof. exact @gibbs_alone. Qed.
Print Assumptions C139_alone.

Theorem C139_each_once :
  forall n t k i : nat, (0 < t)%nat -> (i < n)%nat ->
  length (filter (fun j => existsb (Nat.eqb i) (scan n (Some t) j)) (seq k (blocks n t))) = 1%nat.
Proof. exact block_once. Qed.
Print Assumptions C139_each_once.

(** C139 (false of the code): the position in the scan belongs to the process, not to
    the sampler.  As many samplers as there are blocks, stepped in turn, draw one and
    the same block each for ever: all their other variables stay where they started. *)
Theorem C139_in_turn_refuted :
  forall (F : Fmt R) (TR : Trunc R) (vs : list (rv R)) (start : list R),
  let names := names_of vs in
  let n := length vs in
  printable F -> vs <> [] -> named_apart names -> unprimed names ->
  (forall v, In v vs -> vs_vset (rv_state v) <> None) -> scales_ok vs -> length start = n ->
  forall t, (0 < t)%nat ->
  exists d0, make_sd vs [] None = Ok d0 /\
  forall (fn : probfun R) (h : list (pyval R) -> R) given d tran tf c G,
  elementwise names h fn -> sd_set_prob d0 (Some fn) given = Ok d -> valid_scale (spec_of (sd_pscale d)) ->
  (forall t, tran = Some t -> exists qd, computes names qd (tran_of t)) -> draws names c (forward tf) ->
  set_tfun d tran tf (Some (Z.of_nat t)) (combine names (map PF start)) = Ok G ->
  forall rounds g, (g < blocks n t)%nat ->
  exists samples, outcomes_of g (gb_run G GibbsRule None (in_turn (blocks n t) rounds)) = map (fun s => Yield (OutFull s)) samples /\
    length samples = length rounds /\
    Forall (fun s => exists x, sample_at names (fun x => denote (spec_of (sd_pscale d)) (h (map PF x))) s x /\
                     forall i, (i / t <> g)%nat -> nth i x 0 = nth i start 0) samples.
Proof. exact @gibbs_stuck. Qed.
Print Assumptions C139_in_turn_refuted.

Example C139_instance :
  blocks 5 2 = 3%nat /\ map (scan 5 (Some 2%nat)) (seq 0 4) = [[0; 1]; [2; 3]; [4]; [0; 1]]%nat /\
  in_turn 2 [fun _ => mkGR (fun _ _ => 0) 1] = [ENew None; ENew None; EStep 0 (mkGR (fun _ _ => 0) 1); EStep 1 (mkGR (fun _ _ => 0) 1)].
Proof. repeat split. Qed.

(** C140: with a scipy object as transition the function draws variable number i, the
    values being in the order of the field, as m + s PhiInv(p), where m and s are its
    mean and standard deviation given the others under the Gaussian, and p is drawn
    uniformly from a range. *)
Theorem C140_conditional_draws :
  forall (inv : nat -> (nat -> nat -> R) -> nat -> nat -> R) (Phi PhiInv : R -> R) (n : nat) (mean : nat -> R) (cov prec : nat -> nat -> R)
    (lims : nat -> R * R) (junk : nat -> R),
  symmetric n cov -> positive_definite n cov -> is_inverse n cov prec ->
  (forall i, (i < n)%nat -> is_inverse (n - 1) (minor cov i) (inv (n - 1)%nat (minor cov i))) ->
  exists c, (forall names, NoDup names -> length names = n -> draws names c (sample_cond_cov PhiInv (make_cc inv Phi n mean cov lims) junk)) /\
  forall x i u, length x = n -> (i < n)%nat -> exists m s, conditional_gaussian n prec mean (fun j => nth j x 0) i m s /\
    let lo := Phi ((fst (lims i) - mean i) / s) in let hi := Phi ((snd (lims i) - mean i) / s) in
    c x i u = m + s * PhiInv (lo + (hi - lo) * u 0%nat).
Proof. exact scipy_any. Qed.
Print Assumptions C140_conditional_draws.

Example C140_instance :
  symmetric 2 ex_cov /\ positive_definite 2 ex_cov /\ is_inverse 2 ex_cov ex_prec /\
  (forall i, (i < 2)%nat -> is_inverse (2 - 1) (minor ex_cov i) (ex_inv (2 - 1)%nat (minor ex_cov i))) /\
  (forall a b, conditional_gaussian 2 ex_prec ex_mean (fun j => nth j [a; b] 0) 1 (5 + a / 2) (sqrt (3 / 2))).
Proof.
  split; [exact ex_sym|]. split; [exact ex_pd|]. split; [exact ex_is_inv|]. split; [exact ex_minor_inv|]. intros a b. exact (ex_cg a b 1 (le_n 2)).
Qed.

(** C141: a step from a dictionary that names the variables in the order ks draws the
    i-th of them as the function draws variable number i given the values in that
    order; by C140 a scipy object conditions by number, whatever the names. *)
Theorem C141_by_position :
  forall (F : Fmt R) (vs : list (rv R)),
  let names := names_of vs in
  let n := length vs in
  printable F -> vs <> [] -> named_apart names -> unprimed names ->
  (forall v, In v vs -> vs_vset (rv_state v) <> None) -> scales_ok vs ->
  exists d0, make_sd vs [] None = Ok d0 /\
  forall (fn : probfun R) (h : list (pyval R) -> R) given d tran tf ts c G start (reverse : bool) ks xs r,
  elementwise names h fn -> sd_set_prob d0 (Some fn) given = Ok d ->
  (forall t, tran = Some t -> exists qd, computes names qd (match t with TranOne q => q | TranTwo q q' => if reverse then q' else q end)) ->
  set_tfun d tran tf ts start = Ok G -> not_negative ts -> Permutation ks names -> length xs = n -> draws ks c (forward tf) ->
  let ys := by_scan ks c (scan n (at_a_time ts)) 0 xs r in
  exists pos pr, gb_step G reverse (combine ks (map PF xs)) None r = (pos, Ok pr) /\
    forall i k, nth_error ks i = Some k ->
    od_get (cd_held pr) k = Some (PF (nth i xs 0)) /\ od_get (cd_held pr) (k ++ "'")%string = Some (PF (nth i ys 0)).
Proof. exact @step_order. Qed.
Print Assumptions C141_by_position.

(** C141 (false of the code): so the values drawn depend on the order in which the
    dictionary names the variables, with the same random numbers. *)
Theorem C141_order_refuted :
  forall (F : Fmt R) (TR : Trunc R), printable F ->
  exists (G : gibbs R) r pos pos' pr pr',
    gb_tfun G = TfOne (sample_cond_cov logit (make_cc ex_inv logistic 2 ex_mean ex_cov ex_ulims) (fun _ => 0)) /\ gb_keys G = ["x"; "y"]%string /\
    gb_step G false [("x", PF 0); ("y", PF 5)]%string None r = (pos, Ok pr) /\
    gb_step G false [("y", PF 5); ("x", PF 0)]%string None r = (pos', Ok pr') /\
    od_get (cd_held pr) "y'" = Some (PF 5) /\ od_get (cd_held pr') "y'" = Some (PF (- (5 / 2))).
Proof. exact ex_order. Qed.
Print Assumptions C141_order_refuted.

Example C141_instance :
  printable fmt_ex /\ Permutation ["y"; "x"]%string (names_of [ex_x; ex_y]) /\
  (forall c, draws ["y"; "x"]%string c (forward (TfOne (gfunc ["y"; "x"]%string c)))).
Proof. split; [exact ex_printable|]. split; [constructor|]. intros c. apply gfunc_draws. repeat constructor; cbn; intuition discriminate. Qed.

(** C142 (false of the code): negative tsteps are accepted; then the first sample of all
    samplers draws all variables but the last ones, and no later sample of any sampler
    draws anything. *)
Theorem C142_negative_refuted :
  forall (F : Fmt R) (TR : Trunc R) (vs : list (rv R)) (start : list R),
  let names := names_of vs in
  let n := length vs in
  printable F -> vs <> [] -> named_apart names -> unprimed names ->
  (forall v, In v vs -> vs_vset (rv_state v) <> None) -> scales_ok vs -> length start = n ->
  forall t, (t < 0)%Z ->
  exists d0, make_sd vs [] None = Ok d0 /\
  forall (fn : probfun R) (h : list (pyval R) -> R) given d tran tf c G,
  elementwise names h fn -> sd_set_prob d0 (Some fn) given = Ok d -> valid_scale (spec_of (sd_pscale d)) ->
  (forall t, tran = Some t -> exists qd, computes names qd (tran_of t)) -> draws names c (forward tf) ->
  set_tfun d tran tf (Some t) (combine names (map PF start)) = Ok G ->
  scans_as G GibbsRule (fun _ => True) names start (fun x => denote (spec_of (sd_pscale d)) (h (map PF x)))
    (by_scan names c (first_only n t)) None.
Proof. exact @negative_law. Qed.
Print Assumptions C142_negative_refuted.

Theorem C142_never_again :
  forall names c n t j x r, by_scan names c (first_only n t) (S j) x r = x.
Proof. exact only_first. Qed.
Print Assumptions C142_never_again.

Example C142_instance : (-1 < 0)%Z /\ map (first_only 3 (-1)) (seq 0 3) = [[0; 1]; []; []]%nat.
Proof. split; reflexivity. Qed.

(** C143 (false of the code): given a pair of functions, a step in reverse draws by the
    first of them too. *)
Theorem C143_reverse_refuted :
  forall (F : Fmt R) (vs : list (rv R)),
  let names := names_of vs in
  let n := length vs in
  printable F -> vs <> [] -> named_apart names -> unprimed names ->
  (forall v, In v vs -> vs_vset (rv_state v) <> None) -> scales_ok vs ->
  exists d0, make_sd vs [] None = Ok d0 /\
  forall (fn : probfun R) (h : list (pyval R) -> R) given d f f' c G start xs r,
  elementwise names h fn -> sd_set_prob d0 (Some fn) given = Ok d ->
  set_tfun d None (TfTwo f f') None start = Ok G -> length xs = n -> draws names c f ->
  let ys := by_scan names c (scan n None) 0 xs r in
  exists pos pr, gb_step G true (combine names (map PF xs)) None r = (pos, Ok pr) /\
    forall i k, nth_error names i = Some k ->
    od_get (cd_held pr) k = Some (PF (nth i xs 0)) /\ od_get (cd_held pr) (k ++ "'")%string = Some (PF (nth i ys 0)).
Proof. exact @reverse_draws. Qed.
Print Assumptions C143_reverse_refuted.

(** C143 (false of the code): the pair itself is refused although it is documented, only
    a CF made of the pair is taken. *)
Theorem C143_tuple_refuted :
  forall (T : Type) (N : Num T) (sd : sdep T) tran arg ts start G,
  call_set_tfun sd tran arg ts start = Ok G -> (exists f, arg = ArgFun f) \/ (exists c, arg = ArgCF c).
Proof. exact @tuple_refused. Qed.
Print Assumptions C143_tuple_refuted.

Example C143_instance :
  let names := names_of [ex_x; ex_y] in
  draws names ex_c (gfunc names ex_c) /\
  (forall r, by_scan names ex_c (scan 2 None) 0 [0; 0] r = [1; 2]) /\
  (forall r, by_scan names (fun _ _ _ => 7) (scan 2 None) 0 [0; 0] r = [7; 7]).
Proof.
  destruct ex_field as (H1 & _). split; [apply gfunc_draws; apply H1|]. split; intros r; [|reflexivity].
  cbn. repeat f_equal; lra.
Qed.

(** C144: draws can be combined with metropolis and hastings scores; the density of the
    draws is taken to be constant. *)
Theorem C144_metropolis_chain :
  forall (F : Fmt R) (TR : Trunc R) (vs : list (rv R)) (start : list R),
  let names := names_of vs in
  let n := length vs in
  printable F -> vs <> [] -> named_apart names -> unprimed names ->
  (forall v, In v vs -> vs_vset (rv_state v) <> None) -> scales_ok vs -> length start = n ->
  forall ts, not_negative ts ->
  exists d0, make_sd vs [] None = Ok d0 /\
  forall (fn : probfun R) (h : list (pyval R) -> R) given d tran tf c G,
  elementwise names h fn -> sd_set_prob d0 (Some fn) given = Ok d ->
  (forall x, length x = n -> scored (spec_of (sd_pscale d)) (h (map PF x))) ->
  (forall t, tran = Some t -> exists qd, computes names qd (tran_of t)) -> draws names c (forward tf) ->
  set_tfun d tran tf ts (combine names (map PF start)) = Ok G ->
  let dens x := denote (spec_of (sd_pscale d)) (h (map PF x)) in
  scans_as G (Mcmc Metropolis) (fun r => gr_thresh r <= 1) names start dens (by_scan names c (scan n (at_a_time ts)))
    (Some (metropolis_rule dens)).
Proof. exact @metropolis_tfun. Qed.
Print Assumptions C144_metropolis_chain.

Theorem C144_hastings_chain :
  forall (F : Fmt R) (TR : Trunc R) (vs : list (rv R)) (start : list R),
  let names := names_of vs in
  let n := length vs in
  printable F -> vs <> [] -> named_apart names -> unprimed names ->
  (forall v, In v vs -> vs_vset (rv_state v) <> None) -> scales_ok vs -> length start = n ->
  forall ts, not_negative ts ->
  exists d0, make_sd vs [] None = Ok d0 /\
  forall (fn : probfun R) (h : list (pyval R) -> R) given d tf c G,
  elementwise names h fn -> sd_set_prob d0 (Some fn) given = Ok d ->
  (forall x, length x = n -> scored (spec_of (sd_pscale d)) (h (map PF x))) ->
  draws names c (forward tf) ->
  set_tfun d None tf ts (combine names (map PF start)) = Ok G ->
  let dens x := denote (spec_of (sd_pscale d)) (h (map PF x)) in
  scans_as G (Mcmc Hastings) (fun r => gr_thresh r <= 1) names start dens (by_scan names c (scan n (at_a_time ts)))
    (Some (weighted_rule dens (fun _ _ => factor (spec_of (sd_pscale d))))).
Proof. exact @hastings_tfun. Qed.
Print Assumptions C144_hastings_chain.

(** C144 (false of the code): so if prop is the density of what is drawn, the chain is in
    detailed balance with the density of the process only where prop is symmetric. *)
Theorem C144_balance_refuted :
  forall (dens : list R -> R) (prop : list R -> list R -> R) w x y,
  0 < w -> 0 < dens x -> 0 < dens y -> npz <= dens x * w \/ npz <= dens y * w ->
  (balances dens prop (weighted_rule dens (fun _ _ => w)) x y <-> prop x y = prop y x).
Proof. exact constant_balance. Qed.
Print Assumptions C144_balance_refuted.

Example C144_instance :
  let dens x := nth 0 x 0 in let prop (_ : list R) (y : list R) := dens y in
  0 < dens [1] /\ 0 < dens [2] /\ npz <= dens [1] * 1 /\ prop [1] [2] <> prop [2] [1].
Proof. pose proof npz_lt_1. cbn. repeat split; lra. Qed.

(** C145: a process of one variable takes no such function. *)
Theorem C145_single_rejected :
  forall (F : Fmt R) (TR : Trunc R) (v : rv R),
  printable F -> named_apart (names_of [v]) -> vs_vset (rv_state v) <> None -> scales_ok [v] ->
  exists d0, make_sd [v] [] None = Ok d0 /\ forall (fn : probfun R) h given d,
  elementwise (names_of [v]) h fn -> sd_set_prob d0 (Some fn) given = Ok d ->
  forall tran tf ts start, set_tfun d tran tf ts start = Err AssertionError.
Proof. exact @tfun_single. Qed.
Print Assumptions C145_single_rejected.

Example C145_instance : named_apart (names_of [ex_x]) /\ vs_vset (rv_state ex_x) <> None /\ scales_ok [ex_x].
Proof.
  split; [|split; [discriminate|]].
  - split; [repeat constructor; cbn; intuition discriminate|]. intros k [<-|[]]. split; [apply ex_simple; reflexivity|]. cbn; intuition discriminate.
  - left. repeat constructor; cbn; try lra; destruct (Req_EM_T _ 0); try reflexivity; lra.
Qed.
