(** Property theorems about proposal functions and rejection sampling (C148-C154). *)
From Coq Require Import String Ascii ZArith Reals Bool Arith Permutation List.
From Verif Require Import Base Num Tensor PScales PScales_Spec Names Distr PDModel PD_Spec VariableModel RVModel RV_Spec FieldModel Field_Spec
  Field_Dims RFModel RF_Spec SDModel SD_Spec SPModel SP_Spec ChainModel Chain_Spec PD_Examples RF_Thm SD_Ex Chain_Ex OmcModel Omc_Spec Omc_Proofs Omc_Thm Omc_Ex.
Import ListNotations.
Local Open Scope R_scope.

(** C148: propose returns a distribution over all variables under the names with the
    suffix, none of them conditional, whose probabilities are those that the proposal
    function gives at the values asked for. *)
Theorem C148_propose :
  forall (F : Fmt R) (TR : Trunc R) (leafs roots : list (rv R)) (values : odict (fentry R))
    (x : nat -> fval R) (a : nat -> values_in R) (r : nat -> rnd R) (A : nat -> tensor (pyval R)) (suf : string),
  let vs := (leafs ++ roots)%list in let with_suffix := map (fun k => k ++ suf)%string in
  printable F -> leafs <> [] -> named_apart (names_of vs) -> scales_ok vs ->
  NoDup (od_keys values) -> incl (od_keys values) (names_of vs) ->
  (forall i v, nth_error vs i = Some v -> evaluates v values (x i) (a i) (r i) (A i)) ->
  named_apart (with_suffix (names_of vs)) ->
  (suf = ""%string \/ forall k k', In k (names_of vs) -> In k' (names_of vs) -> (k ++ suf)%string <> k') ->
  let L := filter (needs_axis values) (names_of vs) in
  exists d0, make_sd leafs roots None = Ok d0 /\ forall (fn : probfun R) given d g gd,
  sd_set_prob d0 (Some fn) given = Ok d -> proposes (names_of vs) gd g ->
  exists p held, sd_propose d g values suf r = Ok (mkOD p held) /\
    valid_pd p (with_suffix L) /\ od_keys (p_marg p) = with_suffix (names_of vs) /\ od_keys (p_cond p) = [] /\
    p_pscale p = sd_pscale d /\
    (forall i v, nth_error vs i = Some v -> variable p (rv_name v ++ suf)%string = Some (var_of (to_value (A i)))) /\
    forall s, in_bounds p (with_suffix L) s ->
      prob_at p (with_suffix L) s = denote (spec_of (sd_pscale d)) (gd (at_positions values vs A (fun k => s (k ++ suf)%string))).
Proof. exact @proposed. Qed.
Print Assumptions C148_propose.

Example C148_instance :
  named_apart (map (fun k => k ++ "'")%string (names_of ([ex_die] ++ [ex_coin]))) /\
  (forall k k', In k (names_of ([ex_die] ++ [ex_coin])) -> In k' (names_of ([ex_die] ++ [ex_coin])) -> (k ++ "'")%string <> k') /\
  forall gd, proposes (names_of ([ex_die] ++ [ex_coin])) gd (propose_by (names_of ([ex_die] ++ [ex_coin])) gd).
Proof. exact (conj (proj1 ex_primes) (conj (proj2 ex_primes) (propose_by_ok _))). Qed.

(** C149: a sampler of a process with a proposal function and no delta yields at each
    step the probability and the proposal at a point drawn uniformly between the
    limits of the variables, and accepts it exactly if the score reaches the threshold. *)
Theorem C149_rejection :
  forall (F : Fmt R) (TR : Trunc R) (leafs roots : list (rv R)) (lims : list limits) (d : sdep R) (h : list (pyval R) -> R)
    g gd start given keyset score,
  proposal_process leafs roots lims d h g gd -> sampler_of leafs roots start given keyset ->
  omc_samples (mkOmc d g false "'" start keyset) score (names_of leafs) (names_of roots) h gd (points lims given).
Proof. exact @rejection. Qed.
Print Assumptions C149_rejection.

Example C149_instance :
  (forall (TR : Trunc R) h, exists d, forall gd,
     @proposal_process fmt_ex TR [ex_x] [ex_y] ex_lims d h (propose_by (names_of ([ex_x] ++ [ex_y])) gd) gd) /\
  sampler_of [ex_x] [ex_y] ex_start [Some 12; None] ["y"; "x"]%string /\
  points ex_lims [Some 12; None] [ex_rnd (/ 2) (/ 4) (/ 3); ex_rnd (/ 2) (/ 4) 1] = [([12; / 4], / 3); ([5; / 4], 1)].
Proof. exact (conj ex_process (conj ex_sampler ex_points)). Qed.

(** C150 refuted: a number given to a sampler is used by its first sample only; if it
    lies outside the limits of its variable then no later sample has it. *)
Theorem C150_forgotten_refuted :
  forall (F : Fmt R) (TR : Trunc R) (leafs roots : list (rv R)) (lims : list limits) (d : sdep R) (h : list (pyval R) -> R)
    g gd start given keyset score i k y l,
  proposal_process leafs roots lims d h g gd -> sampler_of leafs roots start given keyset ->
  nth_error (names_of (leafs ++ roots)) i = Some k -> nth_error given i = Some (Some y) -> nth_error lims i = Some l ->
  lm_lo l <= lm_hi l -> (y < lm_lo l \/ lm_hi l < y) ->
  forall pre post, no_reset (pre ++ post) -> steps_of (created pre) pre = [] ->
  (forall r, In r (steps_of (created pre) post) -> 0 <= r_unif (or_vars r i) 0%nat <= 1) ->
  exists samples, yields (mkOmc d g false "'" start keyset) score pre post samples /\
    length samples = length (steps_of (created pre) post) /\
    (forall s, hd_error samples = Some s -> value_in s k y) /\ (forall s, In s (tl samples) -> ~ value_in s k y).
Proof. exact @forgotten. Qed.
Print Assumptions C150_forgotten_refuted.

Example C150_instance :
  nth_error (names_of ([ex_x] ++ [ex_y])) 0 = Some "x"%string /\ nth_error [Some 12; None] 0 = Some (Some 12) /\
  nth_error ex_lims 0 = Some (mkLim false 0 10) /\ 0 <= 10 /\ (12 < 0 \/ 10 < 12).
Proof. split; [reflexivity|]. split; [reflexivity|]. split; [reflexivity|]. split; [Lra.lra|right; Lra.lra]. Qed.

(** C151 refuted: samples are not drawn from the proposal: whatever the proposal function
    and the scores, the same random numbers give samples at the same values. *)
Theorem C151_not_drawn_refuted :
  forall (F : Fmt R) (TR : Trunc R) (leafs roots : list (rv R)) (lims : list limits) (d : sdep R) (h : list (pyval R) -> R)
    g1 gd1 g2 gd2 start given keyset score1 score2,
  proposal_process leafs roots lims d h g1 gd1 -> proposal_process leafs roots lims d h g2 gd2 ->
  sampler_of leafs roots start given keyset ->
  forall pre post, no_reset (pre ++ post) -> steps_of (created pre) pre = [] ->
  exists s1 s2, yields (mkOmc d g1 false "'" start keyset) score1 pre post s1 /\
    yields (mkOmc d g2 false "'" start keyset) score2 pre post s2 /\
    Forall2 (fun a b => forall k, In k (names_of (leafs ++ roots)) -> exists x, value_in a k x /\ value_in b k x) s1 s2.
Proof. exact @same_draws. Qed.
Print Assumptions C151_not_drawn_refuted.

Example C151_instance : forall (TR : Trunc R) h, exists d,
  @proposal_process fmt_ex TR [ex_x] [ex_y] ex_lims d h (propose_by (names_of ([ex_x] ++ [ex_y])) (fun _ => 1)) (fun _ => 1) /\
  @proposal_process fmt_ex TR [ex_x] [ex_y] ex_lims d h (propose_by (names_of ([ex_x] ++ [ex_y])) (fun _ => 2)) (fun _ => 2).
Proof. intros TR h. destruct (ex_process TR h) as (d & H). exists d. split; apply H. Qed.

(** C152 refuted: once a delta is set, the sampler never moves: all its samples are at
    the point of the first, whether accepted or not. *)
Theorem C152_stuck_refuted :
  forall (F : Fmt R) (TR : Trunc R) (leafs roots : list (rv R)) (lims : list limits) (d : sdep R) (h : list (pyval R) -> R)
    g gd start given keyset score,
  proposal_process leafs roots lims d h g gd -> sampler_of leafs roots start given keyset ->
  omc_samples (mkOmc d g true "'" start keyset) score (names_of leafs) (names_of roots) h gd (stuck lims given).
Proof. exact @unmoved. Qed.
Print Assumptions C152_stuck_refuted.

Example C152_instance :
  stuck ex_lims [Some 12; None] [ex_rnd (/ 2) (/ 4) (/ 3); ex_rnd (/ 2) (/ 5) 1] = [([12; / 4], / 3); ([12; / 4], 1)].
Proof. exact ex_stuck. Qed.

(** C153 refuted: given suffix=False, a sampler raises TypeError at its first step, and
    is exhausted thereafter. *)
Theorem C153_no_suffix_refuted :
  forall (F : Fmt R) (TR : Trunc R) (leafs roots : list (rv R)) (lims : list limits) (d : sdep R) (h : list (pyval R) -> R)
    g gd delta start given keyset score,
  proposal_process leafs roots lims d h g gd -> sampler_of leafs roots start given keyset ->
  forall pre post, no_reset (pre ++ post) -> steps_of (created pre) pre = [] ->
  let o := mkOmc d g delta "" start keyset in
  outcomes_of (created pre) (snd (run (om_engine o) (om_config o score) new_process (pre ++ ENew None :: post)))
    = match steps_of (created pre) post with [] => [] | _ :: rs => Raised TypeError :: map (fun _ => Stopped) rs end.
Proof. exact @stops. Qed.
Print Assumptions C153_no_suffix_refuted.

Example C153_instance : sampler_of [ex_x] [ex_y] ex_start [Some 12; None] ["y"; "x"]%string.
Proof. exact ex_sampler. Qed.

(** C154: the summary of the samples of such a process holds the accepted ones, in order,
    as columns: their probabilities under p and v, their proposals under q, their
    scores and thresholds; nothing under o and r, and nothing at all if none is accepted. *)
Theorem C154_summary :
  forall (F : Fmt R) (leafs roots : list (rv R)) (h : list (pyval R) -> R) ps gd score ss pts,
  leafs <> [] -> Forall2 (sample_of (names_of leafs) (names_of roots) ps h gd score) ss pts ->
  let acc := accepted h gd score pts in
  exists sm, summarise (@od_pd R) true (map inr ss) = Ok sm /\ sm_o sm = None /\ sm_r sm = None /\
    sm_u sm = map (fun _ => VTrue) acc /\
    match acc with
    | [] => sm_p sm = None /\ sm_q sm = None /\ sm_v sm = None /\ sm_s sm = None /\ sm_t sm = None
    | _ => exists p q, sm_p sm = Some p /\ sm_v sm = Some p /\ sm_q sm = Some q /\
        columns p ps (names_of leafs) (names_of roots) acc h /\ columns q ps (primed (names_of (leafs ++ roots))) [] acc gd /\
        sm_s sm = Some (map (fun xt => score (h (map PF (fst xt))) (gd (map PF (fst xt)))) acc) /\ sm_t sm = Some (map snd acc)
    end.
Proof. exact @summary_ok. Qed.
Print Assumptions C154_summary.

(** C154: samples whose update is False are left out of any summary, wherever they are,
    and no others: the updates and scores are those of the rest, in order. *)
Theorem C154_left_out :
  forall (F : Fmt R) (D Sc : Type) (view : D -> pd R) b,
  (forall (l1 l2 : list (psample D Sc)) x, x_u x = VFalse ->
     summarise view b (l1 ++ inr x :: l2)%list = summarise view b (l1 ++ l2)%list) /\
  (forall (l : list (psample D Sc)) sm, summarise view b l = Ok sm ->
     sm_u sm = (if b then flat_map (fun s => match s with inr x => match x_u x with VFalse => [] | u => [u] end | inl _ => [] end) l else []) /\
     match sm_s sm with Some ss => ss | None => [] end =
       flat_map (fun s => match s with inr x => match x_u x, x_s x with VFalse, _ | _, None => [] | _, Some y => [y] end | inl _ => [] end) l).
Proof. exact (fun F D Sc view b => conj (summary_left_out view b) (summary_kept view b)). Qed.
Print Assumptions C154_left_out.

Example C154_left_out_instance : forall F : Fmt R, let s u y := inr (mkFull (mkOPQR None None None None) (Some y) None u None) : psample (pd R) nat in
  exists sm, summarise (fun d => d) true [s VNone 1; s VFalse 2; s VTrue 3]%nat = Ok sm /\
    sm_u sm = [VNone; VTrue] /\ sm_s sm = Some [1; 3]%nat.
Proof. intros F s. eexists. split; [reflexivity|]. split; reflexivity. Qed.

Example C154_instance : let h l := match l with [PF x; _] => x / 10 | _ => 0 end in
  accepted h (fun _ => 1) (fun p q => p / q) [([12; / 4], / 3); ([5; / 4], 1)] = [([12; / 4], / 3)].
Proof. exact ex_accepted. Qed.
