(** Property theorems about stochastic processes and their samplers (C51-C58, C61). *)
From Coq Require Import String ZArith Reals Lra Lia Bool Arith List.
From Verif Require Import Base Num Tensor PScales PScales_Spec RNumLemmas SPModel SP_Spec SP_Proofs SP_Walk SP_Scores SP_Examples.
Import ListNotations.

(** C51: a sampler created at any point of any history gives the same outcomes,
    counter and chain state as it would alone, taking its own steps only. *)
Theorem C51_samplers_independent :
  forall (D Rnd Sc : Type) (eng : engine D Rnd) (cfg : config D Rnd Sc)
         (pre : list (event Rnd)) (stop : option nat) (post : list (event Rnd)),
  no_reset (pre ++ post) -> steps_of (created pre) pre = [] ->
  let g := created pre in
  let (st, os) := run eng cfg new_process (pre ++ ENew stop :: post) in
  let (st1, os1) := run eng cfg new_process (ENew stop :: map (EStep 0) (steps_of g post)) in
  outcomes_of g os = outcomes_of 0 os1 /\
  p_counter st g = p_counter st1 0 /\ p_last st g = p_last st1 0.
Proof. exact (@samplers_independent). Qed.
Print Assumptions C51_samplers_independent.

Example C51_instance :
  no_reset (pre0 ++ post0) /\ steps_of (created pre0) pre0 = [] /\
  steps_of (created pre0) post0 = [3; 4; 2] /\
  length (outcomes_of 1 (snd (run eng0 cfg0 new_process (pre0 ++ ENew None :: post0)))) = 3.
Proof. repeat split. intros H. cbn in H. intuition discriminate. Qed.

(** C52: the samples of a sampler with transitions are a trajectory: see
    [trajectory] in SP_Spec.v. *)
Theorem C52_samples_form_a_trajectory :
  forall (D Rnd Sc : Type) (eng : engine D Rnd) (cfg : config D Rnd Sc)
         (pre : list (event Rnd)) (stop : option nat) (post : list (event Rnd)) (os : list (@sample_out D Sc)),
  c_tran cfg = true ->
  no_reset (pre ++ post) -> steps_of (created pre) pre = [] ->
  outcomes_of (created pre) (snd (run eng cfg new_process (pre ++ ENew stop :: post))) =
    map (fun o => Yield o) os ->
  exists xs, os = map OutFull xs /\ length xs = length (steps_of (created pre) post) /\
    trajectory eng (match c_update cfg with None => false | Some _ => true end)
      None None (combine (steps_of (created pre) post) xs).
Proof. exact (@samplers_trajectory). Qed.
Print Assumptions C52_samples_form_a_trajectory.

(** The second proposal, 3+4, is not accepted, so the third is 3+2. *)
Example C52_instance :
  c_tran cfg0 = true /\
  map (fun o => match o with Yield (OutFull x) => (f_q (x_opqr x), x_v x) | _ => (None, None) end)
      (outcomes_of 1 (snd (run eng0 cfg0 new_process (pre0 ++ ENew None :: post0)))) =
  [(Some 3, Some 6); (Some 7, Some 6); (Some 5, Some 10)].
Proof. split; reflexivity. Qed.

(** C53 *)
Theorem C53_stop_bounds_samples :
  forall (D Rnd Sc : Type) (eng : engine D Rnd) (cfg : config D Rnd Sc)
         (pre : list (event Rnd)) (n : nat) (post : list (event Rnd)),
  engine_total eng cfg -> no_reset (pre ++ post) -> steps_of (created pre) pre = [] ->
  let g := created pre in
  let m := length (steps_of g post) in
  let (st, os) := run eng cfg new_process (pre ++ ENew (Some n) :: post) in
  exists xs, length xs = Nat.min n m /\
    outcomes_of g os = map (fun o => Yield o) xs ++ repeat Stopped (m - n) /\
    (m <= n -> p_counter st g = m) /\
    (n < m -> p_counter st g = 0 /\ p_last st g = Some None).
Proof. exact (@sampler_stops). Qed.
Print Assumptions C53_stop_bounds_samples.

Example C53_instance :
  engine_total eng0 cfg0 /\
  outcomes_of 1 (snd (run eng0 cfg0 new_process (pre0 ++ ENew (Some 1) :: post0))) =
  [Yield (OutFull (mkFull (mkOPQR None (Some 6) (Some 3) None) (Some 3) (Some 6) VNone (Some 6)));
   Stopped; Stopped].
Proof. split; [exact eng0_total|reflexivity]. Qed.

(** C54: walking a sampler that bounds itself, without stop or with a stop at
    least its bound, returns exactly its samples. *)
Theorem C54_walk_of_bounded_sampler :
  forall (D Rnd Sc : Type) (eng : engine D Rnd) (cfg : config D Rnd Sc)
         (s n : nat) (rs : nat -> Rnd),
  engine_total eng cfg -> s <= n ->
  let st := new_sampler (@new_process D) (Some s) in
  exists os, length os = s /\
    outcomes_of 0 (snd (run eng cfg new_process
        (ENew (Some s) :: map (EStep 0) (map rs (seq 0 s))))) = map (fun o => Yield o) os /\
    (exists st1, sp_walk eng cfg st 0 n rs 0 = (st1, S s, Ok os)) /\
    (forall fuel, s < fuel -> exists st1, walk_all eng cfg fuel st 0 rs 0 = Some (st1, Ok os)).
Proof. exact (@walk_bounded). Qed.
Print Assumptions C54_walk_of_bounded_sampler.

(** Walking an unbounded sampler for n steps consumes n+1 samples: of two
    consecutive walks the second misses the sample after those of the first. *)
Theorem C54_walk_discards_a_sample_refuted :
  forall (D Rnd Sc : Type) (eng : engine D Rnd) (cfg : config D Rnd Sc)
         (n m : nat) (rs : nat -> Rnd),
  engine_total eng cfg ->
  let st := new_sampler (@new_process D) None in
  exists os, length os = S n + S m /\
    outcomes_of 0 (snd (run eng cfg new_process
        (ENew None :: map (EStep 0) (map rs (seq 0 (S n + S m)))))) = map (fun o => Yield o) os /\
    exists st1 st2,
      sp_walk eng cfg st 0 n rs 0 = (st1, S n, Ok (firstn n os)) /\
      sp_walk eng cfg st1 0 m rs (S n) = (st2, S n + S m, Ok (firstn m (skipn (S n) os))).
Proof. exact (@walk_discards). Qed.
Print Assumptions C54_walk_discards_a_sample_refuted.

(** Walks in general: let a sampler with or without a bound have been stepped k
    times.  Walking it for n steps, if its bound is farther than that, returns
    its next n samples but leaves it after n+1 steps; otherwise the walk returns
    the samples left, and one of a finished sampler raises. *)
Theorem C54_walk_exact :
  forall (D Rnd Sc : Type) (eng : engine D Rnd) (cfg : config D Rnd Sc),
  engine_total eng cfg ->
  forall (stop : option nat) (k n : nat) (rs : nat -> Rnd),
  let stepped j := run eng cfg (@new_process D) (ENew stop :: map (EStep 0) (map rs (seq 0 j))) in
  let state j := fst (stepped j) in
  let samples j := outcomes_of 0 (snd (stepped j)) in
  match stop with None => True | Some s => k + n < s end /\
  (exists os, length os = k + n /\ samples (k + n) = map (fun o => Yield o) os /\
    sp_walk eng cfg (state k) 0 n rs k = (state (k + S n), k + S n, Ok (skipn k os))) \/
  (exists s, stop = Some s /\ k <= s <= k + n /\
    exists os, length os = s /\ samples s = map (fun o => Yield o) os /\
    sp_walk eng cfg (state k) 0 n rs k = (state (S s), S s, Ok (skipn k os))) \/
  (exists s, stop = Some s /\ s < k /\
    sp_walk eng cfg (state k) 0 n rs k = (state k, k, Err AssertionError)).
Proof. exact (@walk_exact). Qed.
Print Assumptions C54_walk_exact.

(** Walks of 2 and 1 step: the sample that used random value 2 is lost. *)
Example C54_instance :
  let w := fun x => match x with
                    | Ok l => map (fun o => match o with OutFull y => f_q (x_opqr y) | _ => None end) l
                    | Err _ => []
                    end in
  let '(st1, k1, r1) := sp_walk eng0 cfg0 (new_sampler (@new_process nat) None) 0 2 (fun i => i) 0 in
  let '(st2, k2, r2) := sp_walk eng0 cfg0 st1 0 1 (fun i => i) k1 in
  w r1 = [Some 0; Some 1] /\ k1 = 3 /\ w r2 = [Some 3] /\ k2 = 5.
Proof. cbn. repeat split. Qed.

(** C55: after reset() every sampler created before raises at its next step ... *)
Theorem C55_old_samplers_raise_after_reset_refuted :
  forall (D Rnd Sc : Type) (eng : engine D Rnd) (cfg : config D Rnd Sc)
         (pre : list (event Rnd)) (r : Rnd),
  let st := reset_all (fst (run eng cfg new_process pre)) in
  forall g gn, nth_error (p_gens st) g = Some gn -> g_done gn = false ->
  snd (resume eng cfg st g r) = Raised IndexError.
Proof. exact (@reset_old_raises). Qed.
Print Assumptions C55_old_samplers_raise_after_reset_refuted.

(** ... and once a new sampler exists, a step of the first old one advances the
    counter and the chain of the new one instead of its own. *)
Theorem C55_reset_entangles_samplers_refuted :
  forall (D Rnd Sc : Type) (eng : engine D Rnd) (cfg : config D Rnd Sc)
         (pre : list (event Rnd)) (stop : option nat) (r : Rnd),
  engine_total eng cfg -> no_reset pre -> 0 < created pre ->
  let st := new_sampler (reset_all (fst (run eng cfg new_process pre))) stop in
  let new := created pre in
  forall gn, nth_error (p_gens st) 0 = Some gn -> g_done gn = false ->
    (forall s, g_stop gn = Some s -> 0 < s) ->
  let (st', o) := resume eng cfg st 0 r in
  (exists x, o = Yield x) /\ p_counter st new = 0 /\ p_counter st' new = 1 /\
  p_counter st' 0 = p_counter st 0 /\ p_last st' 0 = p_last st 0 /\
  exists x la, advance eng cfg None r = Ok (x, la) /\ o = Yield x /\ p_last st' new = Some la.
Proof. exact (@reset_entangles). Qed.
Print Assumptions C55_reset_entangles_samplers_refuted.

Example C55_instance :
  let pre := [ENew None; EStep 0 3] in
  let st := new_sampler (reset_all (fst (run eng0 cfg0 new_process pre))) None in
  no_reset pre /\ 0 < created pre /\ nth_error (p_gens st) 0 = Some (mkGen 0 None false) /\
  p_counter st 0 = 1 /\ p_counter (fst (resume eng0 cfg0 st 0 2)) 1 = 1.
Proof. repeat split; cbn; auto. intros H. cbn in H. intuition discriminate. Qed.

Local Open Scope R_scope.

(** C56: x and y are the numbers held, under any linear scale; axy is the score
    of the move from x to y and ayx that of the reverse move. *)
Theorem C56_metropolis_detailed_balance :
  forall (a : pspec R) (x y : R), linear_scale a -> 0 <= x -> 0 <= y ->
  exists axy ayx,
    metropolis_scores a (Some x) (Some y) = Ok (Some axy) /\
    metropolis_scores a (Some y) (Some x) = Ok (Some ayx) /\
    0 <= axy <= 1 /\ 0 <= ayx <= 1 /\
    denote a x * axy = denote a y * ayx /\
    (npz <= denote a x -> axy = Rmin 1 (denote a y / denote a x)).
Proof. exact metropolis_balance. Qed.
Print Assumptions C56_metropolis_detailed_balance.

(** A move is accepted exactly if the threshold does not exceed the score. *)
Theorem C56_metropolis_accepts_iff :
  forall s t : R, metropolis_update (Some s) t = VTrue <-> t <= s.
Proof. exact metropolis_accepts_iff. Qed.
Print Assumptions C56_metropolis_accepts_iff.

Example C56_instance : linear_scale (PSFloat 2) /\ denote (PSFloat 2) 3 = 6.
Proof.
  unfold linear_scale, valid_scale, denote. cbn. destruct (Req_EM_T 2 0); [lra|].
  repeat split; lra.
Qed.

(** C57: the hastings scores balance the proposal densities the wrong way round:
    with q the density of the proposal x -> y and r that of y -> x, detailed
    balance holds only if they are equal. *)
Theorem C57_hastings_inverted_refuted :
  forall x y q r : R, 0 < x -> 0 < y -> 0 < q -> 0 < r ->
  exists axy ayx,
    hastings_scores (PSFloat 1) (Some x) (Some y) (Some q) (Some r) = Ok (Some axy) /\
    hastings_scores (PSFloat 1) (Some y) (Some x) (Some r) (Some q) = Ok (Some ayx) /\
    (x * r) * axy = (y * q) * ayx /\
    ((x * q) * axy = (y * r) * ayx <-> q = r).
Proof. exact hastings_balance. Qed.
Print Assumptions C57_hastings_inverted_refuted.

(** On the log scale even a symmetric proposal, of density d, fails unless d = 1:
    the acceptance is exp(d*(l'-l)) instead of exp(l'-l). *)
Theorem C57_hastings_log_scale_refuted :
  forall l l' d : R,
  0 < d <= npi -> ln npz <= d * l <= ln npi -> ln npz <= d * l' <= ln npi ->
  exists axy ayx,
    hastings_scores (PSCplx 0 0) (Some l) (Some l') (Some (ln d)) (Some (ln d)) = Ok (Some axy) /\
    hastings_scores (PSCplx 0 0) (Some l') (Some l) (Some (ln d)) (Some (ln d)) = Ok (Some ayx) /\
    axy = Rmin 1 (exp (d * (l' - l))) /\
    (exp l * axy = exp l' * ayx <-> l = l' \/ d = 1).
Proof. exact hastings_log_symmetric. Qed.
Print Assumptions C57_hastings_log_scale_refuted.

Example C57_instance :
  0 < 1 / 2 <= npi /\ ln npz <= 1 / 2 * 0 <= ln npi.
Proof.
  pose proof npi_big. pose proof npz_lt_1. pose proof npz_pos.
  assert (ln npz < ln 1) by (apply ln_increasing; lra).
  assert (ln 1 < ln npi) by (apply ln_increasing; lra). rewrite ln_1 in *. lra.
Qed.

(** C58: the log-scale score is min(1,exp(l'-l)) exactly if one of the two log
    probabilities is at least that of the smallest positive float. *)
Theorem C58_log_metropolis_iff :
  forall l l' : R, l <= ln npi -> l' <= ln npi ->
  exists sc, metropolis_scores (PSCplx 0 0) (Some l) (Some l') = Ok (Some sc) /\
    sc = Rmin 1 (exp l' / Rmax npz (exp l)) /\
    (sc = Rmin 1 (exp (l' - l)) <-> ln npz <= l \/ ln npz <= l').
Proof. exact metropolis_log_iff. Qed.
Print Assumptions C58_log_metropolis_iff.

(** Log probabilities of -1100 and -1101 fail it. *)
Example C58_instance : -1101 <= ln npi /\ -1100 <= ln npi /\ ~ (ln npz <= -1100 \/ ln npz <= -1101).
Proof.
  pose proof npi_big. assert (ln 1 < ln npi) by (apply ln_increasing; lra). rewrite ln_1 in *.
  pose proof ln2_lt_1. rewrite ln_npz. lra.
Qed.

(** C61: a process with a proposal but no transition accepts every sample when
    its scores need a predecessor, as those of metropolis and hastings do. *)
Theorem C61_proposal_without_transition_accepts_all_refuted :
  forall (D Rnd Sc : Type) (eng : engine D Rnd) (cfg : config D Rnd Sc) f u,
  c_tran cfg = false -> c_prop cfg = true ->
  c_scores cfg = Some f -> (forall x, f_o x = None -> f x = Ok None) ->
  c_update cfg = Some u -> (forall t, u None t = Ok VTrue) ->
  forall evs g o, In (g, Yield o) (snd (run eng cfg new_process evs)) ->
  exists x, o = OutFull x /\ f_o (x_opqr x) = None /\ x_u x = VTrue /\ x_v x = f_p (x_opqr x).
Proof. exact prop_only_accepts. Qed.
Print Assumptions C61_proposal_without_transition_accepts_all_refuted.

(** The metropolis and hastings scores are None without a predecessor, and None
    is accepted whatever the threshold. *)
Theorem C61_scores_without_predecessor :
  (forall (a : pspec R) s, metropolis_scores a None (Some s) = Ok None) /\
  (forall (a : pspec R) s q r, hastings_scores a None (Some s) q r = Ok None) /\
  (forall t : R, metropolis_update None t = VTrue).
Proof. exact no_predecessor. Qed.
Print Assumptions C61_scores_without_predecessor.

Example C61_instance :
  snd (run eng0 cfg1 new_process [ENew None; EStep 0 3%nat; EStep 0 1%nat]) =
  [(0%nat, Yield (OutFull (mkFull (mkOPQR None (Some 6%nat) (Some 3%nat) None) None (Some 1%nat) VTrue (Some 6%nat))));
   (0%nat, Yield (OutFull (mkFull (mkOPQR None (Some 2%nat) (Some 1%nat) None) None (Some 1%nat) VTrue (Some 2%nat))))].
Proof. reflexivity. Qed.
