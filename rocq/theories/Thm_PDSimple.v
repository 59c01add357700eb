(** Property theorems about renaming, axes, saving, concatenation and
    monotonicity (C28, C29, C30, C31, C33, C34). *)
From Coq Require Import String ZArith Reals List.
From Verif Require Import Base Num Tensor PScales PScales_Spec Names_Spec Distr PDModel PDUtils PD_Spec PD_Simple_Spec
  PD_Summate_Spec PD_Examples PD_Simple PD_Rekey PD_Summate PD_SimpleEx PD_SimpleThm.
Import ListNotations.
Local Open Scope R_scope.

(** C28: when the new names are distinct, all variables are kept, with their
    order, roles, values and axes, and every probability stays where it is. *)
Theorem C28_rekey_renames :
  forall (F : Fmt R) (keymap : odict string) (p : pd R) (L : list string),
  let ren := renamed keymap in
  valid_pd p L -> NoDup (map ren (p_keylist p)) ->
  (forall k s, In k (p_keylist p) -> od_get keymap k = Some s ->
     simple_key s /\ ~ In s ["attrs"; "prob"; "pscale"]%string) ->
  exists q, pd_rekey p keymap = Ok q /\ valid_pd q (map ren L) /\
    p_keylist q = map ren (p_keylist p) /\
    od_keys (p_marg q) = map ren (od_keys (p_marg p)) /\ od_keys (p_cond q) = map ren (od_keys (p_cond p)) /\
    p_pscale q = p_pscale p /\
    (forall k, In k (p_keylist p) -> variable q (ren k) = variable p k /\
                                     od_get (p_dims q) (ren k) = od_get (p_dims p) k) /\
    (forall a, prob_at q (map ren L) a = prob_at p L (fun k => a (ren k))).
Proof. exact @rekey_ok. Qed.
Print Assumptions C28_rekey_renames.

Example C28_hypotheses_met :
  let ren := [("x", "y"); ("y", "x"); ("w", "new")]%string in
  exists p : pd R, ex_make = Ok p /\ @valid_pd fmt_ex p ["x"; "y"; "z"]%string /\
  NoDup (map (renamed ren) (p_keylist p)) /\
  (forall k s, In k (p_keylist p) -> od_get ren k = Some s ->
     simple_key s /\ ~ In s ["attrs"; "prob"; "pscale"]%string).
Proof. exact ex_c28. Qed.

(** C28 refuted: renaming a scalar marginal to the name of a later marginal
    succeeds and drops it: no variable of the result holds its value. *)
Theorem C28_rekey_drops_refuted :
  forall (F : Fmt R) (a b : string) (p : pd R) (L l1 l2 l3 m1 m2 m3 : list string),
  valid_pd p L -> p_keylist p = l1 ++ a :: l2 ++ b :: l3 ->
  od_keys (p_marg p) = m1 ++ a :: m2 ++ b :: m3 -> ~ In a L ->
  exists q, pd_rekey p [(a, b)] = Ok q /\ valid_pd q L /\
    p_keylist q = l1 ++ b :: l2 ++ l3 /\ od_keys (p_marg q) = m1 ++ b :: m2 ++ m3 /\ p_cond q = p_cond p /\
    (forall k, In k (p_keylist q) -> variable q k = variable p k) /\
    p_prob q = p_prob p /\ p_pscale q = p_pscale p.
Proof. exact @rekey_collision. Qed.
Print Assumptions C28_rekey_drops_refuted.

Example C28_hypotheses_met_collision :
  exists p : pd R, ex_make2 = Ok p /\ @valid_pd fmt_ex p ["y"]%string /\
  p_keylist p = [] ++ "w"%string :: [] ++ "y"%string :: [] /\
  od_keys (p_marg p) = [] ++ "w"%string :: [] ++ "y"%string :: [] /\ ~ In "w"%string ["y"]%string /\
  "w"%string <> "y"%string.
Proof. exact ex_c28_collision. Qed.

(** C29 refuted: redim never succeeds on a distribution with a column, whatever
    the axes asked for. *)
Theorem C29_redim_raises_refuted :
  forall (F : Fmt R) (p : pd R) (L : list string) (dims : odict (option Z)) (q : pd R),
  valid_pd p L -> L <> [] -> pd_redim p dims <> Ok q.
Proof. exact @redim_never. Qed.
Print Assumptions C29_redim_raises_refuted.

(** C29 refuted: it raises AttributeError whenever the axes asked for are fine. *)
Theorem C29_redim_attribute_error :
  forall (F : Fmt R) (p : pd R) (L : list string) (dims : odict (option Z)) (d : dist R),
  valid_pd p L -> L <> [] -> redim (p_d p) dims = Ok d -> pd_redim p dims = Err AttributeError.
Proof. exact @redim_attribute. Qed.
Print Assumptions C29_redim_attribute_error.

Example C29_hypotheses_met :
  exists p : pd R, ex_make = Ok p /\ @valid_pd fmt_ex p ["x"; "y"; "z"]%string /\ ["x"; "y"; "z"]%string <> [].
Proof. exact ex_c29. Qed.

(** C30: saving and loading distributions of which no two have the same marginal
    and conditional variables gives each of them back, in order: same variables
    and roles, values, axes, probabilities and scale. *)
Theorem C30_serialise_round_trip :
  forall (F : Fmt R) (ps : list (pd R)) (axes : pd R -> list string),
  (forall p, In p ps -> valid_pd p (axes p)) ->
  NoDup (map (fun p => (od_keys (p_marg p), od_keys (p_cond p))) ps) ->
  exists qs, deserialise (serialise ps) = Ok qs /\ Forall2 (fun p q => reloaded p q (axes p)) ps qs.
Proof. exact @reload_same. Qed.
Print Assumptions C30_serialise_round_trip.

(** C31 refuted: all of them are kept exactly when no two have the same marginal
    and conditional variables; otherwise some are lost without error. *)
Theorem C31_serialise_loses_refuted :
  forall (F : Fmt R) (ps : list (pd R)) (axes : pd R -> list string),
  (forall p, In p ps -> valid_pd p (axes p)) ->
  exists qs, deserialise (serialise ps) = Ok qs /\ (length qs <= length ps)%nat /\
    (length qs = length ps <-> NoDup (map (fun p => (od_keys (p_marg p), od_keys (p_cond p))) ps)).
Proof. exact @reload_some_lost. Qed.
Print Assumptions C31_serialise_loses_refuted.

(** C31: what is loaded is the last distribution of each name. *)
Theorem C31_last_one_is_kept :
  forall (F : Fmt R) (ps : list (pd R)) (axes : pd R -> list string),
  (forall p, In p ps -> valid_pd p (axes p)) ->
  exists qs, deserialise (serialise ps) = Ok qs /\
    Forall2 (fun n q => exists l p r, ps = l ++ p :: r /\ short_name p = n /\
                          ~ In n (map short_name r) /\ reloaded p q (axes p))
            (firsts (map short_name ps)) qs.
Proof. exact @reload_all. Qed.
Print Assumptions C31_last_one_is_kept.

Example C30_C31_hypotheses_met :
  exists p q : pd R, ex_make = Ok p /\ ext_make = Ok q /\
  @valid_pd fmt_ex p ["x"; "y"; "z"]%string /\ @valid_pd fmt_ex q ["y"; "x"]%string /\
  NoDup (map (fun p => (od_keys (p_marg p), od_keys (p_cond p))) [p; q]) /\
  ~ NoDup (map (fun p => (od_keys (p_marg p), od_keys (p_cond p))) [p; q; p]).
Proof. exact ex_c30. Qed.

(** C33: samples over the same variables and on the same scale, at least one
    variable being a number: position i of the result holds the numbers and the
    probability of the i-th sample, and counts are added. *)
Theorem C33_summate_concatenates :
  forall (F : Fmt R) (args : list (pd R)) (marg cond cs : list string) (ps : pscale R),
  args <> [] -> samples args marg cond cs ps -> (exists k, In k (marg ++ cond) /\ ~ In k cs) ->
  exists q, summate args = Ok (Some q) /\ p_keylist q = marg ++ cond /\
    od_keys (p_marg q) = marg /\ od_keys (p_cond q) = cond /\ p_pscale q = ps /\
    (forall k, In k (marg ++ cond) -> In k cs -> od_get (p_dims q) k = Some None /\
       exists z, counts_to k args z /\ holds_count q k z) /\
    (forall k, In k (marg ++ cond) -> ~ In k cs -> od_get (p_dims q) k = Some (Some 0%Z) /\
       exists a, od_get (p_vals q) k = Some (VArr a) /\ shape a = [length args] /\
         forall i p, nth_error args i = Some p -> holds_number p k (get a [i])) /\
    exists t, p_prob q = Some t /\ shape t = [length args] /\
      forall i p, nth_error args i = Some p -> exists u, p_prob p = Some u /\ get t [i] = get u [].
Proof. exact @summate_ok. Qed.
Print Assumptions C33_summate_concatenates.

Example C33_hypotheses_met :
  exists p q : pd R, smp_make 4 2 (/ 2) = Ok p /\ smp_make 9 3 (/ 3) = Ok q /\
  @samples fmt_ex [p; q] ["x"; "n"]%string [] ["n"]%string (Lin 1) /\
  (exists k, In k ["x"; "n"]%string /\ ~ In k ["n"]%string).
Proof. exact ex_c33. Qed.

(** C33 refuted: samples all of whose variables are counts cannot be summed. *)
Theorem C33_counts_raise_refuted :
  forall (F : Fmt R) (args : list (pd R)) (marg cond cs : list string) (ps : pscale R),
  args <> [] -> samples args marg cond cs ps -> incl (marg ++ cond) cs ->
  summate args = Err AssertionError.
Proof. exact @summate_counts. Qed.
Print Assumptions C33_counts_raise_refuted.

Example C33_hypotheses_met_counts :
  exists p : pd R, cnt_make 2 (/ 2) = Ok p /\
  @samples fmt_ex [p; p] ["n"]%string [] ["n"]%string (Lin 1) /\ incl (["n"]%string ++ []) ["n"]%string.
Proof. exact ex_c33_counts. Qed.

(** C34: ismonotonic is true exactly of values without axis, and of at least two
    numbers in non-decreasing or in strictly decreasing order. *)
Theorem C34_ismonotonic_exact :
  forall v : value R,
  ismonotonic v = true <->
  issingleton v = true \/
  (2 <= length (numbers v))%nat /\ (nondecreasing (numbers v) \/ strictly_decreasing (numbers v)).
Proof. exact monotonic_iff. Qed.
Print Assumptions C34_ismonotonic_exact.

Example C34_both_sides :
  numbers (VArr (of_list 0 [3; 2; 1])) = [3; 2; 1] /\ strictly_decreasing [3; 2; 1] /\
  ~ nondecreasing [3; 2; 1] /\ ~ nondecreasing [1; 3; 3; 2] /\ ~ strictly_decreasing [1; 3; 3; 2].
Proof. exact ex_c34. Qed.
