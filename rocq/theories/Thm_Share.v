(** Property theorems about arrays that are shared between distributions (C243). *)
From Coq Require Import Ascii String ZArith Bool Arith Lia Reals Lra List.
From Verif Require Import Base Num RNumLemmas Tensor PScales PScales_Spec Names Names_Spec Distr Distr_Spec PDModel PD_Spec PD_Cond_Spec PD_Simple_Spec
  PD_Call_Spec PD_Examples ShareModel Share_Spec Share_Proofs Share_Ex.
Import ListNotations.
Local Open Scope nat_scope.

(** C243: a method called on distribution i of a program shows what the model of the
    method without arrays returns, and changes no other distribution. *)
Theorem C243_derived :
  forall (F : Fmt R) (w : world R) i p m, sound w -> shows w i = Some p ->
  let w' := do_step w (SDerive i m) in
  sound w' /\ (forall j, j < length (w_pds w) -> shows w' j = shows w j) /\
  shows w' (length (w_pds w)) = match apply m p with Ok q => Some q | Err _ => None end.
Proof. exact @derived_shows. Qed.
Print Assumptions C243_derived.

(** C243: results with an array of their own keep their probabilities, whatever is derived
    afterwards and whatever is written elsewhere, ... *)
Theorem C243_own :
  forall (F : Fmt R) (w : world R) i p m l, sound w -> shows w i = Some p -> own_array m p ->
  let k := length (w_pds w) in let w' := do_step w (SDerive i m) in
  outside [k] (S k) l -> shows (run w' l) k = shows w' k.
Proof. exact @own_outside. Qed.
Print Assumptions C243_own.

(** ... and writing to them, or to what is derived from them, leaves all earlier
    distributions as they were. *)
Theorem C243_others :
  forall (F : Fmt R) (w : world R) i p m l, sound w -> shows w i = Some p -> own_array m p ->
  let k := length (w_pds w) in let w' := do_step w (SDerive i m) in
  inside [k] (S k) l -> forall j, j < k -> shows (run w' l) j = shows w j.
Proof. exact @own_inside. Qed.
Print Assumptions C243_others.

(** C243 is false of rekey: writing to the result writes to the original, ... *)
Theorem C243_rekey_refuted :
  forall (F : Fmt R) (w : world R) i p m q t, sound w -> shows w i = Some p -> pd_rekey p m = Ok q ->
  p_prob p = Some t -> shape t <> [] ->
  forall idx v, in_range (shape t) idx ->
  exists t', shows (do_step (do_step w (SDerive i (Rekey m))) (SWrite (length (w_pds w)) idx v)) i = Some (with_prob p t') /\ get t' idx = v.
Proof. exact @rekeyed_written. Qed.
Print Assumptions C243_rekey_refuted.

(** indeed whatever the program does then, the two hold the same probabilities, ... *)
Theorem C243_rekey_together_refuted :
  forall (F : Fmt R) (w : world R) i p m q, sound w -> shows w i = Some p -> pd_rekey p m = Ok q ->
  let k := length (w_pds w) in let w' := do_step w (SDerive i (Rekey m)) in
  forall l, exists t, shows (run w' l) i = Some (with_prob p t) /\ shows (run w' l) k = Some (with_prob q t).
Proof. exact @rekeyed_together. Qed.
Print Assumptions C243_rekey_together_refuted.

(** ... of sorted by a scalar variable, ... *)
Theorem C243_sorted_refuted :
  forall (F : Fmt R) (w : world R) i p key ix q t, sound w -> shows w i = Some p -> od_get (p_dims p) key = Some None ->
  sorted p key ix = Ok q -> p_prob p = Some t -> shape t <> [] ->
  forall idx v, in_range (shape t) idx ->
  exists t', shows (do_step (do_step w (SDerive i (Sorted key ix))) (SWrite (length (w_pds w)) idx v)) i = Some (with_prob p t') /\ get t' idx = v.
Proof. exact @sorted_written. Qed.
Print Assumptions C243_sorted_refuted.

(** ... of slices at values that occur once, if an axis is left, ... *)
Theorem C243_slice_refuted :
  forall (F : Fmt R) (w : world R) i p L values at_ q t u, sound w -> shows w i = Some p -> valid_pd p L -> locates p values at_ ->
  call p values false = Ok q -> p_prob p = Some t -> p_prob q = Some u -> shape u <> [] ->
  forall idx v, in_range (shape u) idx ->
  exists idx' t', get u idx = get t idx' /\
    shows (do_step (do_step w (SDerive i (Call values false))) (SWrite (length (w_pds w)) idx v)) i = Some (with_prob p t') /\ get t' idx' = v.
Proof. exact @sliced_written. Qed.
Print Assumptions C243_slice_refuted.

(** ... and of conditionalise on scale one if no marginal column is left. *)
Theorem C243_conditionalise_refuted :
  forall (F : Fmt R) (w : world R) i p L keys q t u, sound w -> shows w i = Some p -> valid_pd p L ->
  p_pscale p = Lin 1%R -> incl keys L -> rest p L keys = [] -> conditionalise p keys = Ok q ->
  p_prob p = Some t -> p_prob q = Some u -> shape u <> [] ->
  forall idx v, in_range (shape u) idx ->
  exists idx' t', get u idx = get t idx' /\
    shows (do_step (do_step w (SDerive i (Conditionalise keys))) (SWrite (length (w_pds w)) idx v)) i = Some (with_prob p t') /\ get t' idx' = v.
Proof. exact @conditionalised_written. Qed.
Print Assumptions C243_conditionalise_refuted.

(** p(x,y,w=5|z): marginalised over x, rekeyed, sorted by w, at y = 2, and conditioned on x
    and y. *)
Example C243_hypotheses_met : exists (p : pd R) t, ex_make = Ok p /\ let w := one_pd p t in let L := ["x"; "y"; "z"]%string in
  sound w /\ shows w 0 = Some p /\ p_prob p = Some t /\ shape t = [2; 3; 2] /\ @valid_pd fmt_ex p L /\ p_pscale p = Lin 1%R /\
  @own_array fmt_ex (Marginalise ["x"%string]) p /\ @own_array fmt_ex (Conditionalise ["y"%string]) p /\
  outside [1] 2 [SDerive 1 (Rekey []); SDerive 0 (Rekey []); SWrite 0 [0; 0; 0] 1%R; SWrite 3 [0; 0; 0] 1%R] /\
  inside [1] 2 [SDerive 1 (Rekey []); SDerive 0 (Rekey []); SWrite 1 [0; 0] 1%R; SWrite 2 [0; 0] 1%R] /\
  (exists q, @pd_rekey R _ fmt_ex p [("x", "y"); ("y", "x"); ("w", "new")]%string = Ok q) /\
  (od_get (p_dims p) "w" = Some None /\ exists q, @sorted R _ fmt_ex p "w" [] = Ok q) /\
  (exists q u, locates p [("y"%string, 2%R)] (fun _ => 1) /\ @call R _ fmt_ex p [("y"%string, 2%R)] false = Ok q /\ p_prob q = Some u /\ shape u <> []) /\
  (exists q u, let keys := ["x"; "y"]%string in incl keys L /\ rest p L keys = [] /\ @conditionalise R _ fmt_ex p keys = Ok q /\
     p_prob q = Some u /\ shape u <> []).
Proof. exact ex_shared. Qed.
