(** Model of the remaining ways to gather results: summaries of samples with the keyword
    conditionalise (probayes/sp.py), and pd_utils.iterdict. *)
From Coq Require Import String ZArith Bool List.
From Verif Require Import Base Num Tensor Distr PDModel PDUtils SPModel OmcModel.
Import ListNotations.

Section Sums.
Context {T : Type} {N : Num T} {F : Fmt T}.

(** sp.py 192-193: [leafs] lists the set of the leafs' names in the order in which Python
    iterates over it. *)
Definition cond_total (leafs : list string) (x : option (pd T)) : result (option (pd T)) :=
  match x with
  | None => Ok None
  | Some p => let! q := conditionalise p leafs in Ok (Some q)
  end.

(** sp.py 150-197 with conditionalise=True.  Simplified: all sums are made before the first
    of them is conditioned, in the code each after its sum. *)
Definition summarise_cond {D Sc} (view : D -> pd T) (updates : bool) (leafs : list string) (samples : list (psample D Sc))
    : result (summary T Sc) :=
  let! sm := summarise view updates samples in
  let! o := cond_total leafs (sm_o sm) in
  let! p := cond_total leafs (sm_p sm) in
  let! v := cond_total leafs (sm_v sm) in
  Ok (mkSummary o p (sm_q sm) (sm_r sm) (sm_s sm) (sm_t sm) (sm_u sm) v).

(** sp.py 135-149: the sum of distributions, with or without conditionalise=True. *)
Definition sum_dists (leafs : list string) (cond : bool) (samples : list (pd T)) : result (option (pd T)) :=
  let! d := summate samples in
  if cond then cond_total leafs d else Ok d.

End Sums.

(** pd_utils.py 424-430, iterdict: [order] is the set of all keys in the order in which
    Python iterates over it. *)
Definition all_keys {V} (dicts : list (odict V)) : list string := flat_map (@od_keys V) dicts.
Definition iterdict {V} (order : list string) (dicts : list (odict V)) : result (odict (list V)) :=
  match dicts with
  | [] => Err TypeError (* functools.reduce of an empty list *)
  | _ => Ok (map (fun k => (k, flat_map (fun d => match od_get d k with Some v => [v] | None => [] end) dicts)) order)
  end.
