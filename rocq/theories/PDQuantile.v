(** Model of PD.quantile (/repo/probayes/pd.py 408-461). *)
From Coq Require Import String ZArith Bool Arith List.
From Verif Require Import Base Num Tensor PScales Distr PDModel PDUtils.
Import ListNotations.
Local Open Scope bool_scope.

Section Quantile.
Context {T : Type} {N : Num T} {F : Fmt T}.

(** np.cumsum. *)
Fixpoint cumsum_from (s : T) (l : list T) : list T :=
  match l with
  | [] => []
  | x :: l' => n_add s x :: cumsum_from (n_add s x) l'
  end.
Definition cumsum (l : list T) : list T :=
  match l with [] => [] | x :: l' => x :: cumsum_from x l' end.

(** np.interp(x, [a, b], [f0, f1]). *)
Definition interp2 (x a b f0 f1 : T) : T :=
  if n_ltb x a then f0
  else if n_leb b x then f1
  else n_add (n_mul (n_div (n_sub f1 f0) (n_sub b a)) (n_sub x a)) f0.

(** pd.py 442-458: the value of one variable at raveled position [r] with cell
    [unr].  dims are those of columns; a column without axis raises TypeError as
    an index would. *)
Definition quantile_value (p : pd T) (ravprob cumprob : list T) (q : T) (r : nat) (unr : list nat)
    (key : string) (v : value T) : result (value T) :=
  if negb (ismonotonic v) then
    Ok (VSet [SEint (Z.of_nat (length (raveled_value v)))])
  else
    let! dim := od_getR (p_dims p) key in
    match dim with
    | None => Err TypeError
    | Some d =>
        let val := raveled_value v in
        let! ax := py_indexR (length unr) d in
        let u := nth ax unr 0 in
        let idx := Nat.min u (length val - 1) in
        let at_ l i := nth i l n0 in
        if (d <? Z.of_nat (p_ndim p) - 1)%Z || (idx =? length val - 1) then
          Ok (VNum (at_ val idx))
        else
          let v0 := at_ val idx in
          let v1 := at_ val (S idx) in
          let p0 := at_ ravprob r in
          let p1 := at_ ravprob (S r) in
          if n_ltb (n_abs (n_sub p1 p0)) (n_min q (n_sub n1 q)) then
            Ok (VNum (interp2 q (at_ cumprob r) (at_ cumprob (S r)) v0 v1))
          else
            Ok (VNum (n_div (n_add (n_mul p0 v0) (n_mul p1 v1)) (n_add p0 p1)))
    end.

(** pd.py 408-461 (quantile) for a list of quantiles; a scalar q gives the only
    element of the result for [q]. *)
Definition quantile (p : pd T) (quants : list T) : result (list (odict (value T))) :=
  match p_issing p with
  | Some true => Ok (map (fun _ => p_vals p) quants)
  | _ =>
      let! prob := p_probR p in
      let! rav := rescale (traveled prob) (spec_of (p_pscale p)) one_ps in
      let ravprob := to_list rav in
      let cum := cumsum ravprob in
      let! cump := div_prob (of_list n0 cum) (tscalar (last cum n0)) None PSNone in
      let cumprob := to_list cump in
      map_res (fun q =>
                 let! k := digitize cumprob q in
                 let r := k - 1 in
                 let unr := unravel (p_shape p) r in
                 map_res (fun it =>
                            let '(key, v, sing) := it in
                            let! x := if (sing : bool) then Ok v
                                      else quantile_value p ravprob cumprob q r unr key v in
                            Ok (key, x)) (p_items p)) quants
  end.

End Quantile.
