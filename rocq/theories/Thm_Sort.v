(** Property theorems about sorting (C25). *)
From Coq Require Import String ZArith QArith Reals Permutation Sorted List.
From Verif Require Import Base Num Tensor PScales PScales_Spec Distr Distr_Spec PDModel PDUtils PD_Spec PD_Examples PD_Sort_Spec PD_Sort PD_SortEx
  PD_ProductEx.
Import ListNotations.
Local Open Scope nat_scope.

(** C25: sorting by a column, ix being what np.argsort returned for it: the columns
    along its axis are all reordered by ix, which puts the column in ascending order,
    and the probabilities alongside; everything else remains. *)
Theorem C25_sorted :
  forall (F : Fmt R) (p : pd R) (n : nat) (key : string) (j : nat) (l : list R) (ix : list nat), laid_out p n ->
  variable p key = Some (Col l) -> on_axis n (p_dims p) key j -> argsort l ix ->
  exists q, sorted p key ix = Ok q /\ laid_out q n /\ p_keylist q = p_keylist p /\ p_dims q = p_dims p /\ p_shape q = p_shape p /\
    p_marg q = p_marg p /\ p_cond q = p_cond p /\ p_pscale q = p_pscale p /\
    (forall k m, variable p k = Some (Col m) -> on_axis n (p_dims p) k j -> variable q k = Some (Col (pick m ix))) /\
    (forall k, In k (p_keylist p) -> ~ on_axis n (p_dims p) k j -> variable q k = variable p k) /\
    (forall idx, in_range (p_shape p) idx -> prob_pos q idx = prob_pos p (moved j (nth (nth j idx 0) ix 0) idx)).
Proof. exact @sorted_column. Qed.
Print Assumptions C25_sorted.

(** p(x,u|z) with x = 3,1,2 and u = 7,8,9 along the same axis. *)
Example C25_hypotheses_met : exists p, srt_make = Ok p /\ @laid_out fmt_ex p 2 /\
  on_axis 2 (p_dims p) "x" 0 /\ on_axis 2 (p_dims p) "u" 0 /\ argsort [3; 1; 2]%R [1; 2; 0] /\
  variable p "x" = Some (Col [3; 1; 2]%R) /\ pick [3; 1; 2]%R [1; 2; 0] = [1; 2; 3]%R /\
  variable p "u" = Some (Col [7; 8; 9]%R) /\ pick [7; 8; 9]%R [1; 2; 0] = [8; 9; 7]%R /\
  prob_pos p [0; 1] = (/ 2)%R /\ moved 0 (nth 2 [1; 2; 0] 0) [2; 1] = [0; 1].
Proof. exact ex_sort. Qed.

(** Every distribution over columns with axes of their own is laid out. *)
Theorem C25_valid_laid_out :
  forall (F : Fmt R) (p : pd R) (L : list string), valid_pd p L -> laid_out p (length L).
Proof. exact @valid_laid_out. Qed.
Print Assumptions C25_valid_laid_out.

Example C25_valid_met : exists p, ex_make = Ok p /\ @valid_pd fmt_ex p ["x"; "y"; "z"]%string.
Proof. destruct ex_ok as (p & E & V & _). exists p. auto. Qed.

(** Sorting by a scalar gives the same distribution. *)
Theorem C25_sorted_scalar :
  forall (F : Fmt R) (p : pd R) (n : nat) (key : string) (ix : list nat), laid_out p n ->
  In key (p_keylist p) -> od_get (p_dims p) key = Some None ->
  exists q, sorted p key ix = Ok q /\ laid_out q n /\ p_keylist q = p_keylist p /\ p_dims q = p_dims p /\ p_shape q = p_shape p /\
    p_marg q = p_marg p /\ p_cond q = p_cond p /\ p_pscale q = p_pscale p /\
    (forall k, In k (p_keylist p) -> variable q k = variable p k) /\ (forall idx, prob_pos q idx = prob_pos p idx).
Proof. exact @sorted_scalar. Qed.
Print Assumptions C25_sorted_scalar.

Example C25_scalar_met : exists p, ex_make = Ok p /\ @laid_out fmt_ex p 3 /\ In "w"%string (p_keylist p) /\ od_get (p_dims p) "w" = Some None.
Proof. exact ex_sort_scalar. Qed.

(** laid_out asks for axes given by non-negative numbers, and must: u, on axis -1 of
    two, shares the axis of x but is left in its old order when x is sorted. *)
Theorem C25_negative_axis_refuted : exists p q, neg_make = Ok p /\ @sorted Q _ fmt_q p "x" [1; 0] = Ok q /\
  option_map raveled_value (od_get (p_vals q) "x") = Some [1; 3]%Q /\
  option_map raveled_value (od_get (p_vals q) "u") = Some [7; 8]%Q.
Proof. exact ex_sort_negative. Qed.
Print Assumptions C25_negative_axis_refuted.
