(** Specification vocabulary for assignments to the members of a distribution. *)
From Coq Require Import String ZArith Reals Bool Arith Permutation List.
From Verif Require Import Base Num Tensor PScales PScales_Spec Names Names_Spec Distr Distr_Spec PDModel PD_Spec PD_Sort_Spec PDSetModel.
Import ListNotations.

Section Spec.
Context {F : Fmt R}.

(** A distribution over n axes, as all are that are made (C238_made), whose number of
    axes is kept and which is noted to be a singleton if there is none. *)
Definition ready (p : pd R) (n : nat) : Prop :=
  laid_out p n /\ d_ndim (p_d p) = Some n /\ d_issing (p_d p) = Some (n =? 0).

(** The same values, axes, shape, name and roles. *)
Definition same_space (p q : pd R) : Prop :=
  p_d q = p_d p /\ p_marg q = p_marg p /\ p_cond q = p_cond p.

(** The probabilities assigned last, starting from t. *)
Definition last_prob (t : option (tensor R)) (l : list (act R)) : option (tensor R) :=
  fold_left (fun t a => match a with ActProb u => u | _ => t end) l t.

(** Assignments of an array of probabilities or of a scale. *)
Definition of_prob (a : act R) : Prop :=
  match a with ActProb (Some _) | ActScale _ => True | _ => False end.

(** Axes 0 and 1 exchanged. *)
Definition exchanged (dims : odict (option Z)) : odict (option Z) :=
  map (fun kd => (fst kd, option_map (fun d => 1 - d)%Z (snd kd))) dims.

(** Entries that show the values of scalars. *)
Definition shows_scalars (p : pd R) (entries : list (string * string)) : Prop :=
  forall k v e, od_get (p_vals p) k = Some v -> issingleton v = true ->
    od_get entries k = Some e -> e = (k ++ "=" ++ fmt_value v)%string.
End Spec.
