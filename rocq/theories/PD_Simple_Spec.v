(** What renaming, saving and monotonicity mean. *)
From Coq Require Import Ascii String ZArith Reals Arith List.
From Verif Require Import Base Num Tensor PScales Names_Spec Distr PDModel PDUtils PD_Spec.
Import ListNotations.
Local Open Scope R_scope.

Definition nondecreasing (l : list R) : Prop :=
  forall i j, (i < j < length l)%nat -> nth i l 0 <= nth j l 0.
Definition strictly_decreasing (l : list R) : Prop :=
  forall i j, (i < j < length l)%nat -> nth j l 0 < nth i l 0.

(** The numbers held by a value, in C order. *)
Definition numbers (v : value R) : list R :=
  match v with VNum x => [x] | VArr a => to_list a | _ => [] end.

(** The name keymap gives to k. *)
Definition renamed (keymap : odict string) (k : string) : string :=
  match od_get keymap k with Some s => s | None => k end.

(** An entry that is its own key: "x" but not "x=1". *)
Definition plain_key (s : string) : Prop := good_entry s /\ key_of s s.

Section Spec.
Context {F : Fmt R}.

(** q is p in everything but the text of its name: it has the same variables as
    marginals and as conditionals, in the same order, on the same axes. *)
Definition reloaded (p q : pd R) (L : list string) : Prop :=
  valid_pd q L /\ p_keylist q = p_keylist p /\
  od_keys (p_marg q) = od_keys (p_marg p) /\ od_keys (p_cond q) = od_keys (p_cond p) /\
  p_pscale q = p_pscale p /\ p_prob q = p_prob p /\
  (forall k, od_get (p_dims q) k = od_get (p_dims p) k) /\
  (forall k, variable q k = variable p k).

End Spec.

(** Elements of l without those that come again later in it. *)
Fixpoint firsts (l : list string) : list string :=
  match l with
  | [] => []
  | k :: l' => k :: filter (fun x => negb (String.eqb x k)) (firsts l')
  end.

(** A name with no character that structures names. *)
Definition simple_key (s : string) : Prop := good_entry s /\ ~ occurs "=" s.
