(** Notions used in the statements about the lists that variables share. *)
From Coq Require Import ZArith Bool List Reals.
From Verif Require Import Base Num VariableModel Var_Spec AliasModel.
Import ListNotations.

(** The list at a is edited or converted by an act: by the caller, through the set of a
    variable that is that list, or because it is given as a set or taken as default. *)
Definition holds (w : world R) (i a : nat) : Prop := exists v, nth_error (w_vars w) i = Some v /\ av_at v = Some a.
Definition gives_list (w : world R) (t : option vtype) (s : source R) (a : nat) : Prop :=
  match s with
  | FromNone => exists t', t = Some t' /\ a = default_at t'
  | FromList b => a = b
  | FromVar j => holds w j a
  | FromOther _ => False
  end.
Definition uses (w : world R) (c : act R) (a : nat) : Prop :=
  match c with
  | MakeList _ => False
  | Edit b _ => a = b
  | EditVset i _ => holds w i a
  | Assign i s => exists v, nth_error (w_vars w) i = Some v /\ gives_list w (av_type v) s a
  | New t s => gives_list w t s a \/ (exists t', t = Some t' /\ a = default_at t') \/ (t = None /\ s = FromNone /\ a = default_at VBool)
  end.
(** The i-th variable is given a set. *)
Definition assigns (c : act R) (i : nat) : Prop := exists s, c = Assign i s.

(** None of the acts of a program that starts in w uses the list at a or gives the i-th
    variable a set. *)
Fixpoint leaves_alone (w : world R) (p : list (act R)) (i a : nat) : Prop :=
  match p with
  | [] => True
  | c :: p => ~ uses w c a /\ ~ assigns c i /\ leaves_alone (fst (do_act w c)) p i a
  end.

(** Programs can only name lists that there are. *)
Definition known (w : world R) (c : act R) : Prop :=
  match c with
  | Edit b _ | Assign _ (FromList b) | New _ (FromList b) => b < length (w_heap w)
  | _ => True
  end.
Inductive reachable : world R -> Prop :=
| reach_start : reachable start
| reach_act w c : reachable w -> known w c -> reachable (fst (do_act w c)).

(** Lists of numbers. *)
Definition numbers (vals : list (pyval R)) : list (elem R) := map (fun x => Bare (AV x)) vals.

(** An element converted to a type; infinities are left. *)
Definition converted (t : vtype) (e : elem R) : elem R :=
  match e with
  | Bare (AV x) => Bare (AV (cast t x))
  | Tup (AV x) => Tup (AV (cast t x))
  | e => e
  end.
