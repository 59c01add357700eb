(** Specification vocabulary for variables, over the reals. *)
From Coq Require Import String ZArith Reals Bool Arith List Permutation.
From Verif Require Import Base Num Likelihoods VariableModel.
Import ListNotations.
Local Open Scope R_scope.

(** The real number a value stands for. *)
Definition num (v : pyval R) : R :=
  match v with PB true => 1 | PB false => 0 | PI z => IZR z | PF x => x end.

(** x respects the limit e from above (e is a lower limit): strictly if the
    limit is excluded. *)
Definition over (e : elem R) (x : R) : Prop :=
  match e with
  | Bare (AV v) => num v <= x
  | Tup (AV v) => num v < x
  | Bare (AOO b) | Tup (AOO b) => b = false
  end.

Definition under (e : elem R) (x : R) : Prop :=
  match e with
  | Bare (AV v) => x <= num v
  | Tup (AV v) => x < num v
  | Bare (AOO b) | Tup (AOO b) => b = true
  end.

(** The limit a is at most the limit b. *)
Definition limit_le (a b : atom R) : Prop :=
  match a, b with
  | AOO false, _ => True
  | _, AOO true => True
  | AV x, AV y => num x <= num y
  | _, _ => False
  end.

(** A float variable with limits e0 below and e1 above. *)
Definition interval (e0 e1 : elem R) : vstate R := mkVS (Some VFloat) (Some [e0; e1]).

(** A discrete variable with the given values. *)
Definition discrete (t : vtype) (vals : list (pyval R)) : vstate R :=
  mkVS (Some t) (Some (map (fun v => Bare (AV v)) vals)).

(** Every element has the type of the variable. *)
Definition typed (t : vtype) (e : elem R) : Prop :=
  match atom_of e with AV v => vtype_of v = t | AOO _ => True end.

(** What a variable looks like after construction: a type, a set of elements of
    that type, for floats two limits in order. *)
Definition well_made (s : vstate R) : Prop :=
  exists t l, vs_vtype s = Some t /\ vs_vset s = Some l /\ Forall (typed t) l /\ l <> [] /\
    (t = VFloat -> exists e0 e1, l = [e0; e1] /\ limit_le (atom_of e0) (atom_of e1)).


Definition pyval_dec : forall a b : pyval R, {a = b} + {a <> b}.
Proof.
  intros [x|x|x] [y|y|y]; try (right; discriminate).
  - destruct (bool_dec x y); [left; subst; reflexivity|right; congruence].
  - destruct (Z.eq_dec x y); [left; subst; reflexivity|right; congruence].
  - destruct (Req_EM_T x y); [left; subst; reflexivity|right; congruence].
Defined.

Definition answer (o : values_out R) : list (pyval R) :=
  match o with OScalar v => [v] | OArray l => l end.

(** An outcome of np.random.permutation(n). *)
Definition shuffle (n : nat) (p : list nat) : Prop := Permutation p (seq 0 n).
