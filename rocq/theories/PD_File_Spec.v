(** What writing distributions to a file and reading them back should do. *)
From Coq Require Import String Ascii ZArith Reals Bool List.
From Verif Require Import Base Num Tensor PScales Names_Spec Distr PDModel PDUtils PDFile PD_Spec.
Import ListNotations.
Local Open Scope R_scope.

(** Object i is the last of its name among those given. *)
Definition last_of_name {T} (heap : list (live T)) (refs : list nat) (i : nat) : Prop :=
  exists r1 r2 l, refs = r1 ++ i :: r2 /\ nth_error heap i = Some l /\
    forall j l', In j r2 -> nth_error heap j = Some l' -> l_short l' <> l_short l.

Section Spec.
Context {F : Fmt R}.

(** Variables that are not columns. *)
Definition has_scalar (p : pd R) : Prop := exists k, In k (p_keylist p) /\ od_get (p_dims p) k = Some None.

(** Values that HDF5 can hold: numbers, arrays and counts. *)
Definition storable (p : pd R) : Prop :=
  forall k v, In (k, v) (p_vals p) ->
  match v with
  | VNum _ | VArr _ => True
  | VSet [SEint z] => (0 <= z)%Z
  | _ => False
  end.

(** Names that mean nothing else to the file format. *)
Definition plain_keys (p : pd R) : Prop :=
  forall k, In k (p_keylist p) -> ~ occurs " "%char k /\ ~ occurs "/"%char k /\ k <> "order"%string.

(** A number read back from a file is an array without axes. *)
Definition as_read (v : var) : var :=
  match v with
  | Scal (VNum x) => Scal (VArr (mkT [] (fun _ => x)))
  | v => v
  end.

(** q is what is read back of p: everything is the same but the order of the
    variables, which is that in which p's dims lists them. *)
Definition read_back (p q : pd R) (L : list string) : Prop :=
  valid_pd q L /\ p_keylist q = od_keys (p_dims p) /\
  od_keys (p_marg q) = od_keys (p_marg p) /\ od_keys (p_cond q) = od_keys (p_cond p) /\
  p_pscale q = p_pscale p /\ p_prob q = p_prob p /\
  (forall k, od_get (p_dims q) k = od_get (p_dims p) k) /\
  (forall k, variable q k = option_map as_read (variable p k)).

End Spec.
