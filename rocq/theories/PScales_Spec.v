(** What probability a number held under a scale stands for: the specification
    against which the functions of pscales.py are judged.  Nothing here refers
    to the model's functions (only to the data type of scale specifications and
    to the smallest/largest float constants). *)
From Coq Require Import String ZArith Reals Bool List.
From Verif Require Import Base Num Tensor PScales.
Import ListNotations.
Local Open Scope R_scope.

(** A complex scale is a log-probability offset: its real part, negated when the
    imaginary part is not (nearly) zero. *)
Definition log_offset (re im : R) : R :=
  if Rlt_dec (Rabs im) npz then re else - re.

(** The objects accepted as scales: None, any real or complex number, 'log', 'ln'. *)
Definition is_scale (s : pspec R) : Prop :=
  match s with
  | PSStr t => t = "log"%string \/ t = "ln"%string
  | PSOther => False
  | _ => True
  end.

(** Logarithmic scales: 'log', 'ln', every spelling of zero and complex numbers. *)
Definition log_kind (s : pspec R) : bool :=
  match s with
  | PSNone => false
  | PSInt z => Z.eqb z 0
  | PSFloat c => if Req_EM_T c 0 then true else false
  | PSCplx _ _ => true
  | PSStr _ => true
  | PSOther => false
  end.

(** The positive factor a scale stands for. *)
Definition factor (s : pspec R) : R :=
  match s with
  | PSNone => 1
  | PSInt z => if Z.eqb z 0 then 1 else IZR z
  | PSFloat c => if Req_EM_T c 0 then 1 else c
  | PSCplx re im => exp (log_offset re im)
  | PSStr _ => 1
  | PSOther => 1
  end.

(** A number v held under a scale denotes factor*v (linear) or factor*exp(v) (log). *)
Definition denote (s : pspec R) (v : R) : R :=
  factor s * (if log_kind s then exp v else v).

(** Linear coefficients must not be negative for a scale to make sense. *)
Definition positive_scale (s : pspec R) : Prop :=
  match s with
  | PSInt z => (0 <= z)%Z
  | PSFloat c => 0 <= c
  | _ => True
  end.

Definition valid_scale (s : pspec R) : Prop := is_scale s /\ positive_scale s.

(** The log scale with offset exactly one, which the code confuses with the
    linear scale one. *)
Definition unit_log (s : pspec R) : Prop := s = PSCplx 1 0.

(** The log offsets of two scales are equal or differ by at least the smallest
    positive float. *)
Definition no_tiny_gap (s t : pspec R) : Prop :=
  ln (factor s) = ln (factor t) \/ npz <= Rabs (ln (factor s) - ln (factor t)).

(** The probability q can be held under the scale without under- or overflow. *)
Definition representable (s : pspec R) (q : R) : Prop :=
  0 < q /\ (log_kind s = false -> npz <= q / factor s <= npi).

(** Product of a list of reals. *)
Definition Rprod (l : list R) : R := fold_right Rmult 1 l.

(** A linear scale: a valid scale which is not logarithmic. *)
Definition linear_scale (s : pspec R) : Prop := valid_scale s /\ log_kind s = false.

(** The two plain scales: linear one and logarithmic zero. *)
Definition plain_scale (s : pspec R) : Prop := s = PSFloat 1 \/ s = PSCplx 0 0.

(** The value denoted at a position by each of the arguments (read at the
    broadcast position, as numpy does). *)
Definition factors_at (args : list (tensor R)) (scales : list (pspec R)) (idx : list nat)
  : list R :=
  zip_with (fun a s => denote s (get a (bcast_idx (shape a) idx))) args scales.
