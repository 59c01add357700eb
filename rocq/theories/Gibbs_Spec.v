(** What is meant by a scan through the variables that draws one at a time. *)
From Coq Require Import String Ascii ZArith Reals Bool Arith List.
From Verif Require Import Base Num Tensor PScales PScales_Spec Names Distr PDModel PD_Spec VariableModel RVModel FieldModel
  RFModel RF_Spec SDModel SPModel SP_Spec ChainModel Chain_Spec GibbsModel.
Import ListNotations.
Local Open Scope R_scope.

(** The function f draws variable number i, the variables being at x, as c x i of its
    random numbers. *)
Definition draws (names : list string) (c : list R -> nat -> (nat -> R) -> R) (f : gfun R) : Prop :=
  forall x i k u, length x = length names -> nth_error names i = Some k ->
  f (combine names (map PF x)) k u = Ok (PF (c x i u)).

(** x with its i-th number replaced. *)
Fixpoint put (i : nat) (y : R) (x : list R) : list R :=
  match x, i with
  | [], _ => []
  | _ :: x', O => y :: x'
  | z :: x', S i' => z :: put i' y x'
  end.

(** The variables with the numbers ks are drawn one after the other, each given the
    values that all variables have by then; u are the random numbers of each variable. *)
Fixpoint drawn_in_turn (c : list R -> nat -> (nat -> R) -> R) (u : nat -> nat -> R) (ks : list nat) (x : list R) : list R :=
  match ks with
  | [] => x
  | i :: ks' => drawn_in_turn c u ks' (put i (c x i (u i)) x)
  end.

(** n variables in blocks of t: how many blocks, and the variables of the block of the
    sample with number j. *)
Definition blocks (n t : nat) : nat := ((n + t - 1) / t)%nat.
Definition block (n t j : nat) : list nat := filter (fun i => Nat.eqb (i / t) (j mod blocks n t)) (seq 0 n).

(** The variables drawn for the sample with number j: all of them without tsteps. *)
Definition scan (n : nat) (tsteps : option nat) (j : nat) : list nat :=
  match tsteps with None => seq 0 n | Some t => block n t j end.

(** The proposal from x for the sample with number j. *)
Definition by_scan (names : list string) (c : list R -> nat -> (nat -> R) -> R) (sc : nat -> list nat)
    (j : nat) (x : list R) (r : grnd R) : list R :=
  drawn_in_turn c (fun i => gr_draw r (nth i names EmptyString)) (sc j) x.

(** The chain from x: step by step the proposal for a sample with a given number is
    accepted, always or by a rule; the first one always is. *)
Definition decided (acc : option (list R -> list R -> R)) (u : R) (x y : list R) : list R :=
  match acc with None => y | Some a => if Rle_dec u (a x y) then y else x end.
Fixpoint tfun_chain (prop : nat -> list R -> grnd R -> list R) (acc : option (list R -> list R -> R)) (x : list R)
    (steps : list (nat * grnd R)) : list (list R) :=
  match steps with
  | [] => []
  | (j, r) :: steps' => let x' := decided acc (gr_thresh r) x (prop j x r) in x' :: tfun_chain prop acc x' steps'
  end.
Definition tfun_samples (prop : nat -> list R -> grnd R -> list R) (acc : option (list R -> list R -> R)) (x : list R)
    (steps : list (nat * grnd R)) : list (list R) :=
  match steps with
  | [] => []
  | (j, r) :: steps' => let y := prop j x r in y :: tfun_chain prop acc y steps'
  end.

(** The numbers of the samples of generator g, counting the samples of all generators
    from k on. *)
Fixpoint numbers_of {D Sc} (k g : nat) (os : list (nat * @outcome D Sc)) : list nat :=
  match os with
  | [] => []
  | (i, Yield _) :: os' => if Nat.eqb i g then k :: numbers_of (S k) g os' else numbers_of (S k) g os'
  | _ :: os' => numbers_of k g os'
  end.

(** How many samples a sampler gives in m steps. *)
Definition given_samples (stop : option nat) (m : nat) : nat := match stop with None => m | Some s => Nat.min s m end.

(** Every sampler of a process, created at any time and stepped in any order among
    others while the process is not reset, yields the chain from start, the proposals
    for its samples depending on their numbers among the samples of all samplers. *)
Definition scans_as {F : Fmt R} {TR : Trunc R} (G : gibbs R) (m : rule) (fine : grnd R -> Prop) (names : list string) (start : list R)
    (dens : list R -> R) (prop : nat -> list R -> grnd R -> list R) (acc : option (list R -> list R -> R)) : Prop :=
  forall pre stop post, no_reset (pre ++ post) -> steps_of (created pre) pre = [] ->
  (forall i r, In (EStep i r) (pre ++ post) -> fine r) ->
  let g := created pre in
  let rs := steps_of g post in
  let os := gb_run G m None (pre ++ ENew stop :: post) in
  exists samples,
    outcomes_of g os = (map (fun s => Yield (OutFull s)) samples ++ repeat Stopped (length rs - length samples))%list /\
    length samples = given_samples stop (length rs) /\ length (numbers_of 0 g os) = length samples /\
    Forall2 (sample_at names dens) samples (tfun_samples prop acc start (combine (numbers_of 0 g os) rs)).

(** The function that steps use. *)
Definition forward (tf : tfunin R) : gfun R := match tf with TfOne f => f | TfTwo f _ => f end.

(** A value of tsteps that is not negative: how many variables are drawn at a time. *)
Definition at_a_time (tsteps : option Z) : option nat :=
  match tsteps with None | Some 0%Z => None | Some t => Some (Z.to_nat t) end.
Definition not_negative (tsteps : option Z) : Prop := forall t, tsteps = Some t -> (0 <= t)%Z.

(** A process whose only sampler is stepped with the choices rs. *)
Definition alone (rs : list (grnd R)) : list (event (grnd R)) := ENew None :: map (EStep 0) rs.

(** As many samplers as m, stepped in turn, the g-th with the choices r g in a round. *)
Definition in_turn (m : nat) (rounds : list (nat -> grnd R)) : list (event (grnd R)) :=
  (repeat (ENew None) m ++ flat_map (fun r => map (fun g => EStep g (r g)) (seq 0 m)) rounds)%list.

(** With a negative tsteps: the variables drawn for the sample with number j. *)
Definition first_only (n : nat) (t : Z) (j : nat) : list nat :=
  match j with O => seq 0 (n - Z.to_nat (- t)) | S _ => [] end.
