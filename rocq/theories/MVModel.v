(** Multivariate distributions of scipy.stats as probabilities of fields: the branch
    of Prob.eval_prob in prob.py that turns a dictionary of values into points. *)
From Coq Require Import String ZArith Bool Arith List.
From Verif Require Import Base Num Tensor PScales Distr PDModel VariableModel RVModel FieldModel RFModel SDModel.
Import ListNotations.
Local Open Scope nat_scope.

(** ** numpy: meshgrid, stack and squeeze *)

(** np.meshgrid with its default indexing 'xy': the first two axes change places. *)
Definition swap2 {A} (l : list A) : list A := match l with a :: b :: r => b :: a :: r | _ => l end.

(** Squeezed axes are put back at position 0. *)
Fixpoint unsqueeze (sh idx : list nat) : list nat :=
  match sh with
  | [] => []
  | n :: sh' => if n =? 1 then 0 :: unsqueeze sh' idx else hd 0 idx :: unsqueeze sh' (tl idx)
  end.
(** ndarray.squeeze. *)
Definition squeeze {A} (t : tensor A) : tensor A :=
  mkT (filter (fun n => negb (n =? 1)) (shape t)) (fun idx => get t (unsqueeze (shape t) idx)).

Section MV.
Context {T : Type} {N : Num T} {F : Fmt T} {TR : Trunc T}.

(** A frozen multivariate distribution: the number of its components, its density (or
    mass) function and the logarithm of it.  scipy computes them for every vector
    along the last axis and squeezes the result; vectors with another number of
    components raise ValueError. *)
Record mvdist : Type := mkMV { mv_dim : nat; mv_prob : list T -> T; mv_logp : list T -> T }.

(** np.stack(np.meshgrid( *vals), axis=-1): the vector at a position of the grid;
    meshgrid flattens its arguments. *)
Definition mesh_at (ls : list (list T)) (idx : list nat) : list T :=
  map (fun p => nth (snd p) (fst p) n0) (combine ls (swap2 idx)).

(** prob.py 346-349, the order of two variables and more. *)
Definition mv_order {A} (l : list A) : list A :=
  let r := rev l in
  if 2 <? length r then (tl r ++ firstn 1 r)%list else r.

Definition mv_grid (f : list T -> T) (dim : nat) (ls : list (list T)) : result (tensor T) :=
  if length ls =? dim
  then Ok (squeeze (mkT (swap2 (map (@length T) ls)) (fun idx => f (mesh_at ls idx))))
  else Err ValueError.

(** prob.py 336-352, eval_prob for a multivariate scipy distribution; rf.py 336-337.
    One variable: np.array([a]) is a vector of one component if a is a number, and one
    vector of all the values if a is an array (of one axis: that is what a field of
    one variable evaluates to). *)
Definition mv_eval (m : mvdist) (logs : bool) : probfun T := fun vals _ =>
  let f := if logs then mv_logp m else mv_prob m in
  let nums (a : tensor (pyval T)) := map (@as_num T N) (to_list a) in
  match od_vals vals with
  | [a] => let v := nums a in
           if length v =? mv_dim m then Ok (tscalar (f v)) else Err ValueError
  | l => mv_grid f (mv_dim m) (mv_order (map nums l))
  end.

(** prob.py 124-178 with rf.py 91-113, set_prob of a multivariate distribution and its
    parameters: the function that is evaluated depends on the scale it is given. *)
Definition mv_set_prob (d : sdep T) (m : mvdist) (given : option (pspec T)) : result (sdep T) :=
  let! d1 := sd_set_prob d (Some (mv_eval m false)) given in
  sd_set_prob d (Some (mv_eval m (iscomplex (spec_of (sd_pscale d1))))) given.

End MV.
Arguments mvdist T : clear implicits.
