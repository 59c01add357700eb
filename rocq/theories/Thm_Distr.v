(** Construction of distributions: C11, C12. *)
From Coq Require Import String ZArith QArith Arith Lia List.
From Verif Require Import Base Num Tensor Distr Distr_Spec Distr_Proofs.
Import ListNotations.
Local Open Scope nat_scope.

(** C11.  Values and dims make a Distribution exactly when the values without an axis
    are the scalars, everything else is a column with an axis, and every axis has a column. *)
Theorem C11_accepts_iff {T} name (vals : odict (value T)) dims n :
  NoDup (od_keys vals) -> vals <> [] -> naxes dims n ->
  (exists d, make_dist name vals (Some dims) = Ok d) <-> describes vals dims n.
Proof. exact (make_dist_iff name vals dims n). Qed.
Print Assumptions C11_accepts_iff.

(** What it then holds: the same keys, scalars without axis, columns reshaped along
    their own axis with the same values in the same order; the size is the product of the
    shape, and each entry of the shape is the number of values of the last column there. *)
Theorem C11_layout {T} name (vals : odict (value T)) dims n d :
  NoDup (od_keys vals) -> vals <> [] -> naxes dims n -> make_dist name vals (Some dims) = Ok d ->
  d_name d = name /\ d_keylist d = od_keys vals /\ d_ndim d = Some n /\ length (d_shape d) = n /\
  d_size d = Some (prod_list (d_shape d)) /\
  (forall k v, od_get vals k = Some v -> scalar_value v ->
     od_get (d_vals d) k = Some (kept v) /\ od_get (d_dims d) k = Some None) /\
  (forall k a j, column vals k a -> on_axis n dims k j ->
     od_get (d_dims d) k = od_get dims k /\
     exists a', od_get (d_vals d) k = Some (VArr a') /\ shape a' = along n j (tsize a) /\ to_list a' = to_list a) /\
  (forall j, j < n -> exists k a, column vals k a /\ on_axis n dims k j /\
     nth_error (d_shape d) j = Some (tsize a) /\
     forall k' a', column vals k' a' -> on_axis n dims k' j -> ~ after vals k' k).
Proof. exact (make_dist_result name vals dims n d). Qed.
Print Assumptions C11_layout.

(** With distinct columns on distinct axes the shape lists their numbers of values. *)
Theorem C11_shape_lists_sizes {T} name (vals : odict (value T)) dims n d :
  NoDup (od_keys vals) -> vals <> [] -> naxes dims n ->
  (forall k k' a a' j, column vals k a -> column vals k' a' -> on_axis n dims k j -> on_axis n dims k' j -> k = k') ->
  make_dist name vals (Some dims) = Ok d ->
  forall k a j, column vals k a -> on_axis n dims k j -> nth_error (d_shape d) j = Some (tsize a).
Proof. exact (make_dist_distinct name vals dims n d). Qed.
Print Assumptions C11_shape_lists_sizes.

(** With dims omitted the columns get axes 0, 1, ... in the order of the keys.  The j-th
    is reshaped to j+1 axes, whatever the number of axes of the distribution. *)
Theorem C11_dims_omitted {T} name (vals : odict (value T)) :
  NoDup (od_keys vals) -> vals <> [] ->
  ((exists d, make_dist name vals None = Ok d) <->
   (forall k, In k (od_keys vals) -> ~ In k ["attrs"; "prob"; "pscale"]%string) /\
   (forall k v, od_get vals k = Some v -> scalar_value v \/ exists a, v = VArr a /\ one_axis a)) /\
  (forall d, make_dist name vals None = Ok d ->
    d_name d = name /\ d_keylist d = od_keys vals /\ d_ndim d = Some (length (columns vals)) /\
    length (d_shape d) = length (columns vals) /\ d_size d = Some (prod_list (d_shape d)) /\
    (forall k v, od_get vals k = Some v -> scalar_value v ->
       od_get (d_vals d) k = Some (kept v) /\ od_get (d_dims d) k = Some None) /\
    (forall j k, nth_error (columns vals) j = Some k ->
       exists a a', column vals k a /\ od_get (d_dims d) k = Some (Some (Z.of_nat j)) /\
         nth_error (d_shape d) j = Some (tsize a) /\
         od_get (d_vals d) k = Some (VArr a') /\ shape a' = along (S j) j (tsize a) /\ to_list a' = to_list a)).
Proof. exact (make_dist_none name vals). Qed.
Print Assumptions C11_dims_omitted.

Definition col (l : list Q) : value Q := VArr (of_list 0%Q l).

(** Two columns laid across the key order, a number and {None}. *)
Definition ex_vals : odict (value Q) :=
  [("x", col [1; 2; 3]); ("c", VNum 7%Q); ("y", col [5; 6]); ("n", VSet [SEnone])]%string%Q.
Definition ex_dims : odict (option Z) := [("y", Some 0%Z); ("x", Some (-1)%Z); ("z", Some 1%Z)]%string.

Example C11_applies :
  NoDup (od_keys ex_vals) /\ ex_vals <> [] /\ naxes ex_dims 2 /\ describes ex_vals ex_dims 2 /\
  exists d, make_dist "m" ex_vals (Some ex_dims) = Ok d /\ (d_shape d, d_size d) = ([2; 3], Some 6).
Proof.
  assert (ND : NoDup (od_keys ex_vals)) by (repeat constructor; cbn; intuition congruence).
  assert (NE : ex_vals <> []) by discriminate.
  assert (NA : naxes ex_dims 2).
  { split.
    - intros k d [E|[E|[E|[]]]]; injection E as <- <-; reflexivity.
    - right. exists "z"%string, 1%Z. cbn. auto. }
  do 3 (split; [assumption|]).
  assert (E : exists d, make_dist "m" ex_vals (Some ex_dims) = Ok d /\ (d_shape d, d_size d) = ([2; 3], Some 6)).
  { apply (made _ (fun d : dist Q => (d_shape d, d_size d))). vm_compute. reflexivity. }
  split; [|exact E]. apply (proj1 (C11_accepts_iff "m" ex_vals ex_dims 2 ND NE NA)). destruct E as (d & E & _). eauto.
Qed.

Example C11_dims_omitted_applies : columns ex_vals = ["x"; "y"]%string /\
  exists d, make_dist "m" ex_vals None = Ok d /\ d_shape d = [3; 2].
Proof. split; [reflexivity|]. apply (made _ (@d_shape Q)). vm_compute. reflexivity. Qed.

(** C12.  Lengths are not compared.  A column can be replaced by one of any other length
    without changing whether the distribution is accepted. *)
Theorem C12_length_never_matters {T} name (vals : odict (value T)) dims n k a a' :
  NoDup (od_keys vals) -> naxes dims n -> column vals k a -> one_axis a' ->
  (exists d, make_dist name (od_set vals k (VArr a')) (Some dims) = Ok d) <->
  (exists d, make_dist name vals (Some dims) = Ok d).
Proof. exact (make_dist_resize name vals dims n k a a'). Qed.
Print Assumptions C12_length_never_matters.

(** Two columns sharing an axis are accepted whatever their lengths, and the axis takes
    the length of the later one. *)
Theorem C12_shared_axis_refuted {T} name (vals : odict (value T)) dims n k k' a a' j :
  NoDup (od_keys vals) -> naxes dims n -> describes vals dims n ->
  column vals k a -> column vals k' a' -> on_axis n dims k j -> on_axis n dims k' j ->
  (forall x b, column vals x b -> on_axis n dims x j -> x = k \/ x = k') -> after vals k' k ->
  exists d, make_dist name vals (Some dims) = Ok d /\ nth_error (d_shape d) j = Some (tsize a').
Proof. exact (make_dist_shared name vals dims n k k' a a' j). Qed.
Print Assumptions C12_shared_axis_refuted.

Example C12_applies :
  let vals := [("x", col [1; 2; 3]); ("y", col [5; 6])]%string%Q in
  let dims := [("x", Some 0%Z); ("y", Some 0%Z)]%string in
  NoDup (od_keys vals) /\ naxes dims 1 /\ describes vals dims 1 /\
  column vals "x" (of_list 0%Q [1; 2; 3]%Q) /\ column vals "y" (of_list 0%Q [5; 6]%Q) /\
  on_axis 1 dims "x" 0 /\ on_axis 1 dims "y" 0 /\ after vals "y" "x" /\
  exists d, make_dist "m" vals (Some dims) = Ok d /\ d_shape d = [2].
Proof.
  intros vals dims.
  assert (ND : NoDup (od_keys vals)) by (repeat constructor; cbn; intuition congruence).
  assert (NE : vals <> []) by discriminate.
  assert (NA : naxes dims 1).
  { split.
    - intros k d [E|[E|[]]]; injection E as <- <-; reflexivity.
    - right. exists "x"%string, 0%Z. cbn. auto. }
  do 2 (split; [assumption|]).
  assert (E : exists d, make_dist "m" vals (Some dims) = Ok d /\ d_shape d = [2]).
  { apply (made _ (@d_shape Q)). vm_compute. reflexivity. }
  split. { apply (proj1 (C11_accepts_iff "m" vals dims 1 ND NE NA)). destruct E as (d & E & _). eauto. }
  split. { repeat split. discriminate. }
  split. { repeat split. discriminate. }
  split. { exists 0%Z. cbn. auto with zarith. }
  split. { exists 0%Z. cbn. auto with zarith. }
  split; [|exact E]. exists [], [], []. reflexivity.
Qed.
