(** The fragment of numpy used by probayes: n-dimensional arrays.

    An array is a shape and a total function from index lists to elements; only
    the elements at in-range indices are meaningful.  0-d arrays and numpy/Python
    scalars are identified (shape []). *)
From Coq Require Import ZArith Bool Arith Lia List.
From Verif Require Import Base.
Import ListNotations.
Set Implicit Arguments.

Record tensor (A : Type) : Type := mkT { shape : list nat; get : list nat -> A }.
Arguments mkT {A} shape get.
Arguments shape {A} t.
Arguments get {A} t idx.

(** In-range index lists. *)
Definition in_range (sh idx : list nat) : Prop := Forall2 lt idx sh.

(** Array equality as observed by numpy. *)
Definition teq {A} (t u : tensor A) : Prop :=
  shape t = shape u /\ forall idx, in_range (shape t) idx -> get t idx = get u idx.

Definition ndim {A} (t : tensor A) : nat := length (shape t).

(** np.prod of a list of sizes. *)
Definition prod_list (l : list nat) : nat := fold_right Nat.mul 1 l.
Definition tsize {A} (t : tensor A) : nat := prod_list (shape t).

Definition tscalar {A} (a : A) : tensor A := mkT [] (fun _ => a).

(** 1-d array from a list (d: element reported out of range). *)
Definition of_list {A} (d : A) (l : list A) : tensor A :=
  mkT [length l] (fun idx => nth (hd 0 idx) l d).

Definition tmap {A B} (f : A -> B) (t : tensor A) : tensor B :=
  mkT (shape t) (fun idx => f (get t idx)).

(** ** C-order linear positions *)

Fixpoint ravel (sh idx : list nat) : nat :=
  match sh, idx with
  | n :: sh', i :: idx' => i * prod_list sh' + ravel sh' idx'
  | _, _ => 0
  end.

Fixpoint unravel (sh : list nat) (k : nat) : list nat :=
  match sh with
  | [] => []
  | n :: sh' => (k / prod_list sh') :: unravel sh' (k mod prod_list sh')
  end.

(** np.ravel as a list. *)
Definition to_list {A} (t : tensor A) : list A :=
  map (fun k => get t (unravel (shape t) k)) (seq 0 (tsize t)).

(** a.reshape(sh): ValueError unless the sizes agree. *)
Definition reshape {A} (sh : list nat) (t : tensor A) : result (tensor A) :=
  if prod_list sh =? tsize t
  then Ok (mkT sh (fun idx => get t (unravel (shape t) (ravel sh idx))))
  else Err ValueError.

(** np.ravel(a). *)
Definition traveled {A} (t : tensor A) : tensor A :=
  mkT [tsize t] (fun idx => get t (unravel (shape t) (hd 0 idx))).

(** np.expand_dims(a, -1). *)
Definition expand_last {A} (t : tensor A) : tensor A :=
  mkT (shape t ++ [1]) (fun idx => get t (removelast idx)).

(** ** Transposition *)

(** Position of d in a list of axes. *)
Fixpoint index_of (d : nat) (l : list nat) : nat :=
  match l with
  | [] => 0
  | x :: l' => if x =? d then 0 else S (index_of d l')
  end.

(** a.transpose(order): axis j of the result is axis order[j] of a. *)
Definition transpose {A} (order : list nat) (t : tensor A) : tensor A :=
  mkT (map (fun d => nth d (shape t) 0) order)
      (fun idx => get t (map (fun d => nth (index_of d order) idx 0)
                             (seq 0 (length (shape t))))).

(** insertion into a list of pairs sorted by first component, as sorted(zip()). *)
Fixpoint insert_pair (p : nat * nat) (l : list (nat * nat)) : list (nat * nat) :=
  match l with
  | [] => [p]
  | q :: l' => if fst p <=? fst q then p :: l else q :: insert_pair p l'
  end.

Definition sort_pairs (l : list (nat * nat)) : list (nat * nat) :=
  fold_right insert_pair [] l.

(** The axis permutation computed by numpy's moveaxis. *)
Definition moveaxis_order (n : nat) (src dst : list nat) : list nat :=
  fold_left (fun order p => insert_nth (fst p) (snd p) order)
            (sort_pairs (combine dst src))
            (filter (fun d => negb (existsb (Nat.eqb d) src)) (seq 0 n)).

Definition norm_axis (n : nat) (d : Z) : result nat :=
  match py_index n d with Some i => Ok i | None => Err AxisError end.

Fixpoint nodup_nat (l : list nat) : bool :=
  match l with
  | [] => true
  | k :: l' => negb (existsb (Nat.eqb k) l') && nodup_nat l'
  end.

(** normalize_axis_tuple: axes in range and not repeated. *)
Definition norm_axes (n : nat) (ds : list Z) : result (list nat) :=
  let! l := map_res (norm_axis n) ds in
  if nodup_nat l then Ok l else Err ValueError.

(** np.moveaxis(a, src, dst). *)
Definition moveaxis {A} (t : tensor A) (src dst : list Z) : result (tensor A) :=
  let! s := norm_axes (ndim t) src in
  let! d := norm_axes (ndim t) dst in
  if length s =? length d
  then Ok (transpose (moveaxis_order (ndim t) s d) t)
  else Err ValueError.

(** ** Reductions *)

Fixpoint big {A} (op : A -> A -> A) (e : A) (n : nat) (f : nat -> A) : A :=
  match n with
  | 0 => e
  | S n' => op (big op e n' f) (f n')
  end.

(** Reduction of f over the axes of sh marked true; idx lists the positions on
    the other axes. *)
Fixpoint reduce_at {A} (op : A -> A -> A) (e : A) (sh : list nat) (mask : list bool)
    (f : list nat -> A) (idx : list nat) : A :=
  match sh, mask with
  | n :: sh', true :: m' =>
      big op e n (fun i => reduce_at op e sh' m' (fun r => f (i :: r)) idx)
  | n :: sh', false :: m' =>
      reduce_at op e sh' m' (fun r => f (hd 0 idx :: r)) (tl idx)
  | _, _ => f []
  end.

Definition mask_of (n : nat) (axes : list nat) : list bool :=
  map (fun d => existsb (Nat.eqb d) axes) (seq 0 n).

(** Entries of l whose mask is false. *)
Fixpoint unmasked {A} (mask : list bool) (l : list A) : list A :=
  match mask, l with
  | true :: m', _ :: l' => unmasked m' l'
  | false :: m', x :: l' => x :: unmasked m' l'
  | _, _ => []
  end.

(** np.sum / np.prod with a tuple of axes, keepdims=False. *)
Definition reduce {A} (op : A -> A -> A) (e : A) (t : tensor A) (axes : list Z)
  : result (tensor A) :=
  let! ax := norm_axes (ndim t) axes in
  let mask := mask_of (ndim t) ax in
  Ok (mkT (unmasked mask (shape t)) (fun idx => reduce_at op e (shape t) mask (get t) idx)).

(** The same with keepdims=True. *)
Definition reduce_keep {A} (op : A -> A -> A) (e : A) (t : tensor A) (axes : list Z)
  : result (tensor A) :=
  let! ax := norm_axes (ndim t) axes in
  let mask := mask_of (ndim t) ax in
  Ok (mkT (zip_with (fun (b : bool) n => if b then 1 else n) mask (shape t))
          (fun idx => reduce_at op e (shape t) mask (get t) (unmasked mask idx))).

(** np.sum(a) over everything. *)
Definition reduce_all {A} (op : A -> A -> A) (e : A) (t : tensor A) : A :=
  reduce_at op e (shape t) (repeat true (ndim t)) (get t) [].

(** ** Broadcasting *)

Definition pad_shape (n : nat) (sh : list nat) : list nat :=
  repeat 1 (n - length sh) ++ sh.

Fixpoint merge_shape (s1 s2 : list nat) : result (list nat) :=
  match s1, s2 with
  | d1 :: s1', d2 :: s2' =>
      let! r := merge_shape s1' s2' in
      if d1 =? d2 then Ok (d1 :: r)
      else if d1 =? 1 then Ok (d2 :: r)
      else if d2 =? 1 then Ok (d1 :: r)
      else Err ValueError
  | _, _ => Ok []
  end.

Definition bcast_shape (s1 s2 : list nat) : result (list nat) :=
  let n := Nat.max (length s1) (length s2) in
  merge_shape (pad_shape n s1) (pad_shape n s2).

(** numpy's common shape of a list of shapes. *)
Definition bcast_all (l : list (list nat)) : result (list nat) :=
  match l with
  | [] => Ok []
  | [s] => Ok s
  | s :: l' => fold_res bcast_shape l' s
  end.

(** Position read in an array of shape sh for position idx of the result. *)
Definition bcast_idx (sh idx : list nat) : list nat :=
  zip_with (fun d i => if d =? 1 then 0 else i) sh (skipn (length idx - length sh) idx).

(** Elementwise binary operation with broadcasting. *)
Definition tbin {A B C} (f : A -> B -> C) (t : tensor A) (u : tensor B)
  : result (tensor C) :=
  let! sh := bcast_shape (shape t) (shape u) in
  Ok (mkT sh (fun idx => f (get t (bcast_idx (shape t) idx))
                           (get u (bcast_idx (shape u) idx)))).
