(** Model of /repo/probayes/likelihoods.py, slice_by_keyvals of rf_utils.py and
    uniform of vtypes.py. *)
From Coq Require Import String ZArith Bool Arith List.
From Verif Require Import Base Num Tensor.
Import ListNotations.
Local Open Scope bool_scope.

(** ** Binary codes *)

(** np.binary_repr of a positive number, most significant digit first. *)
Fixpoint pos_bits (p : positive) (acc : list bool) : list bool :=
  match p with
  | xH => true :: acc
  | xO q => pos_bits q (false :: acc)
  | xI q => pos_bits q (true :: acc)
  end.

(** likelihoods.py 25-28: a single number.  np.binary_repr(0) is '0'; the '-' of
    a negative number cannot be converted to an integer. *)
Definition int_to_bin1 (num : Z) (min_dim : nat) : result (list bool) :=
  match num with
  | Z0 => let s := [false] in Ok (repeat false (min_dim - length s) ++ s)
  | Zpos p => let s := pos_bits p [] in Ok (repeat false (min_dim - length s) ++ s)
  | Zneg _ => Err ValueError
  end.

(** Length of np.binary_repr (the sign counts). *)
Definition repr_len (num : Z) : nat :=
  match num with
  | Z0 => 1
  | Zpos p => length (pos_bits p [])
  | Zneg p => S (length (pos_bits p []))
  end.

(** likelihoods.py 20-24: a list, tuple or 1-d array; np.max of an empty array
    raises. *)
Definition int_to_bin (nums : list Z) (min_dim : nat) : result (list (list bool)) :=
  match nums with
  | [] => Err ValueError
  | z :: zs =>
      let w := Nat.max min_dim (repr_len (fold_left Z.max zs z)) in
      map_res (fun n => int_to_bin1 n w) nums
  end.

(** 64-bit signed integers wrap around. *)
Definition wrap64 (z : Z) : Z := ((z + 2 ^ 63) mod 2 ^ 64 - 2 ^ 63)%Z.

(** numpy's [1 << k] on int64. *)
Definition shl1 (k : nat) : Z := if k <? 64 then wrap64 (2 ^ Z.of_nat k) else 0%Z.

Definition b2z (b : bool) : Z := if b then 1%Z else 0%Z.

(** likelihoods.py 41-43: a 1-d array; the dot product with the descending powers of two. *)
Definition bin_to_int1 (bits : list bool) : Z :=
  wrap64 (fold_right Z.add 0%Z
            (zip_with (fun b k => (b2z b * shl1 k)%Z) bits (rev (seq 0 (length bits))))).

(** likelihoods.py 37-40: a 2-d array, row by row (np.hstack of no rows raises). *)
Definition bin_to_int (rows : list (list bool)) : result (list Z) :=
  match rows with [] => Err ValueError | _ => Ok (map bin_to_int1 rows) end.

(** ** Boolean permutation frequencies *)

Definition b2n (b : bool) : nat := if b then 1 else 0.

(** likelihoods.py 69-72: the counting loop over the rows. *)
Definition count_rows (rows : list (list bool)) : list nat -> nat :=
  fold_left (fun (counts : list nat -> nat) row =>
               let i := map b2n row in
               fun idx => if list_eqb Nat.eqb idx i then S (counts idx) else counts idx)
            rows (fun _ => 0).

Definition perm_counts (cols : nat) (rows : list (list bool)) : tensor nat :=
  mkT (repeat 2 cols) (count_rows rows).

Section Freq.
Context {T : Type} {N : Num T}.

(** likelihoods.py 88-90: the relative frequencies.  [base_freq += counts]
    changes a variable that is not used afterwards. *)
Definition rel_freq (cols : nat) (rows : list (list bool)) (base_freq : Z) : tensor T :=
  let counts := perm_counts cols rows in
  let base_freq' := if Z.eqb base_freq 0 then tscalar base_freq
                    else tmap (fun c => (base_freq + Z.of_nat c)%Z) counts in
  let _ := base_freq' in
  tmap (fun c => n_div (n_ofZ (Z.of_nat c)) (n_ofZ (Z.of_nat (length rows)))) counts.
End Freq.

(** ** Slicing by values (rf_utils.py 68-164) *)

Section Slice.
Context {V P : Type}.
Variable veqb : V -> V -> bool.
Variable p0 : P.

(** A value of a dictionary: a scalar, or an array. *)
Inductive sval : Type := SScalar (v : V) | SArray (t : tensor V).

(** One entry of the tuple of slices. *)
Inductive sel : Type := SelAll | SelNone | SelOne (i : nat).

Definition sval_list (s : sval) : list V :=
  match s with SScalar v => [v] | SArray t => to_list t end.

(** np.ravel(a) == np.ravel(b), all true; sizes that do not broadcast compare
    as False. *)
Definition all_equal (a b : list V) : bool :=
  match a, b with
  | [x], _ => forallb (veqb x) b
  | _, [y] => forallb (fun x => veqb x y) a
  | _, _ => list_eqb veqb a b
  end.

Definition is_scalar_s (s : sval) : bool := match s with SScalar _ => true | _ => false end.

(** 116-119 *)
Definition vals_ndim (dims : odict (option nat)) : nat :=
  fold_left (fun n kd => match snd kd with Some d => Nat.max n d | None => n end) dims 0.

(** 122-127 *)
Definition spec_ndim (spec : odict sval) (dims : odict (option nat)) : result nat :=
  fold_res (fun n (kd : string * option nat) =>
    let n1 := match snd kd with Some d => Nat.max n d | None => n end in
    let! s := od_getR spec (fst kd) in
    match s, snd kd with
    | SScalar _, _ => Ok n1
    | SArray t, Some d => Ok (Nat.max (ndim t) d)
    | SArray _, None => Err TypeError
    end) dims 0.

Fixpoint increasing (l : list nat) : bool :=
  match l with
  | a :: (b :: _) as l' => (a <? b) && increasing l'
  | _ => true
  end.

Definition some_dims (dims : odict (option nat)) : list nat :=
  flat_map (fun kd : string * option nat => match snd kd with Some d => [d] | None => [] end) dims.

Fixpoint match_pos (v : V) (l : list V) (i : nat) : list nat :=
  match l with
  | [] => []
  | x :: l' => if veqb x v then i :: match_pos v l' (S i) else match_pos v l' (S i)
  end.

Definition set_nthR {A} (n : nat) (x : A) (l : list A) : result (list A) :=
  if n <? length l then Ok (set_nth n x l) else Err IndexError.

(** prob[slices] as shape and elements; each selected single element keeps an
    axis of length one (numpy may order the axes differently, which does not
    change the order of the elements). *)
Fixpoint sel_shape (sh : list nat) (sl : list sel) : list nat :=
  match sh, sl with
  | n :: sh', SelAll :: sl' => n :: sel_shape sh' sl'
  | _ :: sh', SelNone :: sl' => 0 :: sel_shape sh' sl'
  | _ :: sh', SelOne _ :: sl' => 1 :: sel_shape sh' sl'
  | _, [] => sh
  | [], _ => []
  end.

Fixpoint sel_idx (sl : list sel) (idx : list nat) : list nat :=
  match sl, idx with
  | SelOne i :: sl', _ :: idx' => i :: sel_idx sl' idx'
  | _ :: sl', j :: idx' => j :: sel_idx sl' idx'
  | _, _ => idx
  end.

Fixpoint sel_in_range (sh : list nat) (sl : list sel) : bool :=
  match sh, sl with
  | n :: sh', SelOne i :: sl' => (i <? n) && sel_in_range sh' sl'
  | _ :: sh', _ :: sl' => sel_in_range sh' sl'
  | _, [] => true
  | [], _ :: _ => false
  end.

Definition select (prob : tensor P) (sl : list sel) : result (tensor P) :=
  if sel_in_range (shape prob) sl
  then Ok (mkT (sel_shape (shape prob) sl) (fun idx => get prob (sel_idx sl idx)))
  else Err IndexError.

(** The state of the loop 140-163: slices, reshape; or the early return of an
    empty array (146). *)
Definition slice_step (vals : odict sval) (vals_dims spec_dims : odict (option nat))
    (spec : odict sval) (st : option (list sel * list nat)) (key : string)
  : result (option (list sel * list nat)) :=
  match st with
  | None => Ok None
  | Some (slices, resh) =>
      let! vd := od_getR vals_dims key in
      let! sd := od_getR spec_dims key in
      let! sv := od_getR spec key in
      let! vv := od_getR vals key in
      let! early :=
        match vd with
        | Some _ => Ok false
        | None =>
            match sv, vv with
            | SScalar s, SScalar v => Ok (negb (veqb s v))
            | SScalar _, SArray _ => Err ValueError   (* truth value of an array *)
            | SArray _, _ =>
                if all_equal (sval_list sv) (sval_list vv) then Ok false else Err AssertionError
            end
        end in
      if early then Ok None
      else
        match sd with
        | None =>
            match vd, sv with
            | None, _ => Err TypeError
            | Some dim, SScalar s =>
                match match_pos s (sval_list vv) 0 with
                | [] => let! sl := set_nthR dim SelNone slices in Ok (Some (sl, resh))
                | [i] => let! sl := set_nthR dim (SelOne i) slices in Ok (Some (sl, resh))
                | _ => Err ValueError
                end
            | Some _, SArray _ => Err ValueError
            end
        | Some dim =>
            if all_equal (sval_list vv) (sval_list sv) then
              match vv with
              | SScalar _ => Err AttributeError
              | SArray t => let! r := set_nthR dim (tsize t) resh in Ok (Some (slices, r))
              end
            else Err AssertionError
        end
  end.

(** rf_utils.py 68-164.  Without spec_dims or vals_dims the guessing function
    returns None (it has no return statement) or raises AttributeError (vals
    has no shape); using None raises AttributeError. *)
Definition slice_by_keyvals (spec vals : odict sval) (prob : tensor P)
    (vals_dims spec_dims : option (odict (option nat))) : result (tensor P) :=
  let! _ := assert_ (seteq_str (od_keys spec) (od_keys vals)) in
  match spec_dims, vals_dims with
  | Some sd, Some vd =>
      let! _ := assert_ (seteq_str (od_keys spec) (od_keys sd)) in
      let! _ := assert_ (seteq_str (od_keys vals) (od_keys vd)) in
      let vn := vals_ndim vd in
      let! sn := spec_ndim spec sd in
      let! _ := assert_ (increasing (some_dims vd)) in
      let! _ := assert_ (increasing (some_dims sd)) in
      let! st := fold_res (slice_step vals vd sd spec) (od_keys spec)
                   (Some (repeat SelAll (S vn), repeat 1 sn)) in
      match st with
      | None => Ok (mkT (repeat 0 (length (some_dims sd))) (fun _ => p0))
      | Some (slices, resh) =>
          let! t := select prob slices in
          reshape resh t
      end
  | _, _ => Err AttributeError
  end.

End Slice.
Arguments sval V : clear implicits.

(** likelihoods.py 76-87: the dimensions and values of the table by label. *)
Fixpoint label_dims (labels : list string) (i : nat) : odict (option nat) :=
  match labels with
  | [] => []
  | l :: ls => (l, Some i) :: label_dims ls (S i)
  end.

Definition label_vals (labels : list string) (cols : nat) : odict (sval bool) :=
  map (fun li : string * nat =>
         (fst li, SArray (mkT (set_nth (snd li) 2 (repeat 1 cols))
                              (fun idx => Nat.eqb (nth (snd li) idx 0) 1))))
      (combine labels (seq 0 (length labels))).

Section LikFun.
Context {T : Type} {N : Num T}.

(** likelihoods.py 92-103: the function of bool_perm_freq, called with the
    keywords spec and dims.  Repeated labels update one entry. *)
Definition bool_perm_fun (labels : list string) (rows : list (list bool)) (base_freq : Z)
    (spec : odict (sval bool)) (spec_dims : odict (option nat)) : result (tensor T) :=
  let cols := length labels in
  slice_by_keyvals Bool.eqb n0 spec (od_of_list (label_vals labels cols))
    (rel_freq cols rows base_freq) (Some (od_of_list (label_dims labels 0))) (Some spec_dims).

(** ** Uniform grids (vtypes.py 169-204) *)

(** np.linspace(a, b, n) *)
Definition linspace (a b : T) (n : nat) : list T :=
  match n with
  | 0 => []
  | 1 => [a]
  | S m => map (fun i => n_add a (n_mul (n_div (n_sub b a) (n_ofZ (Z.of_nat m))) (n_ofZ (Z.of_nat i))))
               (seq 0 n)
  end.

Inductive uniform_out : Type := UScalar (x : T) | UArray (l : list T).

(** np.random.uniform(a, b) from a number of [0,1). *)
Definition draw (a b u : T) : T := n_add a (n_mul (n_sub b a) u).

(** n is None or an integer; us supplies the random numbers. *)
Definition uniform (v_0 v_1 : T) (n : option Z) (ex_0 ex_1 : bool) (us : nat -> T) : uniform_out :=
  match n with
  | None | Some Z0 => UScalar (draw v_0 v_1 (us 0))
  | Some (Zneg p) => UArray (map (fun i => draw v_0 v_1 (us i)) (seq 0 (Pos.to_nat p)))
  | Some (Zpos p) =>
      let n := Pos.to_nat p in
      UArray
        match ex_0, ex_1 with
        | false, false =>
            if n =? 1 then removelast (tl (linspace v_0 v_1 3)) else linspace v_0 v_1 n
        | true, true => removelast (tl (linspace v_0 v_1 (n + 2)))
        | true, false => tl (linspace v_0 v_1 (n + 1))
        | false, true => removelast (linspace v_0 v_1 (n + 1))
        end
  end.
End LikFun.
Arguments uniform_out T : clear implicits.
