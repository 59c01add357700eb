(** Model of /repo/probayes/distribution.py (with named_dict.py and the value
    classification of vtypes.py 57-114). *)
From Coq Require Import String Ascii ZArith Bool Arith DecimalString List.
From Verif Require Import Base Num Tensor.
Import ListNotations.
Local Open Scope bool_scope.

(** "{}".format(z) of an integer. *)
Definition fmt_Z (z : Z) : string := NilZero.string_of_int (Z.to_int z).

Section Distr.
Context {T : Type} {N : Num T} {F : Fmt T}.

(** Elements of Python sets used as values. *)
Inductive setelem : Type :=
| SEint (z : Z) | SEbool (b : bool) | SEfloat (x : T) | SEnone | SEother.

(** Values a distribution can hold for a variable.  [VOther]: anything that is
    neither a number, string, set nor ndarray (a list, None, ...).
    SIMPLIFICATION: booleans and integers are embedded in the numbers. *)
Inductive value : Type :=
| VNum (x : T)
| VStr (s : string)
| VSet (l : list setelem)
| VArr (a : tensor T)
| VOther.

(** vtypes.py 57-73 (isunitset with vtype None). *)
Definition isunitset (v : value) : bool :=
  match v with
  | VSet [SEint _] | VSet [SEbool _] | VSet [SEfloat _] => true
  | _ => false
  end.

(** vtypes.py 76-84 (isunitsetint). *)
Definition isunitsetint (v : value) : bool :=
  match v with VSet [SEint _] => true | _ => false end.

(** vtypes.py 94-104 (isscalar): numbers, strings and 0-d arrays. *)
Definition isscalar (v : value) : bool :=
  match v with
  | VNum _ | VStr _ => true
  | VArr a => match shape a with [] => true | _ => false end
  | _ => false
  end.

(** vtypes.py 107-114 (issingleton). *)
Definition issingleton (v : value) : bool := isunitset v || isscalar v.

(** str() of a value, as in "{}={}".format(key, value) for singletons. *)
Definition fmt_value (v : value) : string :=
  match v with
  | VNum x => fmt x
  | VStr s => s
  | VSet [SEint z] => ("{" ++ fmt_Z z ++ "}")%string
  | VSet [SEbool b] => (if b then "{True}" else "{False}")%string
  | VSet [SEfloat x] => ("{" ++ fmt x ++ "}")%string
  | VArr a => fmt (get a [])
  | _ => "?"%string
  end.

(** The state of a Distribution: its dictionary of values and the derived
    members (distribution.py 31-40); [d_keylist] is [od_keys d_vals].  [None]
    for _ndim, _size and _issingleton is Python's None. *)
Record dist : Type := mkDist {
  d_name : string;
  d_vals : odict value;
  d_dims : odict (option Z);
  d_ndim : option nat;
  d_sizes : list nat;
  d_shape : list nat;
  d_size : option nat;
  d_aresing : list bool;
  d_issing : option bool
}.

Definition d_keylist (d : dist) : list string := od_keys (d_vals d).

(** distribution.py 40: _disallowed. *)
Definition disallowed : list string := ["attrs"; "prob"; "pscale"]%string.

(** distribution.py 129-137: reject reserved keys, turn {None} into {0}. *)
Definition clean_vals (vals : odict value) : result (odict value) :=
  map_res (fun kv =>
             if mem_str (fst kv) disallowed then Err ValueError
             else match snd kv with
                  | VSet [SEnone] => Ok (fst kv, VSet [SEint 0])
                  | v => Ok (fst kv, v)
                  end) vals.

(** distribution.py 142-145: number of dimensions from dims. *)
Definition ndim_of_dims (dims : odict (option Z)) : nat :=
  fold_left (fun n kd => match snd kd with
                         | Some d => Z.to_nat (Z.max (Z.of_nat n) (d + 1))
                         | None => n
                         end) dims 0.

(** Loop state of distribution.py 147-191. *)
Record dstate : Type := mkDS {
  s_vals : odict value;
  s_dims : odict (option Z);
  s_ndim : nat;
  s_shape : list (option nat);
  s_sizes : list nat;
  s_count : nat
}.

Definition list_max (l : list nat) : nat := fold_right Nat.max 0 l.

(** distribution.py 186-191: ones with the size at the variable's own axis. *)
Definition axis_shape (n d size : nat) : list nat := set_nth d size (repeat 1 n).

(** distribution.py 151-191: body of the loop over keys. *)
Definition dims_step (eval_dims : bool) (st : dstate) (kv : string * value)
  : result dstate :=
  let key := fst kv in
  let v := snd kv in
  if issingleton v then
    if eval_dims then
      Ok (mkDS (s_vals st) (od_set (s_dims st) key None) (s_ndim st) (s_shape st)
               (s_sizes st) (s_count st))
    else match od_get (s_dims st) key with
         | Some None => Ok st
         | Some (Some _) => Err AssertionError
         | None => Ok (mkDS (s_vals st) (od_set (s_dims st) key None) (s_ndim st)
                            (s_shape st) (s_sizes st) (s_count st))
         end
  else
    match v with
    | VArr a =>
        let val_size := tsize a in
        let! _ := assert_ (val_size =? list_max (shape a)) in
        let count := s_count st in
        let! (dims, shp, nd) :=
          if eval_dims then
            let dims := od_set (s_dims st) key (Some (Z.of_nat count)) in
            if length (s_shape st) =? count
            then Ok (dims, s_shape st ++ [None], length (s_shape st) + 1)
            else Ok (dims, s_shape st, s_ndim st)
          else
            let! _ := assert_ (od_mem (s_dims st) key) in
            Ok (s_dims st, s_shape st, s_ndim st) in
        match od_get dims key with
        | Some (Some d) =>
            let! i := py_indexR (length shp) d in
            let shp' := set_nth i (Some val_size) shp in
            let! j := py_indexR nd d in
            let vals_shape := axis_shape nd j val_size in
            let! v' :=
              if negb (nd =? ndim a) || negb (list_eqb Nat.eqb (shape a) vals_shape)
              then let! a' := reshape vals_shape a in Ok (VArr a')
              else Ok v in
            Ok (mkDS (od_set (s_vals st) key v') dims nd shp'
                     (s_sizes st ++ [val_size]) (S count))
        | _ => Err TypeError
        end
    | _ => Err AssertionError
    end.

(** distribution.py 192: int(np.prod(shape)) fails on a None entry. *)
Definition full_shape (l : list (option nat)) : result (list nat) :=
  map_res (fun o => match o with Some n => Ok n | None => Err TypeError end) l.

(** distribution.py 43-51 and 94-192: construction with [dims]. *)
Definition make_dist (name : string) (vals : odict value)
    (dims : option (odict (option Z))) : result dist :=
  let eval_dims := match dims with None => true | Some _ => false end in
  let dims0 := match dims with None => [] | Some d => d end in
  match vals with
  | [] => Ok (mkDist name [] dims0 None [] [] None [] None)
  | _ =>
      let! vals1 := clean_vals vals in
      let aresing := map (fun kv => issingleton (snd kv)) vals1 in
      let nd := ndim_of_dims dims0 in
      let! st := fold_res (dims_step eval_dims) vals1
                   (mkDS vals1 dims0 nd (repeat None nd) [] 0) in
      let! shp := full_shape (s_shape st) in
      Ok (mkDist name (s_vals st) (s_dims st) (Some (s_ndim st)) (s_sizes st) shp
                 (Some (prod_list shp)) aresing (Some (forallb (fun b => b) aresing)))
  end.

(** distribution.py 249-262 (redim). *)
Definition redim (d : dist) (dims : odict (option Z)) : result dist :=
  let! _ := map_res (fun key =>
              let! old := od_getR (d_dims d) key in
              match old with
              | Some _ => assert_ (od_mem dims key)
              | None => match od_get dims key with
                        | Some (Some _) => Err AssertionError
                        | _ => Ok tt
                        end
              end) (d_keylist d) in
  let! vals := map_res (fun key => let! v := od_getR (d_vals d) key in Ok (key, v))
                       (od_keys dims) in
  make_dist (d_name d) vals (Some dims).

(** distribution.py 265-283: the loop of rekey, building vals and dims. *)
Definition rekey_loop (d : dist) (keymap : odict string)
  : result (odict value * odict (option Z)) :=
  fold_res (fun acc kv =>
              let! dim := od_getR (d_dims d) (fst kv) in
              match od_get keymap (fst kv) with
              | None => Ok (od_set (fst acc) (fst kv) (snd kv), od_set (snd acc) (fst kv) dim)
              | Some mk =>
                  let! _ := assert_ (negb (od_mem (fst acc) mk)) in
                  Ok (od_set (fst acc) mk (snd kv), od_set (snd acc) mk dim)
              end) (d_vals d) ([], []).

(** distribution.py 265-283 (rekey). *)
Definition rekey (d : dist) (keymap : odict string) : result dist :=
  let! (vals, dims) := rekey_loop d keymap in
  make_dist (d_name d) vals (Some dims).

(** distribution.py 195-208 (singleton): with a string key the method reads the
    attribute _keys, which does not exist. *)
Definition singleton (d : dist) (key : option string) : result (option bool) :=
  match key with
  | None => Ok (d_issing d)
  | Some _ => Err AttributeError
  end.

End Distr.

Arguments value T : clear implicits.
Arguments setelem T : clear implicits.
Arguments dist T : clear implicits.
