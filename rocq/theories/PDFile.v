(** Model of writing distributions to an HDF5 file and reading them back
    (/repo/probayes/pd_utils.py 463-553).

    The file is what h5py keeps: named groups of named datasets, a dataset having
    attributes.  h5py behaviour assumed here: iterating over a group yields the
    names in increasing (byte) order, whatever the order of creation; numbers and
    numeric arrays come back as written (numbers as 0-d arrays); text scalars and
    Python objects have no HDF5 type and raise TypeError.  NOT MODELLED: names
    containing "/" (h5py makes nested groups of them), aux_dict and calls that
    raise half way (see DiskModel.v), files that
    were not written by write_serialised. *)
From Coq Require Import String Ascii ZArith Bool Arith List.
From Verif Require Import Base Num Tensor PScales Names Distr PDModel PDUtils.
Import ListNotations.
Local Open Scope bool_scope.

(** An entry of a dims dictionary: an axis, None or (after writing) a string. *)
Inductive pydim : Type := PyInt (z : Z) | PyNone | PyStr (s : string).

Section PDFile.
Context {T : Type} {N : Num T} {F : Fmt T}.

(** A live PD object, as far as (de)serialising reads or writes it.  [l_dims] is
    the dictionary held in _dims, which the dims property returns itself
    (distribution.py 54-56, pd.py 105-107). *)
Record live : Type := mkLive {
  l_name : string;
  l_short : string;
  l_vals : odict (value T);
  l_dims : odict pydim;
  l_prob : option (tensor T);
  l_pscale : pspec T
}.

Definition pydim_of (d : option Z) : pydim :=
  match d with Some z => PyInt z | None => PyNone end.

(** The object of a distribution as constructed. *)
Definition live_of (p : pd T) : live :=
  mkLive (p_name p) (short_name p) (p_vals p)
         (map (fun kd => (fst kd, pydim_of (snd kd))) (p_dims p))
         (p_prob p) (spec_of (p_pscale p)).

(** A dataset holding values: an array, or the S1 array without elements that
    stands for a set (its shape, of which the last entry is 0). *)
Inductive dset : Type := DArr (a : tensor T) | DSet (sh : list nat).

(** An HDF5 attribute of the attrs dataset. *)
Inductive hattr : Type := HInt (z : Z) | HStr (s : string) | HOrder (l : list string).

(** The group of one distribution. *)
Record group : Type := mkGroup {
  g_vals : odict dset;
  g_attrs : odict hattr;
  g_prob : tensor T;
  g_pscale : pspec T
}.

(** sorted() of natural numbers. *)
Fixpoint insert_nat (x : nat) (l : list nat) : list nat :=
  match l with
  | [] => [x]
  | y :: l' => if x <=? y then x :: l else y :: insert_nat x l'
  end.
Definition sort_nat (l : list nat) : list nat := fold_right insert_nat [] l.

(** pd_utils.py 493: np.zeros(sorted(val) + [0], dtype='S'); an element that is
    not an integer raises TypeError (numpy does not take bools as sizes), a
    negative one ValueError. *)
Definition set_shape (l : list (setelem T)) : result (list nat) :=
  let! sizes := map_res (fun e => match e with
                                  | SEint z => if (z <? 0)%Z then Err ValueError else Ok (Z.to_nat z)
                                  | _ => Err TypeError
                                  end) l in
  Ok (sort_nat sizes ++ [0]).

(** pd_utils.py 490-496: one value. *)
Definition write_value (v : value T) : result dset :=
  match v with
  | VArr a => Ok (DArr a)
  | VSet l => let! sh := set_shape l in Ok (DSet sh)
  | VNum x => Ok (DArr (tscalar x))
  | VStr _ | VOther => Err TypeError
  end.

(** pd_utils.py 482-484: None becomes 'None', in the dictionary itself. *)
Definition none_to_str (d : pydim) : pydim :=
  match d with PyNone => PyStr "None" | d => d end.
Definition mark_dims (dims : odict pydim) : odict pydim :=
  map (fun kd => (fst kd, none_to_str (snd kd))) dims.

(** pd_utils.py 486: attribute values. *)
Definition hattr_of (d : pydim) : result hattr :=
  match d with
  | PyInt z => Ok (HInt z)
  | PyStr s => Ok (HStr s)
  | PyNone => Err TypeError
  end.

(** pd_utils.py 476-496: write one distribution; returns the object with its
    changed dims. *)
Definition write_live (l : live) : result (live * group) :=
  let! vals := map_res (fun kv => let! d := write_value (snd kv) in Ok (fst kv, d)) (l_vals l) in
  let dims := mark_dims (l_dims l) in
  let! attrs := map_res (fun kd => let! h := hattr_of (snd kd) in Ok (fst kd, h)) dims in
  let attrs' := od_set attrs "order" (HOrder (od_keys dims)) in
  let! prob := match l_prob l with Some t => Ok t | None => Err TypeError end in
  Ok (mkLive (l_name l) (l_short l) (l_vals l) dims (l_prob l) (l_pscale l),
      mkGroup vals attrs' prob (l_pscale l)).

Definition nth_R {A} (l : list A) (i : nat) : result A :=
  match nth_error l i with Some x => Ok x | None => Err IndexError end.

(** pd_utils.py 433-441 (serialise) of objects given by reference: which object
    each name refers to. *)
Definition serial_refs (heap : list live) (refs : list nat) : result (odict nat) :=
  fold_res (fun acc i => let! l := nth_R heap i in Ok (od_set acc (l_short l) i)) refs [].

(** pd_utils.py 548-549 (write_dist) with 463-500 (write_serialised): the objects
    afterwards and the file. *)
Definition write_dist (heap : list live) (refs : list nat)
  : result (list live * odict group) :=
  let! names := serial_refs heap refs in
  fold_res (fun st ni =>
              let! l := nth_R (fst st) (snd ni) in
              let! (l', g) := write_live l in
              Ok (set_nth (snd ni) l' (fst st), od_set (snd st) (fst ni) g))
           names (heap, []).

(** Iteration over a group: names in increasing order. *)
Fixpoint insert_name {A} (kv : string * A) (d : odict A) : odict A :=
  match d with
  | [] => [kv]
  | kv' :: d' => if String.leb (fst kv) (fst kv') then kv :: d else kv' :: insert_name kv d'
  end.
Definition by_name {A} (d : odict A) : odict A := fold_right insert_name [] d.

(** pd_utils.py 525-527: one value; an S1 dataset is the set of its sizes. *)
Definition read_value (d : dset) : value T :=
  match d with
  | DArr a => VArr a
  | DSet sh => VSet (map (fun n => SEint (Z.of_nat n)) (removelast sh))
  end.

(** pd_utils.py 529-531: 'None' becomes None; deserialise takes integers and None. *)
Definition read_dim (h : hattr) : result (option Z) :=
  match h with
  | HInt z => Ok (Some z)
  | HStr s => if String.eqb s "None" then Ok None else Err TypeError
  | HOrder _ => Err TypeError
  end.

(** pd_utils.py 509-540: one group.  attrs always has an order, since the dims of
    a distribution are an OrderedDict; without any variable the entry attrs is
    left holding the number 0, on which deserialise raises TypeError. *)
Definition read_group (g : group) : result serial :=
  let! order := match od_get (g_attrs g) "order" with
                | Some (HOrder l) => Ok l
                | _ => Err TypeError
                end in
  let attrs := od_del (g_attrs g) "order" in
  let! ordered := map_res (fun k => let! h := od_getR attrs k in Ok (k, h)) order in
  let! dims := map_res (fun kh => let! d := read_dim (snd kh) in Ok (fst kh, d)) ordered in
  let! _ := match dims with [] => Err TypeError | _ => Ok tt end in
  let vals := map (fun kd => (fst kd, read_value (snd kd))) (by_name (g_vals g)) in
  let! first := map_res (fun k => let! v := od_getR vals k in Ok (k, v)) order in
  let rest := filter (fun kv => negb (mem_str (fst kv) order)) vals in
  Ok (mkSer (first ++ rest) dims (Some (g_prob g)) (g_pscale g)).

(** pd_utils.py 503-545 (read_serialised), the distributions; groups whose name
    has a space are auxiliary data. *)
Definition read_serialised (f : odict group) : result (odict serial) :=
  map_res (fun ng => let! s := read_group (snd ng) in Ok (fst ng, s))
          (filter (fun ng => negb (has_char " " (fst ng))) (by_name f)).

(** pd_utils.py 552-553 (read_dist). *)
Definition read_dist (f : odict group) : result (list (pd T)) :=
  let! s := read_serialised f in deserialise s.

(** distribution.py 142-145 on dims holding strings: 'None'+1 raises. *)
Definition dims_ints (dims : odict pydim) : result (odict (option Z)) :=
  map_res (fun kd => match snd kd with
                     | PyInt z => Ok (fst kd, Some z)
                     | PyNone => Ok (fst kd, None)
                     | PyStr _ => Err TypeError
                     end) dims.

(** PD(name, dict(self), dims=self._dims, prob=, pscale=): how rescaled, sorted
    and division make their result (pd.py 470, 492, 498, 615) and deserialise
    (pd_utils.py 459) reads back what serialise gave. *)
Definition rebuild (l : live) (name : string) (prob : option (tensor T)) (ps : pspec T)
  : result (pd T) :=
  let! dims := dims_ints (l_dims l) in
  make_pd name (l_vals l) (Some dims) prob ps.

End PDFile.
Arguments live T : clear implicits.
Arguments dset T : clear implicits.
Arguments group T : clear implicits.
