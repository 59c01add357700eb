(** Model of files of distributions with auxiliary data, and of writing that raises
    half way (/repo/probayes/pd_utils.py 444-553).

    A disk has files under paths; h5py.File(path, 'w') truncates, and leaving the
    with-block by an exception closes the file with what was written so far.
    h5py behaviour assumed, besides that listed in PDFile.v: create_group of a name
    in use raises ValueError; a value without HDF5 type raises TypeError and makes
    no dataset.  NOT MODELLED: names containing "/", paths that cannot be opened,
    Distribution objects without probabilities as arguments, power failures. *)
From Coq Require Import String Ascii ZArith Bool Arith List.
From Verif Require Import Base Num Tensor PScales Names Distr PDModel PDUtils PDFile.
Import ListNotations.
Local Open Scope bool_scope.

Section Disk.
Context {T : Type} {N : Num T} {F : Fmt T}.

(** An item of an HDF5 group: a value, the dataset attrs (a number) with its attributes, the
    probabilities or their scale. *)
Inductive item : Type :=
| IVal (d : dset T)
| IAttrs (n : nat) (a : odict hattr)
| IProb (t : tensor T)
| IScale (s : pspec T).

(** A group, a file and a disk; items and groups in the order of creation. *)
Definition hgroup : Type := odict item.
Definition hfile : Type := odict hgroup.
Definition disk : Type := odict hfile.

(** The argument aux_dict: keys that are text or not; values that are dictionaries
    or not; of these the keys, and the arrays: of a type HDF5 holds, or of text or
    objects, or not arrays. *)
Inductive akey : Type := AStr (s : string) | ANoStr.
Inductive aelem : Type := AArr (t : tensor T) | AText | ANoArr.
Inductive aval : Type := ADict (d : list (akey * aelem)) | ANoDict.

(** An array accepted: None stands for one that HDF5 cannot hold. *)
Definition adict : Type := odict (odict (option (tensor T))).

(** pd_utils.py 470-474: the entries of one auxiliary dictionary. *)
Definition check_sub (kv : akey * aelem) : result (string * option (tensor T)) :=
  match fst kv, snd kv with
  | AStr k, AArr t => Ok (k, Some t)
  | AStr k, AText => Ok (k, None)
  | _, _ => Err AssertionError
  end.

(** pd_utils.py 465-474: the checks of aux_dict, made before the file is opened. *)
Definition check_aux (aux : list (akey * aval)) : result adict :=
  map_res (fun kv =>
             match fst kv with
             | AStr k =>
                 if has_char " " k then
                   match snd kv with
                   | ADict d => let! sub := map_res check_sub d in Ok (k, sub)
                   | ANoDict => Err AssertionError
                   end
                 else Err AssertionError
             | ANoStr => Err AssertionError
             end) aux.

(** pd_utils.py 478 and 489-496: the values, up to the first that cannot be
    written. *)
Fixpoint write_vals (vals : odict (value T)) (g : hgroup) : hgroup * option exn :=
  match vals with
  | [] => (g, None)
  | (k, v) :: vals' =>
      match write_value v with
      | Err e => (g, Some e)
      | Ok d => write_vals vals' (g ++ [(k, IVal d)])
      end
  end.

(** pd_utils.py 477-496: one distribution; its items are its values, attrs, prob
    and pscale in this order (distribution.py 286-290, pd.py 698-703).  The object
    has its dims changed when attrs is reached. *)
Definition write_obj (l : live T) : live T * hgroup * option exn :=
  let '(g, e) := write_vals (l_vals l) [] in
  match e with
  | Some _ => (l, g, e)
  | None =>
      let dims := mark_dims (l_dims l) in
      let l' := mkLive (l_name l) (l_short l) (l_vals l) dims (l_prob l) (l_pscale l) in
      match map_res (fun kd => let! h := hattr_of (snd kd) in Ok (fst kd, h)) dims with
      | Err x => (l', g, Some x)
      | Ok attrs =>
          let g1 := (g ++ [("attrs"%string, IAttrs (length dims) (od_set attrs "order" (HOrder (od_keys dims))))])%list in
          match l_prob l with
          | None => (l', g1, Some TypeError)
          | Some t => (l', (g1 ++ [("prob"%string, IProb t); ("pscale"%string, IScale (l_pscale l))])%list, None)
          end
      end
  end.

(** pd_utils.py 476-496: the distributions, one after another. *)
Fixpoint write_objs (heap : list (live T)) (names : odict nat) (f : hfile)
  : list (live T) * hfile * option exn :=
  match names with
  | [] => (heap, f, None)
  | (n, i) :: names' =>
      match nth_error heap i with
      | None => (heap, f, Some IndexError)
      | Some l =>
          if od_mem f n then (heap, f, Some ValueError)
          else
            let '(l', g, e) := write_obj l in
            let heap' := set_nth i l' heap in
            let f' := (f ++ [(n, g)])%list in
            match e with
            | Some _ => (heap', f', e)
            | None => write_objs heap' names' f'
            end
      end
  end.

(** pd_utils.py 499-500: the arrays of one auxiliary group. *)
Fixpoint write_arrays (d : odict (option (tensor T))) (g : hgroup) : hgroup * option exn :=
  match d with
  | [] => (g, None)
  | (k, Some t) :: d' => write_arrays d' (g ++ [(k, IVal (DArr t))])
  | (_, None) :: _ => (g, Some TypeError)
  end.

(** pd_utils.py 497-500: the auxiliary groups. *)
Fixpoint write_aux (aux : adict) (f : hfile) : hfile * option exn :=
  match aux with
  | [] => (f, None)
  | (n, d) :: aux' =>
      if od_mem f n then (f, Some ValueError)
      else
        let '(g, e) := write_arrays d [] in
        let f' := (f ++ [(n, g)])%list in
        match e with
        | Some _ => (f', e)
        | None => write_aux aux' f'
        end
  end.

(** pd_utils.py 463-500 (write_serialised) of what serialise gave for objects on
    the heap: the objects and the disk afterwards, and what was raised. *)
Definition write_serialised (heap : list (live T)) (names : odict nat) (aux : list (akey * aval))
    (k : disk) (path : string) : list (live T) * disk * option exn :=
  match check_aux aux with
  | Err e => (heap, k, Some e)
  | Ok ax =>
      let '(heap', f, e) := write_objs heap names [] in
      match e with
      | Some _ => (heap', od_set k path f, e)
      | None => let '(f', e') := write_aux ax f in (heap', od_set k path f', e')
      end
  end.

(** write_serialised(path, serialise( *dists), aux_dict); write_dist
    (pd_utils.py 548-549) is the case without auxiliary data. *)
Definition save (heap : list (live T)) (refs : list nat) (aux : list (akey * aval))
    (k : disk) (path : string) : list (live T) * disk * option exn :=
  match serial_refs heap refs with
  | Err e => (heap, k, Some e)
  | Ok names => write_serialised heap names aux k path
  end.

(** The entry attrs of what is read: absent, the dims, or the array 0 left there
    if there is no variable. *)
Inductive rattrs : Type := RNone | RDims (d : odict (option Z)) | RZero.

(** What is read of one distribution. *)
Record rgroup : Type := mkRG {
  r_vals : odict (value T);
  r_attrs : rattrs;
  r_prob : option (tensor T);
  r_pscale : option (pspec T)
}.

Definition vals_in (g : hgroup) : odict (dset T) :=
  flat_map (fun ki => match snd ki with IVal d => [(fst ki, d)] | _ => [] end) g.
Definition attrs_in (g : hgroup) : option (odict hattr) :=
  fold_right (fun ki r => match snd ki with IAttrs _ a => Some a | _ => r end) None g.
Definition prob_in (g : hgroup) : option (tensor T) :=
  fold_right (fun ki r => match snd ki with IProb t => Some t | _ => r end) None g.
Definition scale_in (g : hgroup) : option (pspec T) :=
  fold_right (fun ki r => match snd ki with IScale s => Some s | _ => r end) None g.

(** pd_utils.py 511-541: one group without a space in its name.  As in PDFile.v
    values come in the order of names, those in the order attribute first. *)
Definition read_plain (g : hgroup) : result rgroup :=
  let vals := map (fun kd => (fst kd, read_value (snd kd))) (by_name (vals_in g)) in
  match attrs_in g with
  | None => Ok (mkRG vals RNone (prob_in g) (scale_in g))
  | Some a =>
      let! order := match od_get a "order" with
                    | Some (HOrder l) => Ok l
                    | _ => Err TypeError
                    end in
      let attrs := od_del a "order" in
      let! ordered := map_res (fun k => let! h := od_getR attrs k in Ok (k, h)) order in
      let! dims := map_res (fun kh => let! d := read_dim (snd kh) in Ok (fst kh, d)) ordered in
      match dims with
      | [] => Ok (mkRG vals RZero (prob_in g) (scale_in g))
      | _ =>
          let! first := map_res (fun k => let! v := od_getR vals k in Ok (k, v)) order in
          let rest := filter (fun kv => negb (mem_str (fst kv) order)) vals in
          Ok (mkRG (first ++ rest) (RDims dims) (prob_in g) (scale_in g))
      end
  end.

(** An array read as auxiliary data: numbers, text without characters (the array
    that stands for a set), the number of dims, or the scale. *)
Inductive adata : Type := ADArr (t : tensor T) | ADBytes (sh : list nat) | ADLen (n : nat) | ADScale (s : pspec T).

(** pd_utils.py 542-544: np.array of each dataset of the group. *)
Definition read_item (i : item) : adata :=
  match i with
  | IVal (DArr t) => ADArr t
  | IVal (DSet sh) => ADBytes sh
  | IAttrs n _ => ADLen n
  | IProb t => ADArr t
  | IScale s => ADScale s
  end.
Definition read_extra (g : hgroup) : odict adata :=
  map (fun ki => (fst ki, read_item (snd ki))) (by_name g).

(** pd_utils.py 503-545 (read_serialised): the distributions and the auxiliary
    data. *)
Definition read_file (f : hfile) : result (odict rgroup * odict (odict adata)) :=
  let plain := filter (fun ng => negb (has_char " " (fst ng))) (by_name f) in
  let extra := filter (fun ng => has_char " " (fst ng)) (by_name f) in
  let! ser := map_res (fun ng => let! r := read_plain (snd ng) in Ok (fst ng, r)) plain in
  Ok (ser, map (fun ng => (fst ng, read_extra (snd ng))) extra).

(** What deserialise gives: a PD, or a Distribution if there is no prob. *)
Inductive loaded : Type := LPd (p : pd T) | LDist (d : dist T).

(** pd_utils.py 449-459: one entry. *)
Definition load_one (nr : string * rgroup) : result loaded :=
  let r := snd nr in
  let! dims := match r_attrs r with
               | RNone => Ok []
               | RDims d => Ok d
               | RZero => Err TypeError
               end in
  match r_prob r with
  | None => let! d := make_dist (fst nr) (r_vals r) (Some dims) in Ok (LDist d)
  | Some t =>
      let! p := make_pd (fst nr) (r_vals r) (Some dims) (Some t)
                        (match r_pscale r with Some s => s | None => PSNone end) in
      Ok (LPd p)
  end.

(** pd_utils.py 552-553 (read_dist) of a file. *)
Definition load (f : hfile) : result (list loaded) :=
  let! (ser, _) := read_file f in map_res load_one ser.

End Disk.
Arguments item T : clear implicits.
Arguments hgroup T : clear implicits.
Arguments hfile T : clear implicits.
Arguments disk T : clear implicits.
Arguments aelem T : clear implicits.
Arguments aval T : clear implicits.
Arguments adict T : clear implicits.
Arguments rgroup T : clear implicits.
Arguments adata T : clear implicits.
Arguments loaded T : clear implicits.
