(** Model of probayes/variable.py and the type handling of probayes/vtypes.py. *)
From Coq Require Import String Ascii ZArith QArith Qround Reals Bool Arith List.
From Verif Require Import Base Num Likelihoods.
Import ListNotations.
Set Implicit Arguments.

(** int(x) of a float: truncation towards zero. *)
Class Trunc (T : Type) : Type := n_trunc : T -> Z.
Global Instance RTrunc : Trunc R :=
  fun x => if Rle_dec 0 x then Int_part x else (- Int_part (- x))%Z.
Global Instance QTrunc : Trunc Q :=
  fun x => if Qle_bool 0 x then Qfloor x else (- Qfloor (- x))%Z.

(** vtypes.py 12-17: the three variable types; the numpy types of VTYPES are not
    distinguished from the Python ones. *)
Inductive vtype : Type := VBool | VInt | VFloat.

Definition vtype_eqb (a b : vtype) : bool :=
  match a, b with VBool, VBool | VInt, VInt | VFloat, VFloat => true | _, _ => false end.

Section Vars.
Context {T : Type} {N : Num T} {TR : Trunc T}.

(** ** Values *)

(** A Python or numpy scalar. *)
Inductive pyval : Type := PB (b : bool) | PI (z : Z) | PF (x : T).

(** Its numeric value. *)
Definition as_num (v : pyval) : T :=
  match v with PB b => if b then n1 else n0 | PI z => n_ofZ z | PF x => x end.

Definition v_leb (a b : pyval) : bool := n_leb (as_num a) (as_num b).
Definition v_ltb (a b : pyval) : bool := n_ltb (as_num a) (as_num b).
Definition v_eqb (a b : pyval) : bool := n_eqb (as_num a) (as_num b).
Definition v_true (v : pyval) : bool := negb (n_eqb (as_num v) n0).

(** vtypes.py 24-54 at a scalar. *)
Definition vtype_of (v : pyval) : vtype :=
  match v with PB _ => VBool | PI _ => VInt | PF _ => VFloat end.

(** (vtype)(value) *)
Definition cast (t : vtype) (v : pyval) : pyval :=
  match t, v with
  | VBool, _ => PB (v_true v)
  | VInt, PB b => PI (if b then 1 else 0)
  | VInt, PI z => PI z
  | VInt, PF x => PI (n_trunc x)
  | VFloat, _ => PF (as_num v)
  end.

(** vtypes.py 156-166: revtype, elementwise. *)
Definition revtype (v : pyval) (t : vtype) : pyval :=
  if vtype_eqb t (vtype_of v) then v else cast t v.

(** A value or sympy's plus or minus infinity. *)
Inductive atom : Type := AV (v : pyval) | AOO (positive : bool).

(** An element of a vset list: plain, or in a tuple of one (an excluded limit). *)
Inductive elem : Type := Bare (a : atom) | Tup (a : atom).

Definition atom_of (e : elem) : atom := match e with Bare a | Tup a => a end.
Definition is_tup (e : elem) : bool := match e with Tup _ => true | _ => false end.

(** Order of limits, infinities included. *)
Definition atom_leb (a b : atom) : bool :=
  match a, b with
  | AOO false, _ => true
  | _, AOO true => true
  | AV x, AV y => v_leb x y
  | _, _ => false
  end.
Definition atom_ltb (a b : atom) : bool := negb (atom_leb b a).

(** sorted(...) and np.sort(...) *)
Fixpoint ins_atom (a : atom) (l : list atom) : list atom :=
  match l with
  | [] => [a]
  | b :: l' => if atom_ltb a b then a :: l else b :: ins_atom a l'
  end.
Definition sort_atoms (l : list atom) : list atom := fold_left (fun acc a => ins_atom a acc) l [].

(** ** Arguments of the constructor *)

Inductive arg : Type :=
| ANone
| AType (t : vtype)
| AScalar (v : pyval)
| ASet (l : list atom)       (* set or range *)
| ATuple (l : list atom)
| AArray (l : list pyval)    (* one-dimensional numpy array *)
| AList (l : list elem).

(** isinstance(arg, (list, tuple, set, range, np.ndarray)) *)
Definition is_container (a : arg) : bool :=
  match a with ASet _ | ATuple _ | AArray _ | AList _ => true | _ => false end.

(** bool(arg); the truth of an array with several elements raises ValueError. *)
Definition truth (a : arg) : result bool :=
  match a with
  | ANone => Ok false
  | AType _ => Ok true
  | AScalar v => Ok (v_true v)
  | ASet l | ATuple l => Ok (match l with [] => false | _ => true end)
  | AList l => Ok (match l with [] => false | _ => true end)
  | AArray [] => Ok false
  | AArray [v] => Ok (v_true v)
  | AArray _ => Err ValueError
  end.

(** The members of a variable that assignments change: _vtype and _vset.  All
    other members (_vlims, _ulims, _length, _inside) are recomputed from them by
    _eval_vlims at the end of every assignment of vset. *)
Record vstate : Type := mkVS { vs_vtype : option vtype; vs_vset : option (list elem) }.

Definition new_state : vstate := mkVS None None.

(** variable.py 28-30 *)
Definition default_vset (t : vtype) : list elem :=
  match t with
  | VBool => [Bare (AV (PB false)); Bare (AV (PB true))]
  | VInt => [Bare (AV (PI 0)); Bare (AV (PI 1))]
  | VFloat => [Tup (AOO false); Tup (AOO true)]
  end.

(** variable.py 192-208: the loop that casts the elements; own is self._vtype,
    vt the local vtype. *)
Fixpoint cast_loop (own vt : option vtype) (l : list elem) : result (list elem * option vtype) :=
  match l with
  | [] => Ok ([], vt)
  | e :: l' =>
      let! (e', vt') :=
        match e with
        | Tup a =>
            let t := match vt with Some t => t | None => VFloat end in
            Ok (match a with AV v => Tup (AV (cast t v)) | AOO _ => e end, Some t)
        | Bare (AOO b) =>
            Ok (e, Some (match vt with Some t => t | None => VFloat end))
        | Bare (AV v) =>
            match vt with
            | None => let t := vtype_of v in Ok (Bare (AV (cast t v)), Some t)
            | Some t =>
                match own with
                | None => if vtype_eqb t (vtype_of v) then Ok (Bare (AV (cast t v)), vt) else Err TypeError
                | Some _ => Ok (Bare (AV (cast t v)), vt)
                end
            end
        end in
      let! (r, vt'') := cast_loop own vt' l' in
      Ok (e' :: r, vt'')
  end.

(** variable.py 249-277, _eval_vlims: the order of a float vset, and its
    failures. *)
Definition eval_vlims (t : option vtype) (l : list elem) : result (list elem) :=
  match t with
  | Some VFloat =>
      match l with
      | [e0; e1] => if atom_ltb (atom_of e1) (atom_of e0) then Ok [e1; e0] else Ok [e0; e1]
      | _ => Err AssertionError
      end
  | _ =>
      match l with
      | [] => Err ValueError                      (* min of an empty list *)
      | _ =>
          (* comparing a tuple with a number *)
          if existsb is_tup l && existsb (fun e => negb (is_tup e)) l then Err TypeError else Ok l
      end
  end.

(** variable.py 169-219, the vset setter: the state afterwards, also if it
    raises.  Changes to a list passed by the caller are not modelled. *)
Definition set_vset (s : vstate) (a : arg) : vstate * result unit :=
  let norm : result (list elem) :=
    match a, vs_vtype s with
    | ANone, Some t => Ok (default_vset t)
    | ASet l, _ => Ok (map Bare (sort_atoms l))
    | ATuple l, _ =>
        match sort_atoms l with
        | [x; y] => Ok [Tup x; Tup y]
        | _ => Err AssertionError
        end
    | AArray l, _ => Ok (map Bare (sort_atoms (map AV l)))
    | AList l, _ => Ok l
    | _, _ => Err AssertionError
    end in
  match norm with
  | Err e => (s, Err e)
  | Ok l =>
      match cast_loop (vs_vtype s) (vs_vtype s) l with
      | Err e => (s, Err e)
      | Ok (l', vt) =>
          match eval_vlims vt l' with
          | Err e => (mkVS vt (Some l'), Err e)
          | Ok l'' => (mkVS vt (Some l''), Ok tt)
          end
      end
  end.

(** The dtype of np.array(list): vtypes.py 33-41. *)
Definition promote (a b : vtype) : vtype :=
  match a, b with
  | VFloat, _ | _, VFloat => VFloat
  | VInt, _ | _, VInt => VInt
  | VBool, VBool => VBool
  end.

(** vtypes.py 24-54.  None stands for a type that is none of the three (object
    arrays, of infinities; empty arrays are float arrays). *)
Definition eval_vtype_atoms (l : list atom) : option vtype :=
  match l with
  | [] => Some VFloat
  | a :: l' =>
      fold_left (fun acc b => match acc, b with Some t, AV v => Some (promote t (vtype_of v)) | _, _ => None end)
        l' (match a with AV v => Some (vtype_of v) | AOO _ => None end)
  end.

Definition eval_vtype (a : arg) : option vtype :=
  match a with
  | ANone => None
  | AType t => Some t
  | AScalar v => Some (vtype_of v)
  | ASet l | ATuple l => eval_vtype_atoms l
  | AArray l => eval_vtype_atoms (map AV l)
  | AList l => eval_vtype_atoms (map atom_of l)
  end.

(** variable.py 228-241, the vtype setter (the argument is true or None). *)
Definition set_vtype (s : vstate) (a : arg) : vstate * result unit :=
  let t := match a with
           | ANone => match vs_vset s with
                      | Some l => eval_vtype (AList l)
                      | None => Some VBool
                      end
           | _ => eval_vtype a
           end in
  let s' := mkVS t (vs_vset s) in
  match vs_vset s, t with
  | None, Some t => set_vset s' (AList (default_vset t))
  | None, None => (s', Err KeyError)
  | Some _, _ => (s', Ok tt)
  end.

Definition seq_state {A} (r : vstate * result A) (f : vstate -> vstate * result unit) : vstate * result unit :=
  match r with (s, Ok _) => f s | (s, Err e) => (s, Err e) end.

(** ** Names *)

Definition is_alpha (c : ascii) : bool :=
  let n := nat_of_ascii c in
  ((65 <=? n) && (n <=? 90)) || ((97 <=? n) && (n <=? 122)).
Definition is_word (c : ascii) : bool :=
  is_alpha c || Ascii.eqb c "_"%char || ((48 <=? nat_of_ascii c) && (nat_of_ascii c <=? 57)).

Definition keywords : list string :=
  ["False"; "None"; "True"; "and"; "as"; "assert"; "async"; "await"; "break"; "class"; "continue";
   "def"; "del"; "elif"; "else"; "except"; "finally"; "for"; "from"; "global"; "if"; "import"; "in";
   "is"; "lambda"; "nonlocal"; "not"; "or"; "pass"; "raise"; "return"; "try"; "while"; "with"; "yield"]%string.

Fixpoint all_chars (f : ascii -> bool) (s : string) : bool :=
  match s with EmptyString => true | String c s' => f c && all_chars f s' end.

(** Names collections.namedtuple accepts for a field (ASCII letters only): an
    identifier without leading underscore that is no keyword. *)
Definition valid_name (s : string) : bool :=
  match s with
  | EmptyString => false
  | String c s' => is_alpha c && all_chars is_word s' && negb (mem_str s keywords)
  end.

(** variable.py 135-139, the name setter: the name None is not defaulted, the
    field is named str(None). *)
Definition set_name (name : option string) : result string :=
  let s := match name with Some s => s | None => "None"%string end in
  if valid_name s then Ok s else Err ValueError.

(** variable.py 107-120: the assignments of the constructor. *)
Definition init_state (vset vtype : arg) : vstate * result unit :=
  match truth vtype with
  | Err e => (new_state, Err e)
  | Ok true =>
      seq_state (set_vtype new_state vtype)
        (fun s => match truth vset with
                  | Err e => (s, Err e)
                  | Ok true => set_vset s vset
                  | Ok false => (s, Ok tt)
                  end)
  | Ok false =>
      match truth vset with
      | Err e => (new_state, Err e)
      | Ok true => set_vset new_state vset
      | Ok false => set_vtype new_state ANone
      end
  end.

(** variable.py 82-124: Variable(name, vset, vtype).  Icons are not modelled. *)
Definition make_variable (name : option string) (vset vtype : arg) : result (string * vstate) :=
  let! nm := set_name name in
  match (if is_container vtype then init_state vtype vset else init_state vset vtype) with
  | (s, Ok _) => Ok (nm, s)
  | (_, Err e) => Err e
  end.

(** variable.py 788-792, variables(names, vtype, vset): the arguments are passed
    on in the order vtype, vset to a constructor that expects vset, vtype. *)
Definition variables (names : list string) (vtype vset : arg) : result (list (string * vstate)) :=
  map_res (fun nm => make_variable (Some nm) vtype vset) names.

(** ** Limits *)

(** variable.py 249-277: the limits of a vset. *)
Definition atom_min (a b : atom) : atom := if atom_leb a b then a else b.
Definition atom_max (a b : atom) : atom := if atom_leb a b then b else a.

Definition lims (l : list elem) : option (atom * atom) :=
  match l with
  | [] => None
  | e :: l' =>
      Some (fold_left (fun acc e => atom_min acc (atom_of e)) l' (atom_of e),
            fold_left (fun acc e => atom_max acc (atom_of e)) l' (atom_of e))
  end.

(** variable.py 313-368: the test of membership.  Discrete: np.isin; float: the
    limits are compared strictly where they are in tuples.  None: no vset. *)
Definition inside (s : vstate) (x : pyval) : option bool :=
  match vs_vset s with
  | None => None
  | Some l =>
      match vs_vtype s with
      | Some VFloat =>
          match l with
          | [e0; e1] =>
              let lo := atom_of e0 in
              let hi := atom_of e1 in
              Some ((if is_tup e0 then atom_ltb lo (AV x) else atom_leb lo (AV x)) &&
                    (if is_tup e1 then atom_ltb (AV x) hi else atom_leb (AV x) hi))
          | _ => None
          end
      | _ => Some (existsb (fun e => match atom_of e with AV v => v_eqb v x | AOO _ => false end) l)
      end
  end.

(** A transformation of a float variable: the function, its inverse, and the
    images of the infinities (variable.py 466-497; symbolic ones are not
    modelled). *)
Record ufun : Type := mkUfun { u_fwd : T -> T; u_inv : T -> T; u_inf : bool -> atom }.

Definition u_image (u : option ufun) (a : atom) : atom :=
  match u, a with
  | None, _ => a
  | Some u, AV v => AV (PF (u_fwd u (as_num v)))
  | Some u, AOO b => u_inf u b
  end.

(** variable.py 313-347: length; None stands for an infinite one.  The length of
    a bool variable is 2 whatever its set. *)
Definition vlength (s : vstate) (u : option ufun) : result (option pyval) :=
  match vs_vset s with
  | None => Err TypeError
  | Some l =>
      match vs_vtype s with
      | Some VFloat =>
          match l with
          | [e0; e1] =>
              match u_image u (atom_of e0), u_image u (atom_of e1) with
              | AV a, AV b => Ok (Some (PF (n_sub (n_max (as_num a) (as_num b)) (n_min (as_num a) (as_num b)))))
              | _, _ => Ok None
              end
          | _ => Err TypeError
          end
      | Some VBool => Ok (Some (PI 2))
      | _ => Ok (Some (PI (Z.of_nat (length l))))
      end
  end.

(** variable.py 299-302: lhv returns the length. *)
Definition lhv (s : vstate) (u : option ufun) : result (option pyval) := vlength s u.

(** variable.py 756-763: dexpr is made by @name.setter, so reading it returns the
    name. *)
Definition read_dexpr (v : string * vstate) : string := fst v.

(** ** Evaluation (variable.py 500-587) *)

Inductive values_in : Type :=
| VNone                     (* None *)
| VSet (n : Z)              (* {n}; sets of a non-integer are not modelled *)
| VGiven (l : list pyval) (scalar : bool).

Inductive values_out : Type := OScalar (v : pyval) | OArray (l : list pyval).

(** The elements of a discrete vset: np.array(list(vset), dtype=vtype). *)
Definition vset_vals (l : list elem) : list pyval :=
  flat_map (fun e => match atom_of e with AV v => [v] | AOO _ => [] end) l.

Definition getR {A} (l : list A) (i : nat) : result A :=
  match nth_error l i with Some x => Ok x | None => Err IndexError end.

(** The random choices: a number of np.random.randint(0, len), an outcome of
    np.random.permutation, uniform numbers of [0,1). *)
Record rnd : Type := mkRnd { r_int : nat; r_perm : list nat; r_unif : nat -> T }.

Definition eval_discrete (l : list elem) (len : nat) (n : Z) (r : rnd) : result values_out :=
  let vals := vset_vals l in
  match n with
  | Z0 => let! v := getR vals (r_int r) in Ok (OScalar v)
  | Zpos p =>
      let! vs := map_res (fun i => getR vals (i mod len)) (seq 0 (Pos.to_nat p)) in Ok (OArray vs)
  | Zneg p =>
      let! vs := map_res (fun i => getR vals (i mod len)) (r_perm r) in Ok (OArray vs)
  end.

Definition out_map (f : T -> T) (o : uniform_out T) : values_out :=
  match o with
  | UScalar x => OScalar (PF (f x))
  | UArray l => OArray (map (fun x => PF (f x)) l)
  end.

Definition evaluate (s : vstate) (u : option ufun) (a : values_in) (r : rnd) : result values_out :=
  match vs_vset s with
  | None => Err TypeError
  | Some l =>
      let at_n (n : Z) :=
        match vs_vtype s with
        | Some VFloat =>
            match l with
            | [e0; e1] =>
                match u_image u (atom_of e0), u_image u (atom_of e1) with
                | AV a, AV b =>
                    let o := uniform (as_num a) (as_num b) (Some n) (is_tup e0) (is_tup e1) (r_unif r) in
                    Ok (out_map (match u with Some u => u_inv u | None => fun x => x end) o)
                | _, _ => Err AssertionError
                end
            | _ => Err AssertionError
            end
        | Some VBool => eval_discrete l 2 n r
        | _ => eval_discrete l (length l) n r
        end in
      match a with
      | VNone =>
          match vs_vtype s with
          | Some VFloat => at_n 0%Z
          | _ => Ok (OArray (vset_vals l))
          end
      | VSet n => at_n n
      | VGiven l true => match l with [v] => Ok (OScalar v) | _ => Err TypeError end
      | VGiven l false => Ok (OArray l)
      end
  end.

(** ** Perturbations *)

(** A perturbation: none, a number, a list or tuple of numbers, or an instance of
    the variable's Delta.  Callables are not modelled. *)
Inductive delta : Type :=
| DNone | DScal (v : pyval) | DList (l : list pyval) | DTup (l : list pyval) | DDelta (v : pyval).

(** The default perturbation with its flags (set_delta, 376-409). *)
Record dconf : Type := mkDC { dc_delta : delta; dc_scale : bool; dc_bound : bool }.

(** delta or self._delta *)
Definition delta_or (d e : delta) : delta :=
  match d with
  | DNone => e
  | DScal v => if v_true v then d else e
  | DList [] | DTup [] => e
  | _ => d
  end.

Definition v_neg (v : pyval) : pyval :=
  match v with
  | PB b => PI (if b then -1 else 0)
  | PI z => PI (- z)
  | PF x => PF (n_opp x)
  end.

Definition z_of (v : pyval) : Z :=
  match v with PB b => if b then 1 else 0 | PI z => z | PF x => n_trunc x end.

Definition v_add (a b : pyval) : pyval :=
  match a, b with
  | PF _, _ | _, PF _ => PF (n_add (as_num a) (as_num b))
  | _, _ => PI (z_of a + z_of b)
  end.

Definition v_mul (a b : pyval) : pyval :=
  match a, b with
  | PF _, _ | _, PF _ => PF (n_mul (as_num a) (as_num b))
  | _, _ => PI (z_of a * z_of b)
  end.

(** delta == self._delta for a number delta. *)
Definition same_delta (v : pyval) (d : delta) : bool :=
  match d with DScal w => v_eqb v w | _ => false end.

(** The random choices of a perturbation: a uniform number of [0,1) and an
    integer of np.random.randint(-d, d). *)
Record drnd : Type := mkDR { d_unif : nat -> T; d_int : Z }.

(** variable.py 600-638, eval_delta; the result None is no perturbation. *)
Definition eval_delta (s : vstate) (u : option ufun) (dc : dconf) (d : delta) (r : drnd) : result delta :=
  let is_bool := match vs_vtype s with Some VBool => true | _ => false end in
  let is_int := match vs_vtype s with Some VInt => true | _ => false end in
  let half := n_div n1 (n_ofZ 2) in
  match delta_or d (dc_delta dc) with
  | DNone => Ok DNone
  | d' =>
      let! v :=
        match d' with
        | DScal v | DDelta v => Ok v
        | DTup [v] =>
            Ok (if is_bool then v else if n_ltb half (d_unif r 0) then v else v_neg v)
        | DList [v] =>
            if is_bool then Ok v
            else if is_int then
              (* low >= high raises ValueError *)
              if (z_of (v_neg v) <? z_of v)%Z then Ok (PI (d_int r)) else Err ValueError
            else Ok (PF (n_add (n_opp (as_num v)) (n_mul (n_sub (as_num v) (n_opp (as_num v))) (d_unif r 0))))
        | _ => Err AssertionError
        end in
      if same_delta v (dc_delta dc) && dc_scale dc then
        let! len := vlength s u in
        match len with
        | None => Err AssertionError
        | Some w => Ok (DDelta (v_mul v w))
        end
      else Ok (DDelta v)
  end.

(** np.minimum(hi, v), np.maximum(lo, v) *)
Definition v_min (hi : atom) (v : pyval) : pyval :=
  match hi with AV w => if v_leb w v then w else v | AOO _ => v end.
Definition v_max (lo : atom) (v : pyval) : pyval :=
  match lo with AV w => if v_leb v w then w else v | AOO _ => v end.

Definition below (v : pyval) (a : atom) : bool := atom_ltb (AV v) a.
Definition above (v : pyval) (a : atom) : bool := atom_ltb a (AV v).

(** variable.py 703-739: the bounds for one element: old its value before, v
    after; scalar tells which of the two branches applies (arrays compare with
    <= and >=, scalars with < and >). *)
Definition bound_elem (s : vstate) (scalar : bool) (old v : pyval) : result pyval :=
  match vs_vset s with
  | None => Err TypeError
  | Some l =>
      match lims l with
      | None => Err TypeError
      | Some (lo, hi) =>
          let clamp := v_max lo (v_min hi v) in
          match vs_vtype s, l with
          | Some VFloat, [e0; e1] =>
              match is_tup e0, is_tup e1 with
              | false, false => Ok clamp
              | true, true =>
                  match inside s v with
                  | Some true => Ok v
                  | Some false => Ok old
                  | None => Err TypeError
                  end
              | true, false =>
                  let out := if scalar then below v lo else negb (above v lo) in
                  if scalar then Ok (if out then old else v_min hi v)
                  else Ok (v_min hi (if out then old else v))
              | false, true =>
                  let out := if scalar then above v hi else negb (below v hi) in
                  if scalar then Ok (if out then old else v_max lo v)
                  else Ok (v_max lo (if out then old else v))
              end
          | _, _ => Ok clamp
          end
      end
  end.

(** variable.py 641-739, apply_delta: given values (one if scalar). *)
Definition apply_delta (s : vstate) (u : option ufun) (dc : dconf) (scalar : bool) (values : list pyval)
    (d : delta) (bound : option bool) (r : drnd) : result (list pyval) :=
  let is_bool := match vs_vtype s with Some VBool => true | _ => false end in
  let half := n_div n1 (n_ofZ 2) in
  let d0 := delta_or d (dc_delta dc) in
  (* an instance of Delta is a tuple too *)
  let! d1 := match is_bool, d0 with
             | false, DList _ | false, DTup _ | false, DDelta _ => eval_delta s u dc d0 r
             | _, _ => Ok d0
             end in
  let d2 := match d1 with DDelta v => DScal v | _ => d1 end in
  let bnd := match bound with Some b => b | None => dc_bound dc end in
  let finish (vals : list pyval) :=
    let! vals' := match vs_vtype s with
                  | Some t => Ok (map (fun v => revtype v t) vals)
                  | None => Ok vals
                  end in
    if bnd then map_res (fun ov : pyval * pyval => bound_elem s scalar (fst ov) (snd ov)) (combine values vals')
    else Ok vals' in
  match d2 with
  | DNone => Ok values
  | DScal v =>
      if is_bool then
        finish (map (fun x => PB (Z.odd (z_of x + z_of v))) values)
      else
        match u with
        | None => finish (map (fun x => v_add x v) values)
        | Some u => finish (map (fun x => PF (u_inv u (n_add (u_fwd u (as_num x)) (as_num v)))) values)
        end
  | DTup [v] =>
      (* bool only: values if delta > uniform > 0.5 else not values *)
      let keep := n_ltb (d_unif r 0) (as_num v) && n_ltb half (d_unif r 0) in
      finish (map (fun x => if keep then x else PB (negb (v_true x))) values)
  | DList [v] =>
      if scalar then
        let keep := n_ltb (d_unif r 0) (as_num v) && n_ltb half (d_unif r 0) in
        finish (map (fun x => if keep then x else PB (negb (v_true x))) values)
      else
        finish (map (fun ix : nat * pyval =>
                       if n_ltb (d_unif r (fst ix)) (as_num v) then PB (negb (v_true (snd ix))) else snd ix)
                    (combine (seq 0 (length values)) values))
  | _ => Err AssertionError
  end.

End Vars.
Arguments pyval T : clear implicits.
Arguments atom T : clear implicits.
Arguments elem T : clear implicits.
Arguments arg T : clear implicits.
Arguments vstate T : clear implicits.
Arguments ufun T : clear implicits.
Arguments rnd T : clear implicits.
Arguments delta T : clear implicits.
Arguments dconf T : clear implicits.
Arguments drnd T : clear implicits.
Arguments values_out T : clear implicits.
Arguments values_in T : clear implicits.
