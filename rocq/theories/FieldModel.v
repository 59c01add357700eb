(** Model of probayes/field.py (class Field), of the union of fields and variables
    in probayes/ops.py, and of parse_args.

    Stepping is in RFModel and ArrModel, subfield and calls in SubModel.
    Not modelled: callable deltas, transformed variables, values that are neither scalars, arrays, None nor sets of one
    integer. *)
From Coq Require Import String Ascii ZArith Bool Arith List.
From Verif Require Import Base Num Tensor Names VariableModel.
Import ListNotations.
Set Implicit Arguments.
Local Open Scope bool_scope.

Section Field.
Context {T : Type} {N : Num T} {TR : Trunc T}.

(** ** Variables and fields *)

(** A Variable (or RV): variables compare by identity. *)
Record fvar : Type := mkFV {
  fv_id : nat; fv_name : string; fv_state : vstate T; fv_stoch : bool }.

Definition same_var (v w : fvar) : bool := Nat.eqb (fv_id v) (fv_id w).
Definition mem_var (v : fvar) (l : list fvar) : bool := existsb (same_var v) l.

(** A Field (field.py 27-47): its graph nodes, and what _refresh derives from
    them.  [fd_stoch] is the class attribute _is_stochastic. *)
Record field : Type := mkFld {
  fd_nodes : list fvar;
  fd_nvars : option nat;
  fd_vars : odict fvar;
  fd_keys : list string;
  fd_stoch : bool }.

(** Graph.add_node: adding a node again changes nothing. *)
Definition add_node (nodes : list fvar) (v : fvar) : list fvar :=
  if mem_var v nodes then nodes else nodes ++ [v].

(** The OrderedDict of field.py 187. *)
Definition vars_of (nodes : list fvar) : odict fvar :=
  od_of_list (map (fun v => (fv_name v, v)) nodes).

(** Field._refresh (field.py 193-213): the assertion comes before the keys are
    replaced.  Names of variables are valid namedtuple fields.  RF._refresh (rf.py
    67-76) then asks every variable for its scale, which plain ones do not have. *)
Definition refresh (f : field) : field * result unit :=
  let vars := vars_of (fd_nodes f) in
  let nv := Some (length (fd_nodes f)) in
  let f' := mkFld (fd_nodes f) nv vars (od_keys vars) (fd_stoch f) in
  if fd_stoch f
  then (f', if forallb (fun v => fv_stoch v) (od_vals vars) then Ok tt else Err AttributeError)
  else if existsb (fun v => fv_stoch v) (od_vals vars)
       then (mkFld (fd_nodes f) nv vars (fd_keys f) (fd_stoch f), Err AssertionError)
       else (f', Ok tt).

(** The argument of add_var: a single object, or a collection (list, tuple, set,
    the variables of a Field or dict); None stands for an object that is not a
    Variable. *)
Inductive addarg : Type := AddOne (v : option fvar) | AddMany (l : list (option fvar)).

(** [if self._nvars] *)
Definition nonempty (f : field) : bool :=
  match fd_nvars f with Some (S _) => true | _ => false end.

(** The body that the loop and its else clause share (field.py 121-134). *)
Definition add_body (f : field) (v : option fvar) : field * result unit :=
  match v with
  | None => (f, Err AssertionError)
  | Some w =>
      if nonempty f && mem_var w (fd_nodes f) then (f, Err AssertionError)
      else (mkFld (add_node (fd_nodes f) w) (fd_nvars f) (fd_vars f) (fd_keys f) (fd_stoch f), Ok tt)
  end.

Fixpoint add_loop (f : field) (l : list (option fvar)) : field * result unit :=
  match l with
  | [] => (f, Ok tt)
  | v :: l' =>
      match add_body f v with
      | (f', Ok _) => add_loop f' l'
      | (f', Err e) => (f', Err e)
      end
  end.

(** Field.add_var (field.py 107-135): the else clause of the loop is executed
    whenever the loop ends, with [var] still the last element, or the (empty)
    collection itself. *)
Definition add_var (f : field) (a : addarg) : field * result unit :=
  let steps := match a with
               | AddOne v => [v]
               | AddMany [] => [None]
               | AddMany l => (l ++ [last l None])%list
               end in
  match add_loop f steps with
  | (f', Ok _) => refresh f'
  | (f', Err e) => (f', Err e)
  end.

(** Field.__init__ and set_vars (field.py 54-58, 92-104). *)
Definition make_field (stoch : bool) (a : addarg) : result field :=
  match add_var (mkFld [] None [] [] stoch) a with
  | (f, Ok _) => Ok f
  | (_, Err e) => Err e
  end.

Definition fd_varlist (f : field) : list fvar := od_vals (fd_vars f).

(** A history of add_var calls. *)
Definition add_vars (f : field) (l : list addarg) : field :=
  fold_left (fun f a => fst (add_var f a)) l f.

(** self & other for variables and fields (ops.py 39-71): a new field, stochastic
    if either operand is.  Random variables take only random operands (rv.py 542-564). *)
Inductive operand : Type := OpVar (v : fvar) | OpField (f : field).

Definition op_vars (o : operand) : list fvar :=
  match o with OpVar v => [v] | OpField f => fd_varlist f end.
Definition op_stoch (o : operand) : bool :=
  match o with OpVar v => fv_stoch v | OpField f => fd_stoch f end.

(** fld(leafs...): a single Variable is passed on as it is. *)
Definition and_op (a b : operand) : result field :=
  let! _ := match a with
            | OpVar v => if fv_stoch v && negb (op_stoch b) then Err TypeError else Ok tt
            | OpField _ => Ok tt
            end in
  make_field (op_stoch a || op_stoch b) (AddMany (map Some (op_vars a ++ op_vars b))).

(** ** Values *)

Inductive fval : Type :=
| FNum (v : pyval T) | FArr (a : tensor (pyval T)) | FNone | FUnit (n : Z).

(** The value of a key: of 'x', or of 'x,y' (a tuple or list). *)
Inductive fentry : Type := One (v : fval) | Many (l : list fval).

(** np.isscalar and isdimensionless (vtypes.py 142-152). *)
Definition npscalar (v : fval) : bool := match v with FNum _ => true | _ => false end.
Definition dimensionless (v : fval) : bool :=
  match v with FNum _ => true | FUnit 0%Z => true | _ => false end.
Definition entry_scalar (e : fentry) : bool := match e with One v => npscalar v | Many _ => false end.

Definition subkeys (k : string) : list string := split_char "," k.
Definition shared (k : string) : bool := has_char "," k.

(** Field.parse_args without pass_all (field.py 327-367), after the arguments
    have been merged into one dictionary: only the last name of a shared key is
    looked up. *)
Definition anyfloat (f : field) : bool :=
  existsb (fun v => match vs_vtype (fv_state v) with Some VFloat => true | _ => false end) (fd_varlist f).

Definition parse_entry (f : field) (kv : string * fentry) : result (string * fentry) :=
  let ks := subkeys (fst kv) in
  let! e := match shared (fst kv), snd kv with
            | true, Many l => let! _ := assert_ (Nat.eqb (length l) (length ks)) in Ok (Many l)
            | true, One v => Ok (Many (repeat v (length ks)))
            | false, e => Ok e
            end in
  let! _ := assert_ (mem_str (last ks ""%string) (fd_keys f)) in
  Ok (fst kv, e).

Definition default_val (f : field) (values : odict fentry) : fval :=
  if anyfloat f then
    if existsb (fun e => match e with One (FUnit 0%Z) => true | _ => false end) (od_vals values)
    then FNone else FUnit 0%Z
  else FNone.

Definition f_parse_args (f : field) (values : odict fentry) : result (odict fentry) :=
  let! vs := map_res (parse_entry f) values in
  let seen := flat_map subkeys (od_keys vs) in
  let def := default_val f vs in
  Ok (fold_left (fun d k => if mem_str k seen then d else od_set d k (One def)) (fd_keys f) vs).

(** ** Evaluation (field.py 392-468) *)

(** values_ref: for each variable the key that holds its value, and the position
    if the key is shared. *)
Definition values_ref (keys : list string) (values : odict fentry) : odict (string * option nat) :=
  fold_left (fun d k =>
      if shared k
      then fold_left (fun d isk => od_set d (snd isk) (k, Some (fst isk)))
             (combine (seq 0 (length (subkeys k))) (subkeys k)) d
      else d)
    (od_keys values) (od_of_list (map (fun k => (k, (k, None))) keys)).

(** The state of the loop over the variables: dims, seen keys, next axis. *)
Definition dstep : Type := (odict (option nat) * list string * nat)%type.

Definition entry_at (values : odict fentry) (k : string) (i : nat) : result fval :=
  let! e := od_getR values k in
  match e with
  | Many l => match nth_error l i with Some v => Ok v | None => Err IndexError end
  | One _ => Err TypeError
  end.

Definition dim_step (values : odict fentry) (ref : odict (string * option nat)) (st : dstep) (key : string)
    : result dstep :=
  let '(dims, seen, nd) := st in
  let! r := od_getR ref key in
  match r with
  | (_, None) =>
      let! e := od_getR values key in
      match e with
      | One v => if dimensionless v then Ok (dims, key :: seen, nd)
                 else Ok (od_set dims key (Some nd), key :: seen, S nd)
      | Many _ => Ok (od_set dims key (Some nd), key :: seen, S nd)
      end
  | (k, Some i) =>
      if mem_str key seen then Ok st
      else
        let dims' := fold_left (fun d sk => od_set d sk (Some nd)) (subkeys k) dims in
        let! v := entry_at values k i in
        Ok (dims', (subkeys k ++ seen)%list, if dimensionless v then nd else S nd)
  end.

Definition max_dim (dims : odict (option nat)) : nat :=
  fold_left (fun n kd => match snd kd with Some d => Nat.max n (S d) | None => n end) dims 0.

(** var.evaluate(None or set); arrays and scalars pass. *)
Definition eval_val (v : fvar) (x : fval) (r : rnd T) : result (tensor (pyval T)) :=
  let out o := match o with OScalar y => tscalar y | OArray l => of_list (PF n0) l end in
  match x with
  | FNum y => Ok (tscalar y)
  | FArr a => Ok a
  | FNone => let! o := evaluate (fv_state v) None VNone r in Ok (out o)
  | FUnit n => let! o := evaluate (fv_state v) None (VSet n) r in Ok (out o)
  end.

(** The value a variable is given. *)
Definition val_of (values : odict fentry) (ref : odict (string * option nat)) (key : string) : result fval :=
  if od_mem values key then
    let! e := od_getR values key in
    match e with One v => Ok v | Many _ => Err AttributeError end
  else
    let! r := od_getR ref key in
    match r with
    | (k, Some i) => entry_at values k i
    | (_, None) => Err KeyError
    end.

(** Reshaping (field.py 441-462): [re_shape[None] = size] sets all entries. *)
Definition place (nd : nat) (dim : option nat) (a : tensor (pyval T)) : result (tensor (pyval T)) :=
  match shape a with
  | [] => Ok a
  | _ => reshape (match dim with
                  | Some d => set_nth d (tsize a) (repeat 1 nd)
                  | None => repeat (tsize a) nd
                  end) a
  end.

(** field.py 392-468, evaluate; ev is the evaluate method of the i-th variable
    (Variable.evaluate here, RV.evaluate in a random field). *)
Definition f_evaluate_by (ev : nat -> fvar -> fval -> result (tensor (pyval T)))
    (f : field) (values : odict fentry) (min_dim : nat)
    : result (odict (tensor (pyval T)) * odict (option nat)) :=
  if forallb entry_scalar (od_vals values) then
    Ok (flat_map (fun kv => match snd kv with One (FNum x) => [(fst kv, tscalar x)] | _ => [] end) values, [])
  else
    let ref := values_ref (fd_keys f) values in
    let! (dims, _, _) := fold_res (dim_step values ref) (fd_keys f)
                           (od_of_list (map (fun k => (k, None)) (fd_keys f)), [], min_dim) in
    let nd := max_dim dims in
    let! vals := map_res (fun iv : nat * fvar =>
        let v := snd iv in
        let! x := val_of values ref (fv_name v) in
        let! a := ev (fst iv) v x in
        let! d := od_getR dims (fv_name v) in
        let! a' := place nd d a in
        Ok (fv_name v, a'))
      (combine (seq 0 (length (fd_varlist f))) (fd_varlist f)) in
    let dims' := fold_left (fun d kv => match shape (snd kv) with
                                        | [] => od_set d (fst kv) None
                                        | _ => d
                                        end) vals dims in
    Ok (vals, dims').

Definition f_evaluate (f : field) (values : odict fentry) (min_dim : nat) (r : nat -> rnd T)
    : result (odict (tensor (pyval T)) * odict (option nat)) :=
  f_evaluate_by (fun i v x => eval_val v x (r i)) f values min_dim.

(** ** Perturbations (field.py 211-306, 482-550) *)

(** The delta argument: a dictionary, an instance of the field's Delta, a number,
    a list of one number, a tuple of one number. *)
Inductive fdelta_in : Type :=
| GNone
| GDict (d : odict (delta T))
| GDelta (l : list (delta T))
| GNum (x : T) | GList (x : T) | GTup (x : T).

(** What set_delta leaves in the field: None, an instance of Delta, or a tuple;
    with the scale flag and the lengths kept for spherical steps. *)
Inductive fstored : Type := SNone | SDelta (l : list (delta T)) | STup (x : T).
Record fconf : Type := mkFC {
  fc_delta : fstored; fc_scale : bool; fc_bound : bool; fc_unscale : odict T;
  fc_spherise : odict T }.

(** Lengths of the variables, None if infinite (field.py 309-314). *)
Definition finite (l : list (option T)) (i : nat) : result T :=
  match nth_error l i with Some (Some x) => Ok x | _ => Err AssertionError end.

(** Lines 298-306: the finite lengths of the variables not named in the optional
    dictionary. *)
Definition spherise (keys : list string) (lengths : list (option T)) (unscale : odict T) : result (odict T) :=
  fold_res (fun (d : odict T) (ik : nat * string) =>
      if od_mem unscale (snd ik) then Ok d
      else let! x := finite lengths (fst ik) in Ok (od_set d (snd ik) x))
    (combine (seq 0 (length keys)) keys) [].

(** Delta( **d ): the keys must be those of the field. *)
Definition named_tuple {A} (keys : list string) (d : odict A) : result (list A) :=
  if seteq_str keys (od_keys d) then
    map_res (fun k => od_getR d k) keys
  else Err TypeError.

(** set_delta: the field's configuration and the default deltas of its variables
    (their dconf), given those before.  In the dictionary case the converted delta
    is a tuple and the original is no Delta, so the branch for tuples applies. *)
Definition f_set_delta (keys : list string) (lengths : list (option T)) (vds : list (dconf T))
    (d : fdelta_in) (unscale : odict T) (scale bound : bool) : result (fconf * list (dconf T)) :=
  let numeric (x : T) (urand : bool) :=
    let deltas := od_update (map (fun k => (k, x)) keys) unscale in
    let! scaled := map_res (fun ikx : nat * (string * T) =>
        let '(i, (k, y)) := ikx in
        let! z := if scale && negb (od_mem unscale k)
                  then let! len := finite lengths i in Ok (n_mul y len)
                  else Ok y in
        Ok (k, if urand then DList [PF z] else DScal (PF z)))
      (combine (seq 0 (length deltas)) deltas) in
    let! l := named_tuple keys scaled in
    Ok (mkFC (SDelta l) scale bound unscale [], map (fun d => mkDC d false bound) l) in
  match d with
  | GNone => Ok (mkFC SNone scale bound unscale [], vds)
  | GDict dd =>
      let! l := named_tuple keys dd in
      let! sph := spherise keys lengths unscale in
      Ok (mkFC (SDelta l) scale bound unscale sph, vds)
  | GDelta l =>
      let! _ := assert_ (match unscale with [] => true | _ => false end) in
      let! _ := assert_ (Nat.eqb (length l) (length keys)) in
      Ok (mkFC (SDelta l) scale bound unscale [], map (fun d => mkDC d scale bound) l)
  | GNum x => numeric x false
  | GList x => numeric x true
  | GTup x =>
      let! sph := spherise keys lengths unscale in
      Ok (mkFC (STup x) scale bound unscale sph, vds)
  end.

Definition n_sum (l : list T) : T := fold_right n_add n0 l.

(** Lines 515-543: the spherical step.  [u] are the numbers drawn by
    np.random.uniform(-delta, delta); the dictionary of unscaled deltas is wrapped
    in a tuple, so no key is found in it, and it cannot be unpacked with ** ; the
    lengths are taken by position among the spherised variables. *)
Definition spherical (keys : list string) (lengths : list (option T)) (c : fconf) (x : T) (u : list T)
    : result (list T) :=
  match fc_spherise c with
  | [] => match fc_unscale c with
          | [] => named_tuple keys []
          | _ => Err TypeError
          end
  | sph =>
      let rss := n_sqrt (n_sum (map (fun kl => n_mul (snd kl) (snd kl)) sph)) in
      let r := if fc_scale c then n_mul x rss else x in
      let norm := n_sqrt (n_sum (map (fun y => n_mul y y) u)) in
      let! vals := map_res (fun ikl : nat * (string * T) =>
          let '(i, (k, _)) := ikl in
          let v := n_div (n_mul (nth i u n0) r) norm in
          if fc_scale c then
            match nth_error lengths i with
            | Some (Some len) => Ok (k, n_mul v len)
            | _ => Err ValueError
            end
          else Ok (k, v))
        (combine (seq 0 (length sph)) sph) in
      named_tuple keys vals
  end.

(** eval_delta() without argument (field.py 482-503), for a stored delta; the
    step of variable i when a Delta is stored is that of its own default. *)
Inductive fstep : Type := NoStep | OwnDelta (d : delta T) | Steps (l : list (delta T)) | Sphere (l : list T).

Definition f_eval_delta (f : field) (lengths : list (option T)) (c : fconf) (vds : list (dconf T))
    (rs : nat -> drnd T) (u : list T) : result fstep :=
  match fc_delta c with
  | SNone => match vds with
             | [dc] => match dc_delta dc with DNone => Ok NoStep | d => Ok (OwnDelta d) end
             | _ => Ok NoStep
             end
  | SDelta _ =>
      let! l := map_res (fun ivd : nat * (fvar * dconf T) =>
          let '(i, (v, dc)) := ivd in VariableModel.eval_delta (fv_state v) None dc DNone (rs i))
        (combine (seq 0 (length (fd_varlist f))) (combine (fd_varlist f) vds)) in
      Ok (Steps l)
  | STup x => let! l := spherical (fd_keys f) lengths c x u in Ok (Sphere l)
  end.

End Field.
Arguments fvar : clear implicits.
Arguments field : clear implicits.
Arguments operand : clear implicits.
Arguments addarg : clear implicits.
Arguments fval : clear implicits.
Arguments fentry : clear implicits.
Arguments fdelta_in : clear implicits.
Arguments fstored : clear implicits.
Arguments fconf : clear implicits.
Arguments fstep : clear implicits.
