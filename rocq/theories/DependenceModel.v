(** Model of probayes/dependence.py (class Dependence: construction and the
    classification of its variables) and of the operators & and | of
    probayes/ops.py on variables, fields and dependences, for the plain and the
    stochastic classes (class SD takes construction over from Dependence).

    Not modelled: explicit dependences (add_deps, which calls methods that do not
    exist), the default Functional, proposals and deltas. *)
From Coq Require Import String Ascii ZArith Bool Arith List.
From Verif Require Import Base Num Tensor Names VariableModel FieldModel.
Import ListNotations.
Set Implicit Arguments.
Local Open Scope bool_scope.

Section Dependence.
Context {T : Type} {N : Num T} {TR : Trunc T}.

(** The architecture: none, the dependence itself, a list (serial) or a tuple
    (parallel) of that many dependences. *)
Inductive arch : Type := ArchNone | ArchSelf | ArchSerial (n : nat) | ArchParallel (n : nat).

(** A Dependence or SD (by [dp_stoch]): the directed graph, the classes, and the
    dictionary of variables that Field._refresh makes.  The graph's edges are a
    set; their order is not modelled. *)
Record dep : Type := mkDep {
  dp_nodes : list (fvar T);
  dp_edges : list (fvar T * fvar T);
  dp_leafs : field T;
  dp_stems : odict (fvar T);
  dp_roots : option (field T);
  dp_preds : option (field T);
  dp_arch : arch;
  dp_vars : odict (fvar T);
  dp_name : string;
  dp_stoch : bool }.

(** DiGraph.add_edge: an edge that is there already is not added again. *)
Definition same_edge (e d : fvar T * fvar T) : bool :=
  same_var (fst e) (fst d) && same_var (snd e) (snd d).
Definition add_edge (es : list (fvar T * fvar T)) (e : fvar T * fvar T) : list (fvar T * fvar T) :=
  if existsb (same_edge e) es then es else (es ++ [e])%list.

(** DiGraph.predecessors, DiGraph.successors *)
Definition predecessors (es : list (fvar T * fvar T)) (v : fvar T) : list (fvar T) :=
  map fst (filter (fun e => same_var (snd e) v) es).
Definition successors (es : list (fvar T * fvar T)) (v : fvar T) : list (fvar T) :=
  map snd (filter (fun e => same_var (fst e) v) es).

Definition has_parents es v : bool := match predecessors es v with [] => false | _ => true end.
Definition has_children es v : bool := match successors es v with [] => false | _ => true end.

Definition fd_name (f : field T) : string := join "," (fd_keys f).

(** self._field_cls( *tuple(l) ): a tuple of several, or a Variable, or nothing. *)
Definition new_field (stoch : bool) (l : list (fvar T)) : result (field T) :=
  make_field stoch (match l with [v] => AddOne (Some v) | _ => AddMany (map Some l) end).

(** The checks of Field._refresh (field.py 200-203) and, for SD, of RF._refresh (rf.py 70-71):
    plain variables have no scale. *)
Definition kinds_ok (stoch : bool) (vars : odict (fvar T)) : result unit :=
  if stoch then (if forallb (fun v => fv_stoch v) (od_vals vars) then Ok tt else Err AttributeError)
  else assert_ (negb (existsb (fun v => fv_stoch v) (od_vals vars))).

(** dependence.py 192-263, _refresh.  The variables that precede the leafs are
    collected in a set, whose order is not modelled: here it is that of the
    edges. *)
Definition refresh_dep (stoch : bool) (nodes : list (fvar T)) (edges : list (fvar T * fvar T)) (a : arch)
    (leafs roots : option (field T)) : result dep :=
  let! (lf, stems, rt) :=
    match leafs with
    | Some l =>
        (* 206-213; type(leafs) is self._field_cls *)
        let! _ := assert_ (Bool.eqb (fd_stoch l) stoch) in
        let! _ := assert_ (match roots with Some r => Bool.eqb (fd_stoch r) stoch | None => true end) in
        Ok (l, [], roots)
    | None =>
        (* 216-232 *)
        let stems := filter (fun v => has_parents edges v && has_children edges v) nodes in
        let rts := filter (fun v => negb (has_parents edges v) && has_children edges v) nodes in
        let lfs := filter (fun v => negb (has_children edges v)) nodes in
        let! l := new_field stoch lfs in
        let! r := match rts with [] => Ok None | _ => let! r := new_field stoch rts in Ok (Some r) end in
        Ok (l, vars_of stems, r)
    end in
  let! preds :=
    match stems with
    | [] => Ok rt
    | _ => let! p := new_field stoch
             (fold_left (fun ps v => if mem_var v ps then ps else (ps ++ [v])%list)
                (flat_map (predecessors edges) (fd_varlist lf)) []) in
           Ok (Some p)
    end in
  (* Field._refresh and, for SD, RF._refresh *)
  let vars := vars_of nodes in
  let! _ := kinds_ok stoch vars in
  Ok (mkDep nodes edges lf stems rt preds a vars
        (match rt with Some r => fd_name lf ++ "|" ++ fd_name r | None => fd_name lf end)%string stoch).

(** The arguments of the constructor. *)
Inductive darg : Type := AVar (v : fvar T) | AField (f : field T) | ADep (d : dep).

Definition is_dep (stoch : bool) (a : darg) : bool :=
  match a with ADep d => dp_stoch d || negb stoch | _ => false end.

(** dependence.py 82-89: isinstance of the variable and field classes, which for
    SD are RV and RF. *)
Definition as_field (stoch : bool) (a : darg) : result (field T) :=
  match a with
  | AVar v => if fv_stoch v || negb stoch then new_field stoch [v] else Err TypeError
  | AField f => if fd_stoch f || negb stoch then Ok f else Err TypeError
  | ADep _ => Err TypeError
  end.

(** dependence.py 91-115; also the variable list of the first field afterwards: with
    three or more arguments [+=] extends it in place, and tuple(leafs_var) of the
    last variable of the loop fails: a Variable takes no integer index.  Without
    leaf or root variables the loop variable is unbound, which does not happen. *)
Definition def_fields (stoch : bool) (fs : list (field T)) : result dep * list (fvar T) :=
  match fs with
  | [] => (Err TypeError, [])
  | [f] => (refresh_dep stoch (fold_left (@add_node T) (fd_varlist f) []) [] ArchSelf (Some f) None, fd_varlist f)
  | f :: rest =>
      let lf := match rest with
                | [_] => fd_varlist f
                | _ => (fd_varlist f ++ flat_map (@fd_varlist T) (removelast rest))%list
                end in
      let r := last rest f in
      let nodes := fold_left (@add_node T) (lf ++ fd_varlist r) [] in
      let edges := fold_left add_edge
                     (flat_map (fun rv => map (fun lv => (rv, lv)) lf) (fd_varlist r)) [] in
      (match rest with
       | [_] => refresh_dep stoch nodes edges ArchSelf (Some f) (Some r)
       | _ => Err AssertionError
       end, lf)
  end.

(** Variables by identity, as sets and as lists. *)
Definition same_set (l m : list (fvar T)) : bool :=
  forallb (fun v => mem_var v m) l && forallb (fun v => mem_var v l) m.
Fixpoint same_list (l m : list (fvar T)) : bool :=
  match l, m with
  | [], [] => true
  | v :: l', w :: m' => same_var v w && same_list l' m'
  | _, _ => false
  end.

(** dependence.py 150-156 *)
Fixpoint is_serial (lr : list (list (fvar T) * list (fvar T))) : bool :=
  match lr with
  | (_, r) :: (((l, _) :: _) as rest) => same_set r l && is_serial rest
  | _ => true
  end.

(** dependence.py 168-178: the leafs of the first argument (fields are never empty),
    with which those of the others are compared, and some roots. *)
Definition is_parallel (lr : list (list (fvar T) * list (fvar T))) : bool :=
  match lr with
  | [] => true
  | (l0, _) :: rest =>
      forallb (fun p => match snd p with [] => false | _ => same_list l0 (fst p) end) rest
  end.

Definition roots_list (d : dep) : result (list (fvar T)) :=
  match dp_roots d with Some r => Ok (fd_varlist r) | None => Err AttributeError end.

(** dependence.py 117-185, without explicit dependences. *)
Definition def_deps (stoch : bool) (ds : list dep) : result dep :=
  let nodes := fold_left (@add_node T)
                 (flat_map (fun d => fd_varlist (dp_leafs d)) ds ++ flat_map dp_nodes ds) [] in
  let edges := fold_left add_edge (flat_map dp_edges (rev ds)) [] in
  let! lr := map_res (fun d => let! r := roots_list d in Ok (fd_varlist (dp_leafs d), r)) ds in
  match ds with
  | d0 :: _ :: _ =>
      let dn := last ds d0 in
      if is_serial lr then
        refresh_dep stoch nodes edges (ArchSerial (length ds)) (Some (dp_leafs d0)) (dp_roots dn)
      else if is_parallel lr then
        let! r := new_field stoch (flat_map snd lr) in
        refresh_dep stoch nodes edges (ArchParallel (length ds)) (Some (dp_leafs d0)) (Some r)
      else refresh_dep stoch nodes edges ArchNone None None
  | _ => refresh_dep stoch nodes edges ArchNone None None
  end.

(** The constructor with at least one argument (dependence.py 45-49, 64-118). *)
Definition make_dep (stoch : bool) (args : list darg) : result dep :=
  if existsb (is_dep stoch) args then
    let! _ := assert_ (forallb (is_dep stoch) args) in
    def_deps stoch (flat_map (fun a => match a with ADep d => [d] | _ => [] end) args)
  else
    let! fs := map_res (as_field stoch) args in
    fst (def_fields stoch fs).

(** ** Operators *)

Definition arg_stoch (a : darg) : bool :=
  match a with AVar v => fv_stoch v | AField f => fd_stoch f | ADep d => dp_stoch d end.

(** ops.py 77-97: self | other *)
Definition or_op (a b : darg) : result dep :=
  let stoch := arg_stoch a || arg_stoch b in
  match a, b with
  | ADep d, ADep e =>
      match dp_roots d, dp_roots e with
      | Some _, Some _ => Err ValueError
      | _, _ => make_dep stoch [a; b]
      end
  | _, _ => make_dep stoch [a; b]
  end.

(** ops.py 4-74: self & other, if one of them is a dependence.  With a variable on
    the left the roots are asked for .values() and the stems are added to a
    field, which both fail; without either the field itself is unpacked, so each
    of its variables is an argument. *)
Definition and_dep (a b : darg) : result dep :=
  let stoch := arg_stoch a || arg_stoch b in
  match a, b with
  | ADep _, _ => make_dep stoch [b; a]
  | AField f, ADep d =>
      let! l := new_field stoch (fd_varlist f ++ fd_varlist (dp_leafs d)) in
      make_dep stoch (AField l :: map AVar (od_vals (dp_stems d)) ++
                      match dp_roots d with Some r => [AField r] | None => [] end)%list
  | AVar v, ADep d =>
      (* rv.py 542-564: an RV takes no Dependence that is not an SD *)
      let! _ := if fv_stoch v && negb (dp_stoch d) then Err TypeError else Ok tt in
      let! l := new_field stoch (v :: fd_varlist (dp_leafs d)) in
      match dp_stems d, dp_roots d with
      | _ :: _, _ => Err TypeError
      | [], Some _ => Err AttributeError
      | [], None => make_dep stoch (map AVar (fd_nodes l))
      end
  | _, _ => Err TypeError
  end.

End Dependence.
Arguments dep : clear implicits.
Arguments darg : clear implicits.
