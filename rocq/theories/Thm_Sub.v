(** Property theorems about sub-fields, items and calls of fields (C198-C200). *)
From Coq Require Import String Ascii ZArith Bool Arith Lia List Reals Lra.
From Verif Require Import Base OdLemmas Num RNumLemmas Tensor Names Distr Distr_Spec VariableModel RVModel FieldModel Field_Spec Field_Proofs
  Field_Dims RFModel SubModel Sub_Spec Sub_Proofs Sub_Call.
Import ListNotations.
Local Open Scope list_scope.
Local Open Scope nat_scope.

Local Definition var (i : nat) (s : string) : fvar R :=
  mkFV i s (mkVS (Some VFloat) (Some [Bare (AV (PF 0%R)); Bare (AV (PF 1%R))])) false.
Local Definition abc : field R :=
  match make_field false (AddMany [Some (var 0 "a"); Some (var 1 "b"); Some (var 2 "c")]) with Ok f => f | Err _ => mkFld [] None [] [] false end.

(** C198: the sub-field of some of the names of a field is the field of those
    variables, in the order given. *)
Theorem C198_names :
  forall (f : field R) (l : list string), built f -> (forall v, In v (fd_varlist f) -> fv_stoch v = false) ->
  coherent (fd_varlist f) -> l <> [] -> NoDup l -> incl l (fd_keys f) ->
  exists g, subfield f (VxMany (map (@VtName R) l)) = Ok g /\ fd_keys g = l /\
    forall k, In k l -> od_get (fd_vars g) k = od_get (fd_vars f) k.
Proof. exact (@sub_names R). Qed.
Print Assumptions C198_names.

(** C198: a name that is not a variable's raises KeyError. *)
Theorem C198_unknown :
  forall (f : field R) (k : string), ~ In k (od_keys (fd_vars f)) -> subfield f (VxOne (VtName k)) = Err KeyError.
Proof. exact (@sub_unknown R). Qed.
Print Assumptions C198_unknown.

(** C198 refuted: no list of vertices with a field in it is accepted. *)
Theorem C198_field_refuted :
  forall (f : field R) (l : list (@vertex R)) (g : field R), In (VtField g) l -> exists e, subfield f (VxMany l) = Err e.
Proof. exact (@sub_field R). Qed.
Print Assumptions C198_field_refuted.

(** C198 refuted: a variable that is not a member is accepted. *)
Theorem C198_foreign_refuted :
  forall (f : field R) (v : fvar R), fv_stoch v = false ->
  exists g, subfield f (VxOne (VtVar v)) = Ok g /\ holds g [v].
Proof. exact (@sub_foreign R). Qed.
Print Assumptions C198_foreign_refuted.

(** C198 refuted: a field of random variables has no sub-fields at all. *)
Theorem C198_stochastic_refuted :
  forall (f : field R) (l : list (@vertex R)), (forall v, In v (od_vals (fd_vars f)) -> fv_stoch v = true) -> l <> [] ->
  (forall v, In (VtVar v) l -> fv_stoch v = true) -> exists e, subfield f (VxMany l) = Err e.
Proof. exact (@sub_stoch R). Qed.
Print Assumptions C198_stochastic_refuted.

Example ex_c198 :
  built abc /\ (forall v, In v (fd_varlist abc) -> fv_stoch v = false) /\ coherent (fd_varlist abc) /\
  incl ["c"; "a"]%string (fd_keys abc) /\ NoDup ["c"; "a"]%string /\
  option_map (@fd_keys R) (match subfield abc (VxMany [VtName "c"; VtName "a"]) with Ok g => Some g | Err _ => None end) = Some ["c"; "a"]%string.
Proof.
  split; [left; exists false, (AddMany [Some (var 0 "a"); Some (var 1 "b"); Some (var 2 "c")]); reflexivity|].
  split; [cbn; intuition; subst; reflexivity|]. split; [cbn; intros v w [<-|[<-|[<-|[]]]] [<-|[<-|[<-|[]]]] E; cbn in E; first [discriminate|reflexivity]|].
  split; [intros k; cbn; intuition|]. split; [repeat constructor; cbn; intuition discriminate|]. reflexivity.
Qed.

(** C199: indexing a field by name gives the variable of that name, or None. *)
Theorem C199_name :
  forall (f : field R) (k : string), built f -> f_getitem f (FkStr k) = Ok (od_get (fd_vars f) k).
Proof. exact (@item_name R). Qed.
Print Assumptions C199_name.

(** C199: indexing by position gives the variable at that position, counted from the
    end if negative, or raises IndexError. *)
Theorem C199_index :
  forall (f : field R) (i : Z), built f -> f_getitem f (FkInt i) =
    match py_index (length (fd_varlist f)) i with
    | Some j => match nth_error (fd_varlist f) j with Some v => Ok (Some v) | None => Err IndexError end
    | None => Err IndexError
    end.
Proof. exact (@item_index R). Qed.
Print Assumptions C199_index.

Example ex_c199 :
  f_getitem abc (FkInt (-1)) = Ok (Some (var 2 "c")) /\ f_getitem abc (FkInt 3) = Err IndexError /\
  f_getitem abc (FkStr "b") = Ok (Some (var 1 "b")) /\ f_getitem abc (FkStr "z") = Ok None.
Proof. repeat split. Qed.

(** C200: calling a field with one value for each variable gives a distribution over
    all its variables: numbers without axis, and the values of each array, or arrays
    under a shared key, along an axis of their own. *)
Theorem C200_axes :
  forall (f : field R) (values : odict (fentry R)) (r : nat -> rnd R) (A : string -> tensor (pyval R)),
  nonempty f = true -> map (@fv_name R) (fd_varlist f) = fd_keys f -> covers values (fd_keys f) -> arrays_shared values ->
  fd_keys f <> [] -> (forall k, In k (fd_keys f) -> ~ In k ["attrs"; "prob"; "pscale"]%string) ->
  forallb (@entry_scalar R) (od_vals values) = false ->
  (forall i v, nth_error (fd_varlist f) i = Some v ->
     exists o x, gives values o (fv_name v) x /\ eval_val v x (r i) = Ok (A (fv_name v)) /\
       (shape (A (fv_name v)) = [] <-> dimensionless x = true)) ->
  (forall k, In k (fd_keys f) -> shape (A k) <> [] -> 0 < tsize (A k)) ->
  exists d, f_call f values r = Ok (Some d) /\ d_keylist d = fd_keys f /\ d_ndim d = Some (length (axes values (fd_keys f))) /\
    forall k, In k (fd_keys f) -> shows d values (fd_keys f) A k.
Proof. exact (@call_axes R _). Qed.
Print Assumptions C200_axes.

(** C200: numbers for all variables give a distribution of these numbers without
    axes. *)
Theorem C200_numbers :
  forall (f : field R) (values : odict (fentry R)) (r : nat -> rnd R),
  nonempty f = true -> covers values (fd_keys f) -> fd_keys f <> [] ->
  (forall k, In k (fd_keys f) -> ~ In k ["attrs"; "prob"; "pscale"]%string) ->
  forallb (@entry_scalar R) (od_vals values) = true ->
  exists d, f_call f values r = Ok (Some d) /\ d_keylist d = od_keys values /\
    forall k y, In (k, One (FNum y)) values -> od_get (d_vals d) k = Some (VNum (as_num y)) /\ od_get (d_dims d) k = Some None.
Proof. exact (@call_numbers R _). Qed.
Print Assumptions C200_numbers.

Example ex_c200 :
  let arr := of_list (PF 0%R) [PF 1; PF 2; PF 3]%R in
  let values := [("a", One (FArr arr)); ("b", One (FNum (PF 5))); ("c", One (FArr arr))]%string%R in
  let A := fun k => if String.eqb k "b" then tscalar (PF 5%R) else arr in
  let r := fun _ => mkRnd 0 [] (fun _ => 0%R) in
  nonempty abc = true /\ map (@fv_name R) (fd_varlist abc) = fd_keys abc /\ covers values (fd_keys abc) /\ arrays_shared values /\
  fd_keys abc <> [] /\ (forall k, In k (fd_keys abc) -> ~ In k ["attrs"; "prob"; "pscale"]%string) /\
  forallb (@entry_scalar R) (od_vals values) = false /\
  (forall i v, nth_error (fd_varlist abc) i = Some v ->
     exists o x, gives values o (fv_name v) x /\ eval_val v x (r i) = Ok (A (fv_name v)) /\
       (shape (A (fv_name v)) = [] <-> dimensionless x = true)) /\
  (forall k, In k (fd_keys abc) -> shape (A k) <> [] -> 0 < tsize (A k)) /\ length (axes values (fd_keys abc)) = 2.
Proof.
  cbv zeta. split; [reflexivity|]. split; [reflexivity|]. split; [|split; [|split; [discriminate|split; [cbn; intuition; subst; discriminate|split; [reflexivity|split; [|split; [|reflexivity]]]]]]].
  - split; [repeat constructor; cbn; intuition discriminate|]. split; [cbn; intuition; subst; reflexivity|].
    split; [repeat constructor; cbn; intuition discriminate|]. split; [cbn; intuition|].
    intros o e I. cbn in I. destruct I as [I|[I|[I|[]]]]; inversion I; subst; reflexivity.
  - intros o k x [[-> [S H]]|[S [i [l [I [H1 H2]]]]]] S'; [congruence|]. cbn in I.
    destruct I as [I|[I|[I|[]]]]; inversion I.
  - intros i v H. destruct i as [|[|[|i]]]; cbn in H; [| | |destruct i; discriminate]; injection H as <-; cbn [fv_name var String.eqb].
    + eexists "a"%string, _. split; [left; split; [reflexivity|split; [reflexivity|left; reflexivity]]|]. split; [reflexivity|]. cbn. split; discriminate.
    + eexists "b"%string, _. split; [left; split; [reflexivity|split; [reflexivity|right; left; reflexivity]]|]. split; [reflexivity|]. split; reflexivity.
    + eexists "c"%string, _. split; [left; split; [reflexivity|split; [reflexivity|right; right; left; reflexivity]]|]. split; [reflexivity|]. cbn. split; discriminate.
  - intros k [<-|[<-|[<-|[]]]] S; cbn in *; unfold tsize; cbn; first [lia|congruence].
Qed.
