(** Proofs about sub-fields, items and calls of fields. *)
From Coq Require Import String Ascii ZArith Bool Arith Lia List.
From Verif Require Import Base OdLemmas TensorLemmas Num Tensor Names Distr Distr_Spec Distr_Proofs VariableModel RVModel FieldModel Field_Spec
  Field_Proofs Field_Dims RFModel SubModel.
Import ListNotations.
Local Open Scope nat_scope.
Local Open Scope list_scope.

Section P.
Context {T : Type} {N : Num T} {F : Fmt T} {TR : Trunc T}.
Implicit Types (f g : field T) (v : fvar T).

(** ** subfield *)

Lemma field_of_ok (vs : list (fvar T)) : vs <> [] -> distinct_objects vs -> distinct_names vs ->
  (forall v, In v vs -> fv_stoch v = false) -> exists g, field_of vs = Ok g /\ holds g vs.
Proof.
  intros NE D1 D2 NS. unfold field_of. destruct vs as [|v [|w vs]]; [congruence| |].
  - unfold make_field, add_var. cbn. unfold refresh. cbn. rewrite (NS v) by (left; reflexivity). cbn. eexists. split; [reflexivity|].
    unfold holds, fd_varlist. cbn. auto.
  - destruct (@construct T false (v :: w :: vs) NE D1 D2 NS) as (g & E & H & _). exists g. auto.
Qed.

Lemma vertices_names f l : (forall k, In k l -> exists v, od_get (fd_vars f) k = Some v) ->
  exists vs, map_res (vertex_var f) (map (@VtName T) l) = Ok vs /\ Forall2 (fun k v => od_get (fd_vars f) k = Some v) l vs.
Proof.
  induction l as [|k l IH]; intros H.
  - exists []. split; [reflexivity|constructor].
  - destruct (H k (or_introl eq_refl)) as (v & G). destruct IH as (vs & E & FA); [intros j I; apply H; right; exact I|].
    exists (v :: vs). split; [|constructor; [exact G|exact FA]]. cbn [map map_res vertex_var].
    unfold od_getR. rewrite G. cbn [bind]. rewrite E. reflexivity.
Qed.

Lemma sub_names f l : built f -> (forall v, In v (fd_varlist f) -> fv_stoch v = false) -> coherent (fd_varlist f) ->
  l <> [] -> NoDup l -> incl l (fd_keys f) ->
  exists g, subfield f (VxMany (map (@VtName T) l)) = Ok g /\ fd_keys g = l /\
    forall k, In k l -> od_get (fd_vars g) k = od_get (fd_vars f) k.
Proof.
  intros B NS CO NE ND IN. destruct (built_vars B) as (E1 & E2 & _).
  assert (OK : named_ok (fd_vars f)) by (rewrite E1; apply vars_of_named).
  destruct (vertices_names f l) as (vs & E & FA).
  { intros k I. apply od_key_get. rewrite <- E2. apply IN. exact I. }
  assert (NM : map (@fv_name T) vs = l).
  { clear -FA OK. induction FA as [|k v l vs G _ IH]; [reflexivity|]. cbn. f_equal; [|exact IH].
    apply OK. apply od_get_in. exact G. }
  assert (VI : forall v, In v vs -> In v (fd_varlist f)).
  { intros v I. clear -FA I. induction FA as [|k w l vs G _ IH]; [destruct I|]. destruct I as [->|I]; [|apply IH; exact I].
    apply od_get_in in G. unfold fd_varlist, od_vals. apply in_map_iff. exists (k, v). auto. }
  destruct (field_of_ok vs) as (g & G & H1 & H2 & H3).
  - intros ->. inversion FA. subst. congruence.
  - unfold distinct_objects.
    assert (D : forall ws : list (fvar T), NoDup (map (@fv_name T) ws) -> (forall v, In v ws -> In v (fd_varlist f)) -> NoDup (map (@fv_id T) ws)).
    { induction ws as [|w ws IH]; intros D I; [constructor|]. cbn in *. inversion D as [|? ? NI D']; subst. constructor.
      - intros J. apply in_map_iff in J. destruct J as (w' & Q & J). apply NI.
        assert (w' = w) by (apply CO; [apply I; right; exact J|apply I; left; reflexivity|exact Q]). subst w'. apply in_map. exact J.
      - apply IH; [exact D'|]. intros v J. apply I. right. exact J. }
    apply D; [rewrite NM; exact ND|exact VI].
  - unfold distinct_names. rewrite NM. exact ND.
  - intros v I. apply NS, VI, I.
  - exists g. unfold subfield. rewrite E. cbn [bind]. split; [exact G|]. split; [congruence|].
    intros k I. rewrite H3.
    assert (X : exists v, In v vs /\ od_get (fd_vars f) k = Some v).
    { clear -FA I. induction FA as [|j w l vs G _ IH]; [destruct I|]. destruct I as [->|I]; [exists w; split; [left; reflexivity|exact G]|].
      destruct (IH I) as (v & J & G'). exists v. split; [right; exact J|exact G']. }
    destruct X as (v & J & GV). rewrite GV. assert (NV : fv_name v = k) by (apply OK, od_get_in, GV).
    apply od_in_get.
    + unfold od_keys. rewrite map_map. cbn [fst]. change (NoDup (map (@fv_name T) vs)). rewrite NM. exact ND.
    + apply in_map_iff. exists v. rewrite NV. auto.
Qed.

Lemma sub_unknown f k : ~ In k (od_keys (fd_vars f)) -> subfield f (VxOne (VtName k)) = Err KeyError.
Proof.
  intros NI. unfold subfield. cbn [map_res vertex_var]. unfold od_getR. rewrite (proj2 (od_get_none _ _) NI). reflexivity.
Qed.

Lemma sub_field f l g : In (VtField g) l -> exists e, subfield f (VxMany l) = Err e.
Proof.
  intros I. unfold subfield. destruct (map_res (vertex_var f) l) as [vs|e] eqn:E; [|exists e; reflexivity]. exfalso.
  apply map_res_ok in E. induction E as [|x v l vs H _ IH]; [destruct I|]. destruct I as [->|I]; [discriminate|apply IH; exact I].
Qed.

Lemma sub_field_alone f g : subfield f (VxOne (VtField g)) = Err AttributeError.
Proof. reflexivity. Qed.

Lemma sub_foreign f v : fv_stoch v = false -> exists g, subfield f (VxOne (VtVar v)) = Ok g /\ holds g [v].
Proof.
  intros NS. unfold subfield. cbn [map_res vertex_var bind]. apply field_of_ok; [discriminate| | |].
  - repeat constructor. intros [].
  - repeat constructor. intros [].
  - intros w [<-|[]]. exact NS.
Qed.

(* A Field never holds a stochastic variable. *)
Lemma field_of_stoch (vs : list (fvar T)) : vs <> [] -> (forall v, In v vs -> fv_stoch v = true) -> exists e, field_of vs = Err e.
Proof.
  intros NE ST. destruct (field_of vs) as [g0|e] eqn:E; [|exists e; reflexivity]. exfalso. revert E. unfold field_of.
  assert (X : forall ws : list (fvar T), ws <> [] -> (forall v, In v ws -> fv_stoch v = true) -> forall g,
     refresh (mkFld ws None [] [] false) = (g, Ok tt) -> False).
  { intros ws NW SW g. unfold refresh. cbn [fd_nodes fd_stoch orb].
    assert (EX : existsb (fun v => fv_stoch v) (od_vals (vars_of ws)) = true).
    { apply existsb_exists. destruct ws as [|w ws]; [congruence|].
      destruct (vars_of_named (w :: ws)) as (NO & IN).
      assert (NZ : od_vals (vars_of (w :: ws)) <> []).
      { assert (Z : forall (l : odict (fvar T)) acc, acc <> [] -> od_update acc l <> []).
        { induction l as [|[k x] l IH]; intros acc H; [exact H|]. apply IH. destruct acc as [|[k' x'] acc]; [congruence|].
          cbn. destruct (String.eqb k k'); discriminate. }
        intros Q. apply (Z (map (fun v => (fv_name v, v)) ws) [(fv_name w, w)]); [discriminate|].
        apply map_eq_nil in Q. exact Q. }
      destruct (od_vals (vars_of (w :: ws))) as [|u us] eqn:EU; [congruence|]. exists u. split; [left; reflexivity|].
      apply SW, IN. left. reflexivity. }
    rewrite EX. discriminate. }
  destruct vs as [|v [|w vs]]; [congruence| |].
  - unfold make_field, add_var. cbn [add_loop add_body nonempty fd_nvars andb fd_nodes fd_vars fd_keys fd_stoch add_node mem_var existsb app].
    destruct (refresh _) as [h [[]|e]] eqn:ER; [|discriminate]. intros _. eapply X; [| |exact ER]; [discriminate|exact ST].
  - rewrite make_many_nodes by discriminate.
    destruct (refresh _) as [h [[]|e]] eqn:ER; [|discriminate]. intros _. eapply X; [| |exact ER].
    + intros Q. pose proof (@fold_add_in T (v :: w :: vs) [] v (or_introl eq_refl)) as M. rewrite Q in M. discriminate.
    + intros u I. apply ST. clear -I.
      assert (Y : forall l acc, In u (fold_left add_node l acc) -> In u acc \/ In u l).
      { induction l as [|x l IH]; intros acc J; [left; exact J|]. cbn [fold_left] in J. apply IH in J. destruct J as [J|J]; [|right; right; exact J].
        unfold add_node in J. destruct (mem_var x acc); [left; exact J|]. apply in_app_iff in J. destruct J as [J|[->|[]]]; [left; exact J|right; left; reflexivity]. }
      destruct (Y _ _ I) as [[]|J]. exact J.
Qed.

Lemma sub_stoch f l : (forall v, In v (od_vals (fd_vars f)) -> fv_stoch v = true) -> l <> [] ->
  (forall v, In (VtVar v) l -> fv_stoch v = true) -> exists e, subfield f (VxMany l) = Err e.
Proof.
  intros ST NE SV. unfold subfield. destruct (map_res (vertex_var f) l) as [vs|e] eqn:E; [|exists e; reflexivity]. cbn [bind].
  apply map_res_ok in E. apply field_of_stoch.
  - intros ->. inversion E. subst. congruence.
  - intros v I. clear NE. induction E as [|x w l vs H _ IH]; [destruct I|]. destruct I as [->|I]; [|apply IH; [intros u J; apply SV; right; exact J|exact I]].
    destruct x as [k|u|g|]; try discriminate.
    + apply ST. cbn in H. apply od_getR_ok in H. apply od_get_in in H. unfold od_vals. apply in_map_iff. exists (k, v). auto.
    + injection H as ->. apply SV. left. reflexivity.
Qed.

(** ** Items *)

Lemma item_name f k : built f ->
  f_getitem f (FkStr k) = Ok (od_get (fd_vars f) k).
Proof.
  intros B. destruct (built_vars B) as (_ & K & _). cbn [f_getitem]. destruct (mem_str k (fd_keys f)) eqn:M.
  - apply mem_str_iff in M. rewrite K in M. apply od_key_get in M. destruct M as (v & G). unfold od_getR. rewrite G. reflexivity.
  - apply mem_str_false in M. rewrite K in M. apply od_get_none in M. rewrite M. reflexivity.
Qed.

Lemma item_index f i : built f -> f_getitem f (FkInt i) =
  match py_index (length (fd_varlist f)) i with
  | Some j => match nth_error (fd_varlist f) j with Some v => Ok (Some v) | None => Err IndexError end
  | None => Err IndexError
  end.
Proof.
  intros B. destruct (built_vars B) as (E1 & K & _).
  assert (OK : named_ok (fd_vars f)) by (rewrite E1; apply vars_of_named).
  assert (L : length (fd_varlist f) = length (fd_keys f)) by (rewrite K; unfold fd_varlist, od_vals, od_keys; rewrite !map_length; reflexivity).
  cbn [f_getitem]. rewrite L. destruct (py_index _ i) as [j|]; [|reflexivity].
  unfold fd_varlist, od_vals. rewrite K. unfold od_keys at 1. rewrite !nth_error_map.
  destruct (nth_error (fd_vars f) j) as [[k v]|] eqn:NJ; cbn [option_map fst snd]; [|reflexivity].
  assert (I : In (k, v) (fd_vars f)) by (eapply nth_error_In; eauto).
  assert (M : mem_str k (od_keys (fd_vars f)) = true) by (apply mem_str_iff; unfold od_keys; apply in_map_iff; exists (k, v); auto).
  rewrite M. unfold od_getR. rewrite (od_in_get _ _ _ (proj1 OK) I). reflexivity.
Qed.

End P.
