(** Property theorems about the lists that variables share (C237). *)
From Coq Require Import String ZArith Reals Lra Lia Bool Arith List.
From Verif Require Import Base Num RNumLemmas VariableModel Var_Spec Var_Proofs AliasModel Alias_Spec Alias_Proofs.
Import ListNotations.

(** C237: assigning a list as a set does to x.vset, to x.vtype and by way of exceptions
    what VariableModel says of the list as it is when it is assigned. *)
Theorem C237_assigned :
  forall (h h' : heap) (v v' : avar R) a e, a < length h -> av_at v <> Some a -> assign_list h v a = (h', v', e) ->
  set_vset (state_of h v) (AList (read h a)) = (state_of h' v', match e with None => Ok tt | Some x => Err x end).
Proof. exact (fun h h' v v' a e L NS H => @assign_refines h v a h' v' e L NS H). Qed.
Print Assumptions C237_assigned.

(** C237 (false of the code): assigning a list as a set changes the list given: its elements
    are converted to the type of the variable, all of them if nothing is raised or the
    variable has a type, and otherwise those before the one that raised. *)
Theorem C237_given_refuted :
  forall (h h' : heap) (v v' : avar R) a e, a < length h -> assign_list h v a = (h', v', e) ->
  exists t k, read h' a = (map (converted t) (firstn k (read h a)) ++ skipn k (read h a))%list /\
    (forall t', av_type v = Some t' -> t = t' /\ k = length (read h a)) /\
    (e = None -> k = length (read h a) /\ av_type v' = Some t).
Proof. exact (fun h h' v v' a e => @given h v a h' v' e). Qed.
Print Assumptions C237_given_refuted.

(** C237: over any program, the set and the type of a variable stay what they are unless it
    is given another set or its list is edited or given to a variable as its set. *)
Theorem C237_independent :
  forall (w : world R) p i a v, nth_error (w_vars w) i = Some v -> av_at v = Some a -> a < length (w_heap w) -> leaves_alone w p i a ->
  nth_error (w_vars (program w p)) i = Some v /\ vset_of (program w p) i = vset_of w i.
Proof. exact independent. Qed.
Print Assumptions C237_independent.

(** C237: a variable made with a set that is no list (set, tuple, range or array) shares its
    list with no other variable and with no default. *)
Theorem C237_fresh :
  forall (w w' : world R) t g, reachable w -> do_act w (New t (FromOther g)) = (w', None) ->
  exists v a, nth_error (w_vars w') (length (w_vars w)) = Some v /\ av_at v = Some a /\ a < length (w_heap w') /\
    (forall t', a <> default_at t') /\ forall j, j <> length (w_vars w) -> ~ holds w' j a.
Proof. exact (fun w w' t g => @fresh w t g w'). Qed.
Print Assumptions C237_fresh.

(** C237 (false of the code): giving the set of x to a discrete variable y of another type
    converts the elements of the set of x, so that none of them is of the type of x. *)
Theorem C237_shared_refuted :
  forall (w : world R) i j x y a t t' vals, i <> j -> a < length (w_heap w) ->
  nth_error (w_vars w) i = Some x -> nth_error (w_vars w) j = Some y -> av_at x = Some a -> read (w_heap w) a = numbers vals -> vals <> [] ->
  av_type x = Some t -> av_type y = Some t' -> t' <> VFloat ->
  exists w', do_act w (Assign j (FromVar i)) = (w', None) /\ nth_error (w_vars w') i = Some x /\
    vset_of w' i = Some (numbers (map (cast t') vals)) /\ vset_of w' j = Some (numbers (map (cast t') vals)) /\
    forall z, In z (map (cast t') vals) -> vtype_of z = t'.
Proof. exact (fun w i j x y a t t' vals => @shared w i j x y a t t' vals). Qed.
Print Assumptions C237_shared_refuted.

(** C237 (false of the code): discrete variables made without a set have the default list
    itself, so that editing x.vset edits the sets of all others of that type, and the sets
    of those yet to be made. *)
Theorem C237_default_refuted :
  (forall (w w' : world R) t, do_act w (New (Some t) FromNone) = (w', None) -> t <> VFloat -> holds w' (length (w_vars w)) (default_at t)) /\
  (forall (w : world R) i x t vals, 3 <= length (w_heap w) -> nth_error (w_vars w) i = Some x -> av_at x = Some (default_at t) ->
     t <> VFloat -> vals <> [] ->
     exists w' w'', do_act w (EditVset i (numbers vals)) = (w', None) /\ do_act w' (New (Some t) FromNone) = (w'', None) /\
       (forall j, holds w j (default_at t) -> vset_of w' j = Some (numbers vals)) /\
       vset_of w'' (length (w_vars w)) = Some (numbers (map (cast t) vals))).
Proof. exact (conj (fun w w' t => @made_default w t w') default_shared). Qed.
Print Assumptions C237_default_refuted.

(** C237 (false of the code): editing x.vset in place changes the set but not the length of
    the variable, which stays the number of members of the set that was assigned. *)
Theorem C237_outdated_refuted :
  forall (w w1 w2 : world R) i s l1 l2, reachable w -> known w (Assign i s) -> do_act w (Assign i s) = (w1, None) -> vset_of w1 i = Some l1 ->
  do_act w1 (EditVset i l2) = (w2, None) -> vset_of w2 i = Some l2 /\ length_of w1 i = length_of w2 i /\
  (forall v, nth_error (w_vars w2) i = Some v -> av_type v = Some VInt -> length_of w2 i = Ok (Some (PI (Z.of_nat (length l1))))).
Proof. exact (fun w w1 w2 i s l1 l2 => @edited w i s w1 l1 l2 w2). Qed.
Print Assumptions C237_outdated_refuted.

(** x is a bool and n an integer variable, both with default sets; a list l is made and
    given to n; then the set of x is given to n. *)
Local Definition w2 : world R := program start [New None FromNone; New (Some VInt) FromNone; MakeList (numbers [PI 3; PI 4])].

Local Lemma true_bool b : v_true (PB b : pyval R) = b.
Proof.
  unfold v_true. destruct b; match goal with |- negb ?c = _ => destruct c eqn:H end; try reflexivity.
  - apply Reqb_iff in H. exfalso. exact (R1_neq_R0 H).
  - exfalso. assert (E : as_num (PB false : pyval R) = n0) by reflexivity. apply Reqb_iff in E. congruence.
Qed.

Example C237_instance_shared : reachable w2 /\
  exists x y, nth_error (w_vars w2) 0 = Some x /\ nth_error (w_vars w2) 1 = Some y /\ av_at x = Some 0 /\
    read (w_heap w2) 0 = numbers [PB false; PB true] /\ av_type x = Some VBool /\ av_type y = Some VInt /\
    snd (do_act w2 (Assign 1 (FromList 3))) = None /\ known w2 (Assign 1 (FromList 3)) /\
    leaves_alone w2 [Assign 1 (FromList 3); EditVset 1 (numbers [PI 1]); Edit 3 []] 0 0.
Proof.
  split.
  - apply (@reach_act (program start [New None FromNone; New (Some VInt) FromNone]) (MakeList _)); [|exact I].
    apply (@reach_act (program start [New None FromNone]) (New (Some VInt) FromNone)); [|exact I]. apply (@reach_act start (New None FromNone)); [apply reach_start|exact I].
  - do 2 eexists. do 3 (split; [reflexivity|]). split; [cbn; rewrite !true_bool; reflexivity|]. do 3 (split; [reflexivity|]). split; [cbn; repeat constructor|].
    split; [intros (v & _ & H); discriminate H|]. split; [intros (s & H); discriminate H|].
    split; [intros (v & E & H); cbn in E; injection E as <-; discriminate H|]. split; [intros (s & H); discriminate H|].
    split; [intros H; discriminate H|]. split; [intros (s & H); discriminate H|exact I].
Qed.

Example C237_instance_fresh : exists w', reachable start /\ do_act start (New (Some VInt) (FromOther (ASet [AV (PI 7); AV (PI 5)]))) = (w', None).
Proof.
  eexists. split; [apply reach_start|]. unfold do_act, assign_source, new_list. cbn [source_at sort_atoms fold_left ins_atom].
  destruct (atom_ltb (AV (PI 5)) (AV (PI 7 : pyval R))); reflexivity.
Qed.
