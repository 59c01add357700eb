(** Further proofs about variables: arguments that are refused or ignored. *)
From Coq Require Import String ZArith Reals Lra Lia Bool Arith List Permutation.
From Verif Require Import Base Num RNumLemmas Likelihoods VariableModel Var_Spec Var_Proofs Var_Delta.
Import ListNotations.
Local Open Scope R_scope.

(** ** Perturbations *)

Lemma v_true_zero z : num z = 0 -> v_true (T := R) z = false.
Proof. intros H. unfold v_true. rewrite as_num_num, H, (proj2 (Reqb_iff 0 n0)); reflexivity. Qed.

Lemma zero_delta_default s u dc scalar values z bound r : num z = 0 ->
  apply_delta (T := R) s u dc scalar values (DScal z) bound r = apply_delta s u dc scalar values DNone bound r.
Proof. intros H. unfold apply_delta. cbn [delta_or]. rewrite v_true_zero by auto. reflexivity. Qed.

(** On a float variable with default d the zero perturbation moves by d. *)
Lemma zero_delta_moves e0 e1 d scale (xs : list R) z scalar r : num z = 0 ->
  apply_delta (interval e0 e1) None (mkDC (DScal (PF d)) scale false) scalar (map PF xs) (DScal z) None r
  = Ok (map (fun x => PF (x + d)) xs).
Proof.
  intros H. rewrite zero_delta_default by auto. unfold apply_delta. cbn.
  rewrite !map_map. reflexivity.
Qed.

(** A bool variable is flipped by odd numbers. *)
Lemma bool_parity vals u dc scalar (bs : list bool) k r : k <> 0%Z ->
  apply_delta (discrete VBool vals) u dc scalar (map PB bs) (DScal (PI k)) (Some false) r
  = Ok (map (fun b => PB (xorb b (Z.odd k))) bs).
Proof.
  intros H. unfold apply_delta. cbn [discrete vs_vtype delta_or].
  assert (TV : v_true (T := R) (PI k) = true).
  { unfold v_true. cbn [as_num]. rewrite (proj2 (Reqb_false_iff (IZR k) n0)); auto.
    intros E. apply (eq_IZR k 0) in E. auto. }
  rewrite TV. cbn [bind]. rewrite !map_map. f_equal. apply map_ext. intros b. unfold revtype. cbn [vtype_of vtype_eqb].
  f_equal. rewrite Z.odd_add. destruct b; reflexivity.
Qed.

(** A tuple flips it unless the number drawn lies between one half and the given
    probability. *)
Lemma bool_tuple vals u dc scalar (bs : list bool) p r :
  apply_delta (discrete VBool vals) u dc scalar (map PB bs) (DTup [PF p]) (Some false) r
  = Ok (map (fun b => PB (if Rlt_dec (1 / 2) (d_unif r 0) then
                            if Rlt_dec (d_unif r 0) p then b else negb b else negb b)) bs).
Proof.
  unfold apply_delta. cbn [discrete vs_vtype delta_or bind as_num]. rewrite !map_map. f_equal. apply map_ext. intros b.
  unfold revtype.
  assert (E : (n_ltb (d_unif r 0) p && n_ltb (n_div n1 (n_ofZ 2)) (d_unif r 0))%bool =
              (if Rlt_dec (1 / 2) (d_unif r 0) then if Rlt_dec (d_unif r 0) p then true else false else false)).
  { change (n_div n1 (n_ofZ 2)) with (1 / 2). apply eq_true_iff_eq. rewrite andb_true_iff, !Rltb_iff.
    destruct (Rlt_dec (1 / 2) (d_unif r 0)), (Rlt_dec (d_unif r 0) p); intuition discriminate. }
  assert (TT : v_true (T := R) (PB true) = true).
  { unfold v_true. cbn [as_num]. rewrite (proj2 (Reqb_false_iff n1 n0)); auto. exact R1_neq_R0. }
  assert (TF : v_true (T := R) (PB false) = false).
  { unfold v_true. cbn [as_num]. rewrite Reqb_refl. reflexivity. }
  rewrite E. destruct (Rlt_dec (1 / 2) (d_unif r 0)), (Rlt_dec (d_unif r 0) p); destruct b; cbn [vtype_of vtype_eqb];
    rewrite ?TT, ?TF; reflexivity.
Qed.

(** The ranges of random perturbations. *)
Lemma eval_tuple s u dc d r : vs_vtype s = Some VFloat -> dc_delta dc = DNone ->
  exists x, eval_delta (T := R) s u dc (DTup [PF d]) r = Ok (DDelta (PF x)) /\
    x = (if Rlt_dec (1 / 2) (d_unif r 0) then d else - d).
Proof.
  intros E D. unfold eval_delta. rewrite E. cbn [delta_or bind]. rewrite D. cbn [same_delta andb].
  change (n_div n1 (n_ofZ 2)) with (1 / 2).
  destruct (n_ltb (1 / 2) (d_unif r 0)) eqn:B.
  - apply Rltb_iff in B. exists d. split; auto. destruct (Rlt_dec _ _); [auto|lra].
  - apply Rltb_false_iff in B. cbn [v_neg bind same_delta]. eexists. split; [reflexivity|].
    rewrite n_opp_R. destruct (Rlt_dec _ _); [lra|auto].
Qed.

Lemma eval_list_float s u dc d r : vs_vtype s = Some VFloat -> dc_delta dc = DNone ->
  0 < d -> 0 <= d_unif r 0 < 1 ->
  exists x, eval_delta (T := R) s u dc (DList [PF d]) r = Ok (DDelta (PF x)) /\ - d <= x < d.
Proof.
  intros E D P U. unfold eval_delta. rewrite E. cbn [delta_or bind]. rewrite D. cbn [same_delta andb].
  eexists. split; [reflexivity|]. cbn [as_num]. rewrite !n_opp_R. cbn. split; nra.
Qed.

Lemma eval_list_int s u dc d r : vs_vtype s = Some VInt -> dc_delta dc = DNone -> d <> 0%Z ->
  eval_delta (T := R) s u dc (DList [PI d]) r = if (0 <? d)%Z then Ok (DDelta (PI (d_int r))) else Err ValueError.
Proof.
  intros E D P. unfold eval_delta. rewrite E. cbn [delta_or]. rewrite D. cbn [v_neg z_of].
  destruct (Z.ltb_spec (- d) d), (Z.ltb_spec 0 d); cbn [bind same_delta andb]; auto; lia.
Qed.

(** The scale flag makes no difference to apply_delta with the default. *)
Lemma scale_ignored s u d b scalar values bound r : (forall v, d <> DDelta v) ->
  apply_delta (T := R) s u (mkDC d true b) scalar values DNone bound r =
  apply_delta s u (mkDC d false b) scalar values DNone bound r.
Proof.
  intros ND. unfold apply_delta. cbn [delta_or dc_delta dc_bound].
  assert (E : match (match vs_vtype s with Some VBool => true | _ => false end), d with
              | false, DList _ | false, DTup _ | false, DDelta _ => eval_delta s u (mkDC d true b) d r
              | _, _ => Ok d end =
              match (match vs_vtype s with Some VBool => true | _ => false end), d with
              | false, DList _ | false, DTup _ | false, DDelta _ => eval_delta s u (mkDC d false b) d r
              | _, _ => Ok d end).
  { destruct (match vs_vtype s with Some VBool => true | _ => false end); auto.
    destruct d as [|v|l|l|v]; auto; try (destruct (ND v eq_refl)); unfold eval_delta; cbn [dc_delta delta_or];
      destruct l as [|v [|]]; auto; cbn [dc_delta same_delta andb dc_scale]. }
  rewrite E. reflexivity.
Qed.

(** ** Construction *)

Lemma no_name vset vt : make_variable (T := R) None vset vt = Err ValueError.
Proof. reflexivity. Qed.

Lemma variables_by_type names t : names <> [] -> exists e, variables (T := R) names (AType t) ANone = Err e.
Proof.
  intros NE. destruct names as [|nm names]; [congruence|]. unfold variables. cbn [map_res].
  unfold make_variable, set_name. destruct (valid_name nm); cbn; eauto.
Qed.

Lemma array_refused nm v w l vt : is_container vt = false ->
  exists e, make_variable (T := R) nm (AArray (v :: w :: l)) vt = Err e.
Proof.
  intros C. unfold make_variable. destruct (set_name nm); cbn [bind]; [|eauto]. rewrite C.
  unfold init_state. cbn [truth]. destruct (truth vt) as [[|]|]; eauto.
  destruct (set_vtype new_state vt) as [s [|]]; cbn [seq_state]; eauto.
Qed.

(** A refused set is nevertheless stored. *)
Lemma refused_set_stored e0 e1 xs : length xs <> 2%nat ->
  set_vset (interval e0 e1) (AList (map (fun x => Bare (AV (PF x))) xs)) =
  (mkVS (Some VFloat) (Some (map (fun x : R => Bare (AV (PF x))) xs)), Err AssertionError).
Proof.
  intros L. unfold set_vset. cbn [interval vs_vtype].
  assert (CL : cast_loop (T := R) (Some VFloat) (Some VFloat) (map (fun x => Bare (AV (PF x))) xs) =
               Ok (map (fun x => Bare (AV (PF x))) xs, Some VFloat)).
  { clear L. induction xs as [|x xs IH]; auto. cbn. cbn in IH. rewrite IH. reflexivity. }
  rewrite CL. cbn [eval_vlims]. destruct xs as [|x [|y [|z xs]]]; try reflexivity. cbn in L. congruence.
Qed.

(** Changing the type afterwards leaves the set as it was. *)
Lemma retype_breaks (s : vstate R) t0 l t v e : vs_vtype s = Some t0 -> vs_vset s = Some l -> Forall (typed t0) l ->
  In e l -> atom_of e = AV v -> t <> t0 ->
  exists s', set_vtype s (AType t) = (s', Ok tt) /\ vs_vset s' = Some l /\ ~ well_made s'.
Proof.
  intros T0 L F I E NE. unfold set_vtype. rewrite L. cbn. eexists. split; [reflexivity|]. split; [auto|].
  intros (t1 & l1 & A & B & C & _). cbn in A, B. inversion A; subst. inversion B; subst.
  rewrite Forall_forall in *. specialize (F e I). specialize (C e I). unfold typed in *. rewrite E in *. congruence.
Qed.

(** ** Length *)

Lemma ln_lt_id (x : R) : 0 < x -> ln x < x.
Proof.
  intros H. pose proof (exp_ineq1_le (ln x)) as E. rewrite exp_ln in E by auto. lra.
Qed.

Lemma lhv_not_log s u len : vlength (T := R) s u = Ok (Some len) -> 0 < num len ->
  exists x, lhv s u = Ok (Some x) /\ num x <> ln (num len).
Proof. intros H P. exists len. split; auto. pose proof (ln_lt_id _ P). lra. Qed.
