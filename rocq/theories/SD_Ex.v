(** Consequences and examples for the theorems about dependences. *)
From Coq Require Import String Ascii ZArith QArith Reals Lra Bool Arith Lia List.
From Verif Require Import Base Num Tensor TensorLemmas TensorBcast OdLemmas RNumLemmas PScales PScales_Spec Names Distr PDModel PD_Spec
  PD_Examples PD_ProductEx VariableModel Var_Spec RVModel RV_Spec FieldModel Field_Spec RFModel RF_Spec RF_Thm PScales_Proofs PD_Make PDUtils PD_Product_Spec Names_Spec LookupModel SDModel SD_Spec SD_Thm.
Import ListNotations.
Local Close Scope Q_scope.
Local Open Scope R_scope.

(** Without a function of its own the result is the leafs' distribution only where
    the roots have probability one. *)
Lemma default_iff (F : Fmt R) (TR : Trunc R) (leafs roots : list (rv R)) values x a r A :
  printable F -> leafs <> [] -> named_apart (names_of (leafs ++ roots)) -> scales_ok (leafs ++ roots) -> callable_all (leafs ++ roots) ->
  NoDup (od_keys values) -> incl (od_keys values) (names_of (leafs ++ roots)) ->
  (forall i v, nth_error (leafs ++ roots) i = Some v -> evaluates v values (x i) (a i) (r i) (A i)) ->
  let L := filter (needs_axis values) (names_of (leafs ++ roots)) in
  exists d0 p vals ownl ownr, make_sd leafs roots None = Ok d0 /\ sd_call d0 values NoIid r = Ok (p, vals) /\
    length ownl = length leafs /\ all_own values (leafs ++ roots) a r (ownl ++ ownr) /\
    valid_pd p L /\ od_keys (p_marg p) = names_of leafs /\ od_keys (p_cond p) = names_of roots /\
    forall s, in_bounds p L s -> floored values (leafs ++ roots) (ownl ++ ownr) s ->
      prob_at p L s = joint_of values leafs ownl s * joint_of values roots ownr s /\
      (prob_at p L s = joint_of values leafs ownl s <-> joint_of values roots ownr s = 1 \/ joint_of values leafs ownl s = 0).
Proof.
  intros PR NL NA SC CA ND IN HE L.
  destruct (call_default leafs roots values x a r A PR NL NA ND IN HE CA SC) as (d0 & p & vals & ownl & ownr & E1 & E2 & E3 & E4 & E5 & E6 & E7 & E8).
  exists d0, p, vals, ownl, ownr. repeat (split; [assumption|]). intros s IB FL. pose proof (E8 s IB FL) as E9. fold L in E9. rewrite E9. split; [reflexivity|].
  generalize (joint_of values leafs ownl s). generalize (joint_of values roots ownr s). intros y z. split.
  - intros H. destruct (Req_dec z 0) as [Z|Z]; [right; exact Z|left]. apply (Rmult_eq_reg_l z); lra.
  - intros [-> | ->]; lra.
Qed.

(** *** A function built from numpy operations *)
Definition ufunc (names : list string) (h : list (pyval R) -> R) : probfun R := fun vals _ =>
  let! arrs := map_res (od_getR vals) names in
  let! s := bcast_all (map shape arrs) in
  Ok (mkT s (fun idx => h (map (fun a => get a (bcast_idx (shape a) idx)) arrs))).

Lemma ufunc_elementwise names h : elementwise names h (ufunc names h).
Proof.
  intros vals dims shapes s H B. unfold ufunc.
  assert (E : map_res (od_getR vals) names = Ok (map (fun k => match od_get vals k with Some a => a | None => tscalar (PF 0) end) names) /\
    map shape (map (fun k => match od_get vals k with Some a => a | None => tscalar (PF 0) end) names) = shapes).
  { clear B. induction H as [|k sh names shapes (a & G & S) H [IH1 IH2]]; [split; reflexivity|]. cbn [map_res map].
    unfold od_getR at 1. rewrite G. cbn [bind]. rewrite IH1. cbn [bind]. split; [reflexivity|]. cbn [map]. rewrite IH2, S. reflexivity. }
  destruct E as [E1 E2]. rewrite E1. cbn [bind]. rewrite E2, B. cbn [bind]. eexists. split; [reflexivity|]. split; [reflexivity|].
  intros idx _. cbn [get]. rewrite map_map. f_equal. apply map_ext_in. intros k I. unfold value_at.
  assert (G : exists a, od_get vals k = Some a).
  { clear -H I. induction H as [|k0 sh names shapes (a & G & _) H IH]; [destruct I|]. destruct I as [<- |I]; [eauto|auto]. }
  destruct G as (a & ->). reflexivity.
Qed.

(** *** The die given the coin *)
Definition ex_given : odict (fentry R) := [("d", One FNone); ("c", One (FArr (of_list (PF 0) [PB false; PB true])))]%string.
Definition ex_all : odict (fentry R) := [("d", One FNone); ("c", One FNone)]%string.
Definition ex_x (i : nat) : fval R := if (i =? 0)%nat then FNone else FArr (of_list (PF 0) [PB false; PB true]).
Definition ex_a (i : nat) : values_in R := if (i =? 0)%nat then VNone else VGiven [PB false; PB true] false.
Definition ex_A (i : nat) : tensor (pyval R) := if (i =? 0)%nat then of_list (PF 0) [PI 1; PI 2; PI 3] else of_list (PF 0) [PB false; PB true].
(** p(d|c): uniform if the coin shows False, else in proportion to d. *)
Definition ex_h (l : list (pyval R)) : R :=
  match l with [d; c] => if Req_EM_T (as_num c) 0 then / 3 else as_num d / 6 | _ => 0 end.

Lemma ex_sd (values : odict (fentry R)) x a : (values, x, a) = (ex_given, ex_x, ex_a) \/ (values, x, a) = (ex_all, fun _ => FNone, fun _ => VNone) ->
  NoDup (od_keys values) /\ incl (od_keys values) (names_of ([ex_die] ++ [ex_coin])) /\
  (forall r i v, nth_error ([ex_die] ++ [ex_coin]) i = Some v -> evaluates v values (x i) (a i) r (ex_A i)) /\
  filter (needs_axis values) (names_of ([ex_die] ++ [ex_coin])) = ["d"; "c"]%string /\
  at_positions values ([ex_die] ++ [ex_coin]) ex_A (fun k => if String.eqb k "d" then 2%nat else 1%nat) = [PI 3; PB true].
Proof.
  intros [H|H]; injection H as -> -> ->.
  - split; [repeat constructor; cbn; intuition discriminate|]. split; [intros k [<-|[<-|[]]]; cbn; auto|]. split; [|split; reflexivity].
    intros r [|[|i]] v I; [injection I as <-|injection I as <-|destruct i; discriminate]; cbn -[of_list].
    + split; [reflexivity|]. split; [constructor|]. split; [reflexivity|]. right. split; [reflexivity|]. exists 3%nat. split; [lia|reflexivity].
    + split; [reflexivity|]. split; [apply sr_arr|]. split; [reflexivity|]. right. split; [reflexivity|]. exists 2%nat. split; [lia|reflexivity].
  - split; [repeat constructor; cbn; intuition discriminate|]. split; [intros k [<-|[<-|[]]]; cbn; auto|]. split; [|split; reflexivity].
    intros r [|[|i]] v I; [injection I as <-|injection I as <-|destruct i; discriminate]; cbn -[of_list].
    + split; [reflexivity|]. split; [constructor|]. split; [reflexivity|]. right. split; [reflexivity|]. exists 3%nat. split; [lia|reflexivity].
    + split; [reflexivity|]. split; [constructor|]. split; [reflexivity|]. right. split; [reflexivity|]. exists 2%nat. split; [lia|reflexivity].
Qed.

(** *** A function that multiplies over its variables by itself (computed with rationals) *)
Definition q_discrete (t : vtype) (l : list (pyval Q)) : vstate Q := mkVS (Some t) (Some (map (fun v => Bare (AV v)) l)).
Definition q_die : rv Q := mkRV "d"%string (q_discrete VInt [PI 1; PI 2; PI 3]) (Lin 1%Q) (RPScalar (1#3)%Q) TRNone None false.
Definition q_coin : rv Q := mkRV "c"%string (q_discrete VBool [PB false; PB true]) (Lin 1%Q) (RPScalar (1#2)%Q) TRNone None false.
Definition q_all : odict (fentry Q) := [("d", One FNone); ("c", One FNone)]%string.
Definition no_rnd : nat -> rnd Q := fun _ => mkRnd 0%nat [] (fun _ => 0%Q).
Definition ex_counted : result (option (value Q) * option (value Q)) :=
  let! d0 := make_sd [q_die; q_coin] [] None in
  let! d := sd_set_prob d0 (Some (fun _ _ => Ok (tscalar (1#6)%Q))) None in
  let! (p, vals) := @sd_call Q _ fmt_q d q_all AllLeafs no_rnd in
  Ok (od_get (p_vals p) "d"%string, od_get (p_vals p) "c"%string).

Lemma ex_counted_ok : ex_counted = Ok (Some (Distr.VSet [SEint 3]), Some (Distr.VSet [SEint 1])).
Proof. vm_compute. reflexivity. Qed.

(** *** p(x) written p(x=[]), and p(y|x) *)
Lemma ex_spelled : exists p q : pd R, @make_pd R _ fmt_ex "x=[]" pri_vals (Some [("x", Some 0%Z)]%string) (Some pri_prob) (PSFloat 1) = Ok p /\
  @valid_pd fmt_ex p ["x"]%string /\ @lik_make 2 = Ok q /\ @valid_pd fmt_ex q ["x"; "y"]%string /\ NoDup (marginals [p; q]) /\
  od_get (p_marg p) "x" = Some "x=[]"%string /\ od_get (p_cond q) "x" = Some "x"%string /\ p_keylist p = ["x"]%string.
Proof.
  destruct (lik_ok 2) as (q & E' & V' & K' & M' & C' & _).
  destruct (@make_pd_ok fmt_ex pri_vals [("x", Some 0%Z)]%string ["x"]%string [("x", "x=[]")]%string []
              pri_prob (PSFloat 1) (Lin 1)) as (p & E & V & K & M & C & P & S & Vr).
  - repeat constructor; cbn; intuition discriminate.
  - discriminate.
  - cbn. intros k Hk. intuition (subst; discriminate).
  - repeat constructor; cbn; intuition discriminate.
  - intros k Hk. cbn in *. tauto.
  - intros k v G Hk.
    assert (Hin : In k (od_keys pri_vals)) by (eapply od_get_some_key; eauto).
    cbn in Hin, Hk. tauto.
  - intros [|j] k Hj; cbn in Hj; inversion Hj; subst; try (destruct j; discriminate);
    (eexists; split; [reflexivity|]; cbn; repeat split; auto; try discriminate; lia).
  - intros k Hk. cbn in *. tauto.
  - repeat constructor; cbn; intuition discriminate.
  - reflexivity.
  - apply good_keyed. reflexivity.
  - apply good_keyed. reflexivity.
  - cbn. repeat constructor.
  - cbn. assert (H : n_eqb 1 n1 = true) by (apply Reqb_iff; reflexivity). rewrite H. reflexivity.
  - cbn. assert (H : n_eqb 1 n1 = true) by (apply Reqb_iff; reflexivity). rewrite H. reflexivity.
  - exists p, q. split; [exact E|]. split; [exact V|]. split; [exact E'|]. split; [exact V'|].
    unfold marginals. cbn [flat_map]. rewrite M, M', C', K. split; [repeat constructor; cbn; intuition discriminate|].
    repeat split; reflexivity.
Qed.
