(** Examples for the theorems about multivariate distributions. *)
From Coq Require Import String Ascii ZArith Reals Lra Bool Arith Lia List.
From Verif Require Import Base Num Tensor TensorLemmas RNumLemmas PScales PScales_Spec PScales_Proofs Names Names_Spec Distr PDModel PD_Spec
  VariableModel Var_Spec RVModel FieldModel Field_Spec RFModel RF_Spec RF_Thm RF_Joint SDModel SD_Spec SD_Proofs Chain_Ex MVModel MV_Spec MV_Thm.
Import ListNotations.
Local Open Scope R_scope.

(** Variables on [0, 10], their names given. *)
Definition mv_rv (nm : string) : rv R := mkRV nm (mkVS (Some VFloat) (Some [Bare (AV (PF 0)); Bare (AV (PF 10))])) (Lin 1) (RPScalar (/ 10)) TRNone None true.
Definition mv_two : list (rv R) := map mv_rv ["x"; "y"]%string.
Definition mv_four : list (rv R) := map mv_rv ["w"; "x"; "y"; "z"]%string.
Definition mv_arr (l : list R) : fval R := FArr (of_list (PF 0) (map PF l)).
Definition mv_lists (ls : list (list R)) (vs : list (rv R)) : odict (fentry R) :=
  combine (names_of vs) (map (fun l => One (mv_arr l)) ls).
Definition mv_x (ls : list (list R)) (i : nat) : fval R := mv_arr (nth i ls []).
Definition mv_a (ls : list (list R)) (i : nat) : values_in R := VGiven (map PF (nth i ls [])) false.
Definition mv_A (ls : list (list R)) (i : nat) : tensor (pyval R) := of_list (PF 0) (map PF (nth i ls [])).

Definition mv_xy : list (list R) := [[0; 1]; [0; 1; 2]].
Definition mv_wxyz : list (list R) := [[0; 1]; [2; 3]; [4; 5]; [6; 7]].

Lemma mv_two_ok : named_apart (names_of mv_two) /\ scales_ok mv_two.
Proof.
  split.
  - split; [repeat constructor; cbn; intuition discriminate|].
    intros k [<-|[<-|[]]]; (split; [apply ex_simple; reflexivity|]); cbn; intuition discriminate.
  - left. repeat constructor; cbn; try lra; destruct (Req_EM_T _ 0); try reflexivity; lra.
Qed.
Lemma mv_four_ok : named_apart (names_of mv_four) /\ scales_ok mv_four.
Proof.
  split.
  - split; [repeat constructor; cbn; intuition discriminate|].
    intros k [<-|[<-|[<-|[<-|[]]]]]; (split; [apply ex_simple; reflexivity|]); cbn; intuition discriminate.
  - left. repeat constructor; cbn; try lra; destruct (Req_EM_T _ 0); try reflexivity; lra.
Qed.

Lemma mv_eval_given nm l r : rv_evaluate (mv_rv nm) (VGiven l false) r = Ok (of_list (PF 0) l).
Proof. reflexivity. Qed.

Lemma mv_two_given (r : nat -> rnd R) : NoDup (od_keys (mv_lists mv_xy mv_two)) /\ incl (od_keys (mv_lists mv_xy mv_two)) (names_of mv_two) /\
  (forall i v, nth_error mv_two i = Some v -> evaluates v (mv_lists mv_xy mv_two) (mv_x mv_xy i) (mv_a mv_xy i) (r i) (mv_A mv_xy i)) /\
  filter (needs_axis (mv_lists mv_xy mv_two)) (names_of mv_two) = ["x"; "y"]%string /\ no_single mv_two (mv_A mv_xy).
Proof.
  split; [repeat constructor; cbn; intuition discriminate|]. split; [intros k H; exact H|]. split; [|split; [reflexivity|]].
  - intros [|[|i]] v I; [injection I as <-|injection I as <-|destruct i; discriminate].
    + split; [reflexivity|]. split; [apply sr_arr|]. split; [reflexivity|]. right. split; [reflexivity|]. exists 2%nat. split; [lia|reflexivity].
    + split; [reflexivity|]. split; [apply sr_arr|]. split; [reflexivity|]. right. split; [reflexivity|]. exists 3%nat. split; [lia|reflexivity].
  - intros [|[|i]] v I; [discriminate|discriminate|destruct i; discriminate].
Qed.

Lemma mv_four_given (r : nat -> rnd R) : NoDup (od_keys (mv_lists mv_wxyz mv_four)) /\ incl (od_keys (mv_lists mv_wxyz mv_four)) (names_of mv_four) /\
  (forall i v, nth_error mv_four i = Some v -> evaluates v (mv_lists mv_wxyz mv_four) (mv_x mv_wxyz i) (mv_a mv_wxyz i) (r i) (mv_A mv_wxyz i)) /\
  filter (needs_axis (mv_lists mv_wxyz mv_four)) (names_of mv_four) = names_of mv_four /\ no_single mv_four (mv_A mv_wxyz).
Proof.
  split; [repeat constructor; cbn; intuition discriminate|]. split; [intros k H; exact H|]. split; [|split; [reflexivity|]].
  - intros [|[|[|[|i]]]] v I; [injection I as <-|injection I as <-|injection I as <-|injection I as <-|destruct i; discriminate];
      (split; [reflexivity|]; split; [apply sr_arr|]; split; [reflexivity|]; right; split; [reflexivity|]; exists 2%nat; split; [lia|reflexivity]).
  - intros [|[|[|[|i]]]] v I; [discriminate|discriminate|discriminate|discriminate|destruct i; discriminate].
Qed.

(** One value of x, two of y. *)
Definition mv_lone : list (list R) := [[1]; [0; 1]].
Lemma mv_lone_given (r : nat -> rnd R) : NoDup (od_keys (mv_lists mv_lone mv_two)) /\ incl (od_keys (mv_lists mv_lone mv_two)) (names_of mv_two) /\
  (forall i v, nth_error mv_two i = Some v -> evaluates v (mv_lists mv_lone mv_two) (mv_x mv_lone i) (mv_a mv_lone i) (r i) (mv_A mv_lone i)) /\
  exists i v, nth_error mv_two i = Some v /\ shape (mv_A mv_lone i) = [1%nat].
Proof.
  split; [repeat constructor; cbn; intuition discriminate|]. split; [intros k H; exact H|]. split; [|exists 0%nat, (mv_rv "x"%string); split; reflexivity].
  intros [|[|i]] v I; [injection I as <-|injection I as <-|destruct i; discriminate].
  - split; [reflexivity|]. split; [apply sr_arr|]. split; [reflexivity|]. right. split; [reflexivity|]. exists 1%nat. split; [lia|reflexivity].
  - split; [reflexivity|]. split; [apply sr_arr|]. split; [reflexivity|]. right. split; [reflexivity|]. exists 2%nat. split; [lia|reflexivity].
Qed.

(** Numbers, in either order. *)
Definition mv_nums (b : bool) : odict (fentry R) :=
  if b then [("x", One (FNum (PF 1))); ("y", One (FNum (PF 2)))]%string else [("y", One (FNum (PF 2))); ("x", One (FNum (PF 1)))]%string.
Definition mv_nx (i : nat) : fval R := if (i =? 0)%nat then FNum (PF 1) else FNum (PF 2).
Definition mv_na (i : nat) : values_in R := if (i =? 0)%nat then VGiven [PF 1] true else VGiven [PF 2] true.
Definition mv_nA (i : nat) : tensor (pyval R) := if (i =? 0)%nat then tscalar (PF 1) else tscalar (PF 2).
Lemma mv_nums_given (r : nat -> rnd R) b : NoDup (od_keys (mv_nums b)) /\ incl (od_keys (mv_nums b)) (names_of mv_two) /\
  (forall i v, nth_error mv_two i = Some v -> evaluates v (mv_nums b) (mv_nx i) (mv_na i) (r i) (mv_nA i)) /\ numbers_only (mv_nums b).
Proof.
  split; [destruct b; repeat constructor; cbn; intuition discriminate|]. split; [intros k; destruct b; cbn; tauto|]. split.
  - intros [|[|i]] v I; [injection I as <-|injection I as <-|destruct i; discriminate];
      (split; [destruct b; reflexivity|]; split; [apply sr_num|]; split; [reflexivity|]; left; split; reflexivity).
  - destruct b; repeat constructor; cbn; eauto.
Qed.

(** A function of two components that is not symmetric. *)
Definition mv_m : mvdist R := mkMV 2 (fun l => nth 0 l 0 + 2 * nth 1 l 0) (fun l => ln (nth 0 l 0 + 2 * nth 1 l 0)).
Definition mv_m4 : mvdist R := mkMV 4 (fun l => nth 0 l 0) (fun l => ln (nth 0 l 0)).

(** On the scale 1 the function set is that of the density. *)
Lemma mv_set_linear d0 d : mv_set_prob d0 mv_m (Some (PSFloat 1)) = Ok d -> make_sd mv_two [] None = Ok d0 ->
  sd_set_prob d0 (Some (mv_eval mv_m false)) (Some (PSFloat 1)) = Ok d.
Proof.
  intros H E. destruct mv_two_ok as (NA & SC).
  destruct (make_sd_ok mv_two [] None) as (f & fl & fr & q & ql & qr & PO & E'); [discriminate|rewrite app_nil_r; apply NA|rewrite app_nil_r; exact SC|].
  rewrite E in E'. injection E' as ->. revert H. unfold mv_set_prob, sd_set_prob, base_set_prob, new_pscale. cbn [sd_rf sd_leafs sd_roots sd_arch sd_pscale bind ps_true].
  assert (n_eqb (1 : R) n0 = false) as -> by (apply Reqb_false_iff; rn; lra). cbn [negb].
  assert (eval_pscale (PSFloat (1 : R)) = Ok (Lin 1)) as -> by (cbn; rewrite Reqb_refl; reflexivity). cbn [bind sd_arch sd_pscale]. exact (fun H => H).
Qed.

Lemma mv_set (vs : list (rv R)) m : named_apart (names_of vs) -> scales_ok vs -> vs <> [] ->
  exists d0 d, make_sd vs [] None = Ok d0 /\ mv_set_prob d0 m (Some (PSFloat 1)) = Ok d /\ sd_pscale d = Lin 1.
Proof.
  intros NA SC NE. destruct (make_sd_ok vs [] None) as (f & fl & fr & q & ql & qr & PO & E); [exact NE|rewrite app_nil_r; apply NA|rewrite app_nil_r; exact SC|].
  eexists. eexists. split; [exact E|].
  unfold mv_set_prob, sd_set_prob, base_set_prob, new_pscale. cbn [sd_rf sd_leafs sd_roots sd_arch sd_pscale bind ps_true].
  assert (n_eqb (1 : R) n0 = false) as -> by (apply Reqb_false_iff; rn; lra). cbn [negb].
  assert (eval_pscale (PSFloat (1 : R)) = Ok (Lin 1)) as -> by (cbn; rewrite Reqb_refl; reflexivity). cbn [bind sd_arch sd_pscale]. split; reflexivity.
Qed.
