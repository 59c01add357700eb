(** Property theorems about conditioned summaries of samples and iterdict (C232, C233). *)
From Coq Require Import String ZArith Reals Bool Arith Lia List Permutation.
From Verif Require Import Base Num Tensor PScales PScales_Spec Names Distr PDModel PD_Spec PDUtils VariableModel RVModel FieldModel RFModel
  RF_Spec SDModel SD_Ex Chain_Ex PD_Examples SPModel SP_Spec OmcModel Omc_Spec Omc_Thm Omc_Ex SumModel Sum_Spec Sum_Proofs.
Import ListNotations.
Local Open Scope R_scope.

(** C232 (false of the code): a summary of samples with conditionalise=True raises unless
    all samples were rejected. *)
Theorem C232_samples_refuted :
  forall (F : Fmt R) (TR : Trunc R) (leafs roots : list (rv R)) (h : list (pyval R) -> R) ps gd score ss pts keys,
  leafs <> [] -> Forall2 (sample_of (names_of leafs) (names_of roots) ps h gd score) ss pts ->
  Permutation keys (names_of leafs) ->
  ((exists sm, summarise_cond (@od_pd R) true keys (map inr ss) = Ok sm) <-> accepted h gd score pts = []).
Proof. exact @summary_cond. Qed.
Print Assumptions C232_samples_refuted.

(** Two samples of x given y, the first of them accepted: no summary given y. *)
Example C232_instance : forall TR : Trunc R, let h l := match l with [PF x; _] => x / 10 | _ => 0 end in
  exists ss ps pts, Forall2 (@sample_of fmt_ex (names_of [ex_x]) (names_of [ex_y]) ps h (fun _ => 1) (fun p q => p / q)) ss pts /\
    Permutation ["x"]%string (names_of [ex_x]) /\ accepted h (fun _ => 1) (fun p q => p / q) pts <> [] /\
    exists p, In p (flat_map (fun s => match f_p (x_opqr s) with Some d => [od_pd d] | None => [] end) ss) /\
      @stands_at fmt_ex p ps (names_of [ex_x]) (names_of [ex_y]) [12; / 4] (h (map PF [12; / 4])).
Proof.
  intros TR h. destruct (ex_process TR h) as (d & P).
  pose proof (@rejection fmt_ex TR [ex_x] [ex_y] ex_lims d h _ (fun _ => 1) ex_start [Some 12; None] ["y"; "x"]%string (fun p q => p / q) (P _) ex_sampler) as S.
  destruct (S [] [EStep 0 (ex_rnd (/ 2) (/ 4) (/ 3)); EStep 0 (ex_rnd (/ 2) (/ 4) 1)]) as (ss & _ & H).
  - intros [C|[C|[]]]; discriminate C.
  - reflexivity.
  - cbn [steps_of flat_map created filter length Nat.eqb app] in H. rewrite ex_points in H.
    eexists ss, _, _. split; [exact H|]. split; [apply Permutation_refl|]. split; [unfold h; rewrite ex_accepted; discriminate|].
    inversion H as [|s xt ss' pts' SA H' E1 E2]. subst. destruct SA as (p & q & E & SP & _).
    exists (od_pd p). split; [cbn; rewrite E; cbn; left; reflexivity|exact SP].
Qed.

(** C232: distributions at points are gathered as columns in their order; but with
    conditionalise=True their sum raises (false of the code). *)
Theorem C232_distributions_refuted :
  forall (F : Fmt R) (TR : Trunc R) (leafs roots : list (rv R)) (h : list (pyval R) -> R) ps ds pts keys,
  leafs <> [] -> ds <> [] ->
  Forall2 (fun d x => stands_at d ps (names_of leafs) (names_of roots) x (h (map PF x))) ds pts ->
  Permutation keys (names_of leafs) ->
  (exists p, sum_dists keys false ds = Ok (Some p) /\
     columns p ps (names_of leafs) (names_of roots) (map (fun x => (x, 0)) pts) h) /\
  (exists e, sum_dists keys true ds = Err e).
Proof. exact @dists_cond. Qed.
Print Assumptions C232_distributions_refuted.

(** C233: iterdict of dictionaries has each of their keys once, with the values of those
    that have it, in the order of the dictionaries; of no dictionaries it raises. *)
Theorem C233_gathered :
  forall (V : Type) (dicts : list (odict V)) order, orders dicts order ->
  (dicts = [] -> iterdict order dicts = Err TypeError) /\
  (dicts <> [] -> exists r, iterdict order dicts = Ok r /\ od_keys r = order /\
     forall k vs, In k order -> (od_get r k = Some vs <-> gathered k dicts vs)).
Proof. exact (fun V dicts order O => conj (fun E => eq_ind_r (fun l => iterdict order l = Err TypeError) (iter_empty order) E) (fun NE => iter_ok dicts order NE O)). Qed.
Print Assumptions C233_gathered.

(** C233 (false of the code in general): the i-th value under each key is that of the i-th
    dictionary exactly if no dictionary has a key that one before it lacks. *)
Theorem C233_aligned_iff :
  forall (V : Type) (dicts : list (odict V)) order r, orders dicts order -> iterdict order dicts = Ok r ->
  ((forall k vs i d, od_get r k = Some vs -> nth_error dicts i = Some d -> od_get d k = nth_error vs i) <-> no_gaps dicts).
Proof. exact @iter_aligned. Qed.
Print Assumptions C233_aligned_iff.

(** The second dictionary has y, the first does not: the first value of y is that of the
    second. *)
Example C233_instance : let ds := [[("x", 1)]; [("x", 2); ("y", 3)]]%string%nat in
  orders ds ["y"; "x"]%string /\ ~ no_gaps ds /\ iterdict ["y"; "x"]%string ds = Ok [("y", [3]); ("x", [1; 2])]%string%nat.
Proof.
  split; [split|split; [|reflexivity]].
  - repeat constructor; cbn; intuition congruence.
  - intros k. cbn. split.
    + intros [<-|[<-|[]]]; [exists [("x", 2); ("y", 3)]%string%nat|exists [("x", 1)]%string%nat]; cbn; auto.
    + intros (d & [<-|[<-|[]]] & I); cbn in I; intuition.
  - intros N. specialize (N "y"%string 0%nat 1%nat _ _ (Nat.le_succ_diag_r 0) eq_refl eq_refl (or_intror (or_introl eq_refl))). cbn in N. intuition congruence.
Qed.
