(** Examples for the theorems about processes with a proposal function. *)
From Coq Require Import String Ascii ZArith Reals Lra Bool Arith Lia Permutation List.
From Verif Require Import Base Num Tensor TensorLemmas OdLemmas RNumLemmas PScales PScales_Spec PScales_Proofs Names Names_Spec Names_Proofs Distr PDModel PD_Spec
  PD_Simple_Spec PD_Examples VariableModel RVModel RV_Spec FieldModel Field_Spec RFModel RF_Spec RF_Thm SDModel SD_Spec SD_Proofs SD_Thm SD_Ex SPModel SP_Spec
  ChainModel Chain_Spec Chain_Ex OmcModel Omc_Spec.
Import ListNotations.
Local Open Scope R_scope.

Definition propose_by (names : list string) (gd : list (pyval R) -> R) : propfun R := fun vals => ufunc names gd vals [].

Lemma propose_by_ok names gd : proposes names gd (propose_by names gd).
Proof. intros vals dims shapes s H B. exact (ufunc_elementwise names gd vals [] shapes s H B). Qed.

(** x given y, on the linear scale, with any probability and proposal function. *)
Lemma ex_process (TR : Trunc R) h : let names := names_of ([ex_x] ++ [ex_y]) in
  exists d, forall gd, @proposal_process fmt_ex TR [ex_x] [ex_y] ex_lims d h (propose_by names gd) gd.
Proof.
  intros names. destruct ex_field as (NA & UP & SC & _ & IV & _).
  destruct (make_sd_ok [ex_x] [ex_y] None) as (f & fl & fr & q & ql & qr & PO & E); [discriminate|apply NA|exact SC|].
  eexists (mkSD _ _ _ _ (Some (ufunc names h)) (Lin 1)). intros gd. split; [|split; [|split]].
  - split; [exact ex_printable|]. split; [discriminate|]. split; [exact NA|]. split; [exact UP|]. split; [exact IV|]. split; [exact SC|]. discriminate.
  - split; cbn; auto; lra.
  - apply propose_by_ok.
  - eexists. exists (ufunc names h), (Some (PSFloat 1)). split; [exact E|]. split; [|apply ufunc_elementwise].
    unfold sd_set_prob, base_set_prob, new_pscale. cbn [sd_rf sd_leafs sd_roots sd_arch sd_pscale bind ps_true].
    assert (n_eqb (1 : R) n0 = false) as -> by (apply Reqb_false_iff; rn; lra). cbn [negb].
    assert (eval_pscale (PSFloat (1 : R)) = Ok (Lin 1)) as -> by (cbn; rewrite Reqb_refl; reflexivity). cbn [bind sd_arch]. reflexivity.
Qed.

(** A sampler that is given x = 12, above the limit of x, and draws y. *)
Definition ex_start : odict (fentry R) := [("y", One (FUnit 0)); ("x", One (FNum (PF 12)))]%string.

Lemma ex_sampler : sampler_of [ex_x] [ex_y] ex_start [Some 12; None] ["y"; "x"]%string.
Proof.
  split; [apply perm_swap|]. split; [repeat constructor; cbn; intuition discriminate|].
  split; [cbn; intros k; cbn; tauto|]. repeat constructor.
Qed.

(** Two points drawn, the first of which has x given. *)
Definition ex_rnd (u v t : R) : ornd R := mkOR (fun i => mkRnd 0 [] (fun _ => if Nat.eqb i 0 then u else v)) t.

Lemma ex_points : points ex_lims [Some 12; None] [ex_rnd (/ 2) (/ 4) (/ 3); ex_rnd (/ 2) (/ 4) 1] = [([12; / 4], / 3); ([5; / 4], 1)].
Proof. unfold points, fill, drawn_in. cbn. repeat (f_equal; try lra). Qed.

(** Of these the score x/10 accepts the first only. *)
Lemma ex_accepted : let h l := match l with [PF x; _] => x / 10 | _ => 0 end in
  accepted h (fun _ => 1) (fun p q => p / q) [([12; / 4], / 3); ([5; / 4], 1)] = [([12; / 4], / 3)].
Proof. cbn. destruct (Rle_dec _ _) as [_|C]; [|exfalso; apply C; lra]. destruct (Rle_dec _ _) as [C|_]; [lra|reflexivity]. Qed.

Lemma ex_stuck : stuck ex_lims [Some 12; None] [ex_rnd (/ 2) (/ 4) (/ 3); ex_rnd (/ 2) (/ 5) 1] = [([12; / 4], / 3); ([12; / 4], 1)].
Proof. unfold stuck, fill, drawn_in. cbn. repeat (f_equal; try lra). Qed.

Lemma ex_primes : named_apart (map (fun k => k ++ "'")%string (names_of ([ex_die] ++ [ex_coin]))) /\
  (forall k k', In k (names_of ([ex_die] ++ [ex_coin])) -> In k' (names_of ([ex_die] ++ [ex_coin])) -> (k ++ "'")%string <> k').
Proof.
  split.
  - split; [repeat constructor; cbn; intuition discriminate|].
    intros k [<-|[<-|[]]]; (split; [apply ex_simple; reflexivity|]); cbn; intuition discriminate.
  - intros k k' [<-|[<-|[]]] [<-|[<-|[]]]; cbn; discriminate.
Qed.
