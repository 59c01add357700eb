(** Examples for arrays that are shared between distributions. *)
From Coq Require Import String ZArith Bool Arith Lia Reals Lra List.
From Verif Require Import Base Num RNumLemmas Tensor PScales PScales_Spec Names Distr OdLemmas TensorLemmas PDModel PD_Spec PD_Cond_Spec
  PD_Examples PD_Make PD_Valid PD_Call_Spec PD_CallThm PD_Rekey PD_Simple_Spec PD_SimpleThm PD_CondEx PD_Sort_Spec PD_Sort PD_SortEx ShareModel Share_Spec Share_Proofs.
Import ListNotations.
Local Open Scope nat_scope.

(** A program that has made one distribution. *)
Definition one_pd (p : pd R) (t : tensor R) : world R :=
  mkWorld [t] [Some (mkHeld p (mkArr 0 (mkT (shape t) (fun idx => idx))))].

Lemma one_sound p t : sound (one_pd p t).
Proof. intros [|[|i]] x H; cbn in H; try discriminate. injection H as <-. cbn. lia. Qed.

Lemma one_shows p t : p_prob p = Some t -> shows (one_pd p t) 0 = Some p.
Proof.
  intros H. destruct p as [d m c pr s], t as [sh g]. cbn in H. subst pr. reflexivity.
Qed.

Section Ex.
Let F : Fmt R := fmt_ex.
Existing Instance F.

Lemma valid_array (q : pd R) L : valid_pd q L -> L <> [] -> exists u, p_prob q = Some u /\ shape u <> [].
Proof.
  intros V N. destruct (vp_prob q L V) as (u & P & S). exists u. split; [exact P|]. rewrite S. intros C.
  pose proof (vp_shape q L V) as H. rewrite C in H. destruct L; [congruence|discriminate].
Qed.

Lemma ex_shared : exists (p : pd R) t, ex_make = Ok p /\ let w := one_pd p t in let L := ["x"; "y"; "z"]%string in
  sound w /\ shows w 0 = Some p /\ p_prob p = Some t /\ shape t = [2; 3; 2] /\ valid_pd p L /\ p_pscale p = Lin 1%R /\
  own_array (Marginalise ["x"%string]) p /\ own_array (Conditionalise ["y"%string]) p /\
  outside [1] 2 [SDerive 1 (Rekey []); SDerive 0 (Rekey []); SWrite 0 [0; 0; 0] 1%R; SWrite 3 [0; 0; 0] 1%R] /\
  inside [1] 2 [SDerive 1 (Rekey []); SDerive 0 (Rekey []); SWrite 1 [0; 0] 1%R; SWrite 2 [0; 0] 1%R] /\
  (exists q, pd_rekey p [("x", "y"); ("y", "x"); ("w", "new")]%string = Ok q) /\
  (od_get (p_dims p) "w" = Some None /\ exists q, sorted p "w" [] = Ok q) /\
  (exists q u, locates p [("y"%string, 2%R)] (fun _ => 1) /\ call p [("y"%string, 2%R)] false = Ok q /\ p_prob q = Some u /\ shape u <> []) /\
  (exists q u, let keys := ["x"; "y"]%string in incl keys L /\ rest p L keys = [] /\ conditionalise p keys = Ok q /\
     p_prob q = Some u /\ shape u <> []).
Proof.
  destruct ex_ok as (p & E & V & K & M & C & P & Ps & Vx & Vy & Vz & Vw). exists p, ex_prob. split; [exact E|]. cbn zeta.
  split; [apply one_sound|]. split; [apply one_shows; exact P|]. split; [exact P|]. split; [reflexivity|]. split; [exact V|].
  split; [exact Ps|]. split; [exact I|]. split.
  { right. exists ["x"; "y"; "z"]%string. split; [exact V|]. unfold rest, marg_columns. rewrite M. discriminate. }
  split; [cbn; repeat split; intuition lia|]. split; [cbn; repeat split; auto|]. split.
  { destruct ex_c28 as (p' & E' & V' & N & S). assert (p' = p) as -> by congruence.
    destruct (rekey_ok _ _ _ V' N S) as (q & Q & _). eauto. }
  split.
  { destruct ex_sort_scalar as (p' & E' & LO & Iw & D). assert (p' = p) as -> by congruence. split; [exact D|].
    destruct (@sorted_scalar _ p 3 "w"%string [] LO Iw D) as (q & Q & _). eauto. }
  split.
  { destruct ex_slice as (p' & E' & V' & KO & IV & Lo & Nm). assert (p' = p) as -> by congruence.
    assert (Lo' : locates p [("y"%string, 2%R)] (fun _ => 1)).
    { intros k x l G W. apply (Lo k x l); [|exact W]. cbn in G |- *. destruct (String.eqb k "y"); [exact G|discriminate]. }
    destruct (slice_ok _ p _ [("y"%string, 2%R)] (fun _ => 1) V' KO) as (q & Q & Vq & _); auto.
    - rewrite K. intros k [<-|[]]. cbn. auto.
    - intros k x G. apply (Nm k x). cbn in G |- *. destruct (String.eqb k "y"); [exact G|discriminate].
    - destruct (valid_array q _ Vq) as (u & U1 & U2); [discriminate|]. exists q, u. auto. }
  destruct ex_undivided as (p' & q & E' & V' & NO & FS & NL & ND & IM & IL & Re & Q). assert (p' = p) as -> by congruence.
  destruct (cond_undivided p _ _ q V' NO FS NL ND IM IL Re Q) as (L' & Cq & _).
  destruct Cq as (Vq & Pm & _). destruct (valid_array q L' Vq) as (u & U1 & U2).
  { intros ->. apply Permutation.Permutation_nil in Pm. discriminate. }
  exists q, u. auto.
Qed.

End Ex.
