(** A step of two real variables from values under a shared key. *)
From Coq Require Import String Ascii ZArith Reals Lra Bool Arith List.
From Verif Require Import Base Num RNumLemmas Tensor PScales PScales_Spec Names Names_Spec Names_Proofs PD_Spec PD_Simple_Spec PD_Simple Distr PDModel PD_Examples PD_CountsEx VariableModel RVModel FieldModel RFModel RF_Spec RF_Proofs ArrModel.
Import ListNotations.

Section G.
Context {T : Type} {N : Num T} {F : Fmt T} {TR : Trunc T} (one lo hi u : T).
Hypothesis FT : forall x, F x = "5"%string.

Definition real_var (k : string) : rv T :=
  mkRV k (mkVS (Some VFloat) (Some [Bare (AV (PF lo)); Bare (AV (PF hi))])) (Lin one) (RPFun (fun x => x)) TRNone None false.
Definition stay : @means T := mkMeans (Some (fun d => Ok d)) None (fun _ => Err ValueError) (fun _ => Ok (tscalar one)).
Definition draws : nat -> rnd T := fun _ => mkRnd 0 [] (fun _ => u).

Definition two_vars : list (rv T) := [real_var "x"; real_var "y"].
Definition two_field : field T :=
  match make_field true (AddMany (map Some (nodes two_vars))) with Ok f => f | Err _ => mkFld [] None [] [] true end.

Lemma shared_step (q : pscale T) (a b : fval T) : eval_pscale (spec_of q) = Ok q ->
  exists p, rf_step_any (mkRF two_vars two_field q) stay [("x,y"%string, Many [a; b])] AskNone draws = Ok p.
Proof.
  intros HQ. eexists. unfold rf_step_any.
  replace (rf_pscale (mkRF two_vars two_field q)) with q by reflexivity.
  cbv -[make_pd spec_of n_eqb n_leb n_ltb n_ofZ n1 n0 n_mul n_add n_sub].
  unfold make_pd. rewrite HQ.
  cbv -[spec_of n_eqb n_leb n_ltb n_ofZ n1 n0 n_mul n_add n_sub].
  repeat (rewrite ?FT; cbv -[spec_of n_eqb n_leb n_ltb n_ofZ n1 n0 n_mul n_add n_sub]).
  reflexivity.
Qed.
End G.

(* x and y are asked for under a shared key; whatever is given, the step succeeds. *)
Lemma shared_real (a b : fval R) : exists f p,
  @make_rf R _ (two_vars 1%R 0%R 1%R) = Ok f /\
  @rf_step_any R _ fmt_ex f (stay 1%R) [("x,y"%string, Many [a; b])] AskNone (draws (/ 2)%R) = Ok p.
Proof.
  destruct (make_rf_ok (two_vars 1%R 0%R 1%R)) as (f & ps & q & E & K & V & NT).
  - discriminate.
  - repeat constructor; cbn; intuition discriminate.
  - left. repeat constructor; cbn; try lra; destruct (Req_EM_T _ 0); try reflexivity; lra.
  - assert (FE : f = two_field 1%R 0%R 1%R).
    { unfold make_rf in E. replace (make_field true _) with (Ok (two_field 1%R 0%R 1%R)) in E by (cbv; reflexivity). cbn [bind] in E.
      destruct (prod_pscale _ _); cbn [bind] in E; [|discriminate]. destruct (eval_pscale _); cbn [bind] in E; [|discriminate].
      destruct (new_pscale _ _); cbn [bind] in E; [|discriminate]. injection E as <-. reflexivity. }
    subst f. destruct (@shared_step R _ fmt_ex 1%R 0%R 1%R (/ 2)%R (fun _ => eq_refl) q a b) as (p & P); [apply NT|].
    eexists. exists p. split; [exact E|exact P].
Qed.

Lemma xy_apart : named_apart ["x"; "y"]%string /\ forall k k', In k ["x"; "y"]%string -> In k' ["x"; "y"]%string -> (k ++ "'")%string <> k'.
Proof.
  assert (SK : forall k, good_entryb k = true -> has_char "=" k = false -> simple_key k).
  { intros k H1 H2. split; [apply good_entryb_ok; exact H1|]. apply has_char_false. exact H2. }
  split; [split|].
  - repeat constructor; cbn; intuition discriminate.
  - intros k [<-|[<-|[]]]; (split; [apply SK; reflexivity|]); cbn; intuition discriminate.
  - intros k k' [<-|[<-|[]]] [<-|[<-|[]]]; discriminate.
Qed.
