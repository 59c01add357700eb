(** Examples for renaming, saving and concatenation. *)
From Coq Require Import Ascii String ZArith Reals Lra Bool Arith Lia Permutation List.
From Verif Require Import Base Num Tensor TensorBcast OdLemmas TensorLemmas RNumLemmas PScales
  PScales_Spec PScales_Proofs Names Names_Spec Names_Proofs Distr PDModel PDUtils PD_Spec PD_Simple_Spec PD_Summate_Spec
  PD_Make PD_Sums PD_Valid PD_Marg PD_Examples.
Import ListNotations.

Section Ex.
Let F : Fmt R := fmt_ex.
Existing Instance F.
Local Open Scope R_scope.

(** A sample p(x=x,n={z}) with probability pr. *)
Definition smp_vals (x : R) (z : Z) : odict (value R) := [("x", VNum x); ("n", VSet [SEint z])]%string.
Definition smp_make (x : R) (z : Z) (pr : R) := make_pd "x,n" (smp_vals x z) (Some []) (Some (tscalar pr)) (PSFloat 1).

Lemma smp_ok x z pr : good_entryb ("n={" ++ fmt_Z z ++ "}")%string = true ->
  String.eqb (str2key ("n={" ++ fmt_Z z ++ "}")%string) "n" = true ->
  exists p, smp_make x z pr = Ok p /\ valid_pd p [] /\
  od_keys (p_marg p) = ["x"; "n"]%string /\ od_keys (p_cond p) = [] /\ p_pscale p = Lin 1 /\
  holds_number p "x" x /\ holds_count p "n" z /\ p_prob p = Some (tscalar pr).
Proof.
  intros G1 G2.
  destruct (@make_pd_ok F (smp_vals x z) [] [] [("x", "x"); ("n", "n")]%string []
              (tscalar pr) (PSFloat 1) (Lin 1)) as (q & E & V & K & M & C & P & S & Vr).
  - repeat constructor; cbn; intuition discriminate.
  - discriminate.
  - cbn. intros k Hk. intuition (subst; discriminate).
  - constructor.
  - intros k [].
  - intros k v G _.
    assert (Hin : In k (od_keys (smp_vals x z))) by (eapply od_get_some_key; eauto).
    cbn in Hin. destruct Hin as [<-|[<-|[]]]; cbn in G; inversion G; subst; auto.
  - intros [|j] k Hj; discriminate.
  - intros k [].
  - constructor.
  - reflexivity.
  - apply good_keyed. reflexivity.
  - apply good_keyed. apply forallb_forall. intros ke I. destruct I as [<-|[<-|[]]]; [reflexivity|].
    apply andb_true_iff. split; assumption.
  - cbn. repeat constructor.
  - cbn. assert (H : n_eqb 1 n1 = true) by (apply Reqb_iff; reflexivity). rewrite H. reflexivity.
  - cbn. assert (H : n_eqb 1 n1 = true) by (apply Reqb_iff; reflexivity). rewrite H. reflexivity.
  - exists q. split; [exact E|]. split; [exact V|]. rewrite M, C. split; [reflexivity|]. split; [reflexivity|]. split; [exact S|].
    pose proof (Vr "x"%string) as V1. pose proof (Vr "n"%string) as V2. unfold variable in V1, V2. cbn in V1, V2.
    split; [|split; [|exact P]].
    + left. destruct (od_get (p_vals q) "x") as [[| | |a|]|]; cbn in V1; try destruct (shape a); congruence.
    + unfold holds_count. destruct (od_get (p_vals q) "n") as [[| | |a|]|]; cbn in V2; try destruct (shape a); congruence.
Qed.

(** p(w=5,y), y having 3 values. *)
Definition ex2_vals : odict (value R) := [("w", VNum 5); ("y", VArr (of_list 0 [1; 2; 3]))]%string.
Definition ex_make2 := make_pd "w,y" ex2_vals (Some [("y", Some 0%Z)]%string)
  (Some (mkT [3]%nat (fun _ => / 3))) (PSFloat 1).

Lemma ex2_ok : exists p, ex_make2 = Ok p /\ valid_pd p ["y"]%string /\
  p_keylist p = ["w"; "y"]%string /\ od_keys (p_marg p) = ["w"; "y"]%string /\
  ~ In "w"%string ["y"]%string /\ "w"%string <> "y"%string.
Proof.
  destruct (@make_pd_ok F ex2_vals [("y", Some 0%Z)]%string ["y"]%string
              [("w", "w"); ("y", "y")]%string []
              (mkT [3]%nat (fun _ => / 3)) (PSFloat 1) (Lin 1)) as (q & E & V & K & M & C & P & S & Vr).
  - repeat constructor; cbn; intuition discriminate.
  - discriminate.
  - cbn. intros k Hk. intuition (subst; discriminate).
  - repeat constructor; cbn; intuition discriminate.
  - intros k Hk. cbn in *. tauto.
  - intros k v G Hk.
    assert (Hin : In k (od_keys ex2_vals)) by (eapply od_get_some_key; eauto).
    cbn in Hin, Hk. destruct Hin as [<-|[<-|[]]]; [|tauto]. cbn in G. inversion G; subst. auto.
  - intros [|j] k Hj; cbn in Hj; inversion Hj; subst; try (destruct j; discriminate);
    (eexists; split; [reflexivity|]; cbn; repeat split; auto; try discriminate; lia).
  - intros k Hk. cbn in *. tauto.
  - repeat constructor; cbn; intuition discriminate.
  - reflexivity.
  - apply good_keyed. reflexivity.
  - apply good_keyed. reflexivity.
  - cbn. repeat constructor.
  - cbn. assert (H : n_eqb 1 n1 = true) by (apply Reqb_iff; reflexivity). rewrite H. reflexivity.
  - cbn. assert (H : n_eqb 1 n1 = true) by (apply Reqb_iff; reflexivity). rewrite H. reflexivity.
  - exists q. split; [exact E|]. split; [exact V|]. split; [exact K|]. rewrite M. split; [reflexivity|].
    split; [cbn; intuition discriminate|discriminate].
Qed.

(** A sample p(n={z}) with probability pr. *)
Definition cnt_make (z : Z) (pr : R) := make_pd "n" [("n", VSet [SEint z])]%string (Some []) (Some (tscalar pr)) (PSFloat 1).

Lemma cnt_ok z pr : good_entryb ("n={" ++ fmt_Z z ++ "}")%string = true ->
  String.eqb (str2key ("n={" ++ fmt_Z z ++ "}")%string) "n" = true ->
  exists p, cnt_make z pr = Ok p /\ valid_pd p [] /\
  od_keys (p_marg p) = ["n"]%string /\ od_keys (p_cond p) = [] /\ p_pscale p = Lin 1 /\
  holds_count p "n" z /\ p_prob p = Some (tscalar pr).
Proof.
  intros G1 G2.
  destruct (@make_pd_ok F [("n", VSet [SEint z])]%string [] [] [("n", "n")]%string []
              (tscalar pr) (PSFloat 1) (Lin 1)) as (q & E & V & K & M & C & P & S & Vr).
  - repeat constructor; cbn; intuition discriminate.
  - discriminate.
  - cbn. intros k Hk. intuition (subst; discriminate).
  - constructor.
  - intros k [].
  - intros k v G _. apply od_get_in in G. destruct G as [G|[]]. inversion G. auto.
  - intros [|j] k Hj; discriminate.
  - intros k [].
  - constructor.
  - reflexivity.
  - apply good_keyed. reflexivity.
  - apply good_keyed. apply forallb_forall. intros ke I. destruct I as [<-|[]].
    apply andb_true_iff. split; assumption.
  - cbn. repeat constructor.
  - cbn. assert (H : n_eqb 1 n1 = true) by (apply Reqb_iff; reflexivity). rewrite H. reflexivity.
  - cbn. assert (H : n_eqb 1 n1 = true) by (apply Reqb_iff; reflexivity). rewrite H. reflexivity.
  - exists q. split; [exact E|]. split; [exact V|]. rewrite M, C. split; [reflexivity|]. split; [reflexivity|]. split; [exact S|].
    split; [|exact P]. pose proof (Vr "n"%string) as V2. unfold variable in V2. cbn in V2.
    unfold holds_count. destruct (od_get (p_vals q) "n") as [[| | |a|]|]; cbn in V2; try destruct (shape a); congruence.
Qed.
End Ex.
