(** A concrete distribution, built by the constructor, on which the hypotheses of
    the property theorems can be met. *)
From Coq Require Import Ascii String ZArith Reals Lra Bool Arith Lia Permutation List.
From Verif Require Import Base Num Tensor TensorBcast OdLemmas TensorLemmas RNumLemmas PScales
  PScales_Spec PScales_Proofs Names Names_Spec Names_Proofs Distr PDModel PD_Spec PD_Make PD_Sums
  PD_Valid PD_Marg.
Import ListNotations.

(** A way to print numbers, for the examples. *)
Definition fmt_ex : Fmt R := fun _ => "5"%string.

Definition good_entryb (s : string) : bool :=
  negb (String.eqb s "") && negb (has_char "," s) && negb (has_char "|" s)
  && negb (has_char "(" s) && negb (has_char ")" s).

Lemma good_entryb_ok s : good_entryb s = true -> good_entry s.
Proof.
  unfold good_entryb. rewrite !andb_true_iff, !negb_true_iff. intros ((((H1 & H2) & H3) & H4) & H5).
  rewrite has_char_false in *. repeat split; auto. apply String.eqb_neq. auto.
Qed.

Lemma good_keyed (l : list (string * string)) :
  forallb (fun ke => good_entryb (snd ke) && String.eqb (str2key (snd ke)) (fst ke)) l = true ->
  Forall (fun ke => good_entry (snd ke) /\ key_of (snd ke) (fst ke)) l.
Proof.
  intros H. rewrite forallb_forall in H. apply Forall_forall. intros ke Hke. apply H in Hke.
  apply andb_true_iff in Hke. destruct Hke as [H1 H2]. split; [apply good_entryb_ok; auto|].
  apply String.eqb_eq in H2. rewrite <- H2. apply str2key_key_of.
Qed.

(** Constructor arguments described by: entries, columns in axis order, scalars. *)
Lemma fine_plain {F : Fmt R} p : p_pscale p = Lin 1%R -> fine_scale p /\ ~ log_scaled p.
Proof.
  intros E. unfold fine_scale, log_scaled. rewrite E. cbn [spec_of]. split; [split|].
  - apply valid_one.
  - left. rewrite factor_one. reflexivity.
  - rewrite log_kind_one. discriminate.
Qed.

Section Ex.
Let F : Fmt R := fmt_ex.
Existing Instance F.
Local Open Scope R_scope.

(** p(x, y, w=5 | z): x has 2 values, y has 3, z has 2, w is a scalar. *)
Definition ex_vals : odict (value R) :=
  [("x", VArr (of_list 0 [1; 2])); ("y", VArr (of_list 0 [1; 2; 3]));
   ("w", VNum 5); ("z", VArr (of_list 0 [7; 8]))]%string.
Definition ex_dims : odict (option Z) :=
  [("x", Some 0%Z); ("y", Some 1%Z); ("z", Some 2%Z)]%string.
Definition ex_prob : tensor R := mkT [2; 3; 2]%nat (fun _ => / 6).

Definition ex_make := make_pd "x,y,w|z" ex_vals (Some ex_dims) (Some ex_prob) (PSFloat 1).

Lemma ex_ok : exists p, ex_make = Ok p /\ valid_pd p ["x"; "y"; "z"]%string /\
  p_keylist p = ["x"; "y"; "w"; "z"]%string /\
  od_keys (p_marg p) = ["x"; "y"; "w"]%string /\ od_keys (p_cond p) = ["z"]%string /\
  p_prob p = Some ex_prob /\ p_pscale p = Lin 1 /\
  variable p "x" = Some (Col [1; 2]) /\ variable p "y" = Some (Col [1; 2; 3]) /\
  variable p "z" = Some (Col [7; 8]) /\ variable p "w" = Some (Scal (VNum 5)).
Proof.
  destruct (@make_pd_ok F ex_vals ex_dims ["x"; "y"; "z"]%string
              [("x", "x"); ("y", "y"); ("w", "w")]%string [("z", "z")]%string
              ex_prob (PSFloat 1) (Lin 1)) as (q & E & V & K & M & C & P & S & Vr).
  - repeat constructor; cbn; intuition discriminate.
  - discriminate.
  - cbn. intros k Hk. intuition (subst; discriminate).
  - repeat constructor; cbn; intuition discriminate.
  - intros k Hk. cbn in *. tauto.
  - intros k v G Hk.
    assert (Hin : In k (od_keys ex_vals)) by (eapply od_get_some_key; eauto).
    cbn in Hin, Hk. destruct Hin as [<-|[<-|[<-|[<-|[]]]]]; try tauto.
    cbn in G. inversion G; subst. split; auto.
  - intros [|[|[|j]]] k Hj; cbn in Hj; inversion Hj; subst; try (destruct j; discriminate);
    (eexists; split; [reflexivity|]; cbn; repeat split; auto; try discriminate; lia).
  - intros k Hk. cbn in *. tauto.
  - repeat constructor; cbn; intuition discriminate.
  - reflexivity.
  - apply good_keyed. reflexivity.
  - apply good_keyed. reflexivity.
  - cbn. repeat constructor.
  - cbn. assert (H : n_eqb 1 n1 = true) by (apply Reqb_iff; reflexivity). rewrite H. reflexivity.
  - cbn. assert (H : n_eqb 1 n1 = true) by (apply Reqb_iff; reflexivity). rewrite H. reflexivity.
  - exists q. split; [exact E|]. split; [exact V|]. split; [exact K|]. rewrite M, C.
    repeat (split; [reflexivity || assumption|]). rewrite !Vr. cbn.
    repeat split; reflexivity.
Qed.
End Ex.

(** Further examples for the refutations: the same values on other axes. *)
Section Ex2.
Let F : Fmt R := fmt_ex.
Existing Instance F.
Local Open Scope R_scope.

(** p(x,y), x having 2 values along axis 1 and y 3 along axis 0. *)
Definition ext_vals : odict (value R) :=
  [("x", VArr (of_list 0 [1; 2])); ("y", VArr (of_list 0 [1; 2; 3]))]%string.
Definition ext_make := make_pd "x,y" ext_vals (Some [("x", Some 1%Z); ("y", Some 0%Z)]%string)
  (Some (mkT [3; 2]%nat (fun _ => / 6))) (PSFloat 1).

Lemma ext_ok : exists p, ext_make = Ok p /\ valid_pd p ["y"; "x"]%string /\
  p_keylist p = ["x"; "y"]%string /\ od_keys (p_marg p) = ["x"; "y"]%string /\ p_pscale p = Lin 1.
Proof.
  destruct (@make_pd_ok F ext_vals [("x", Some 1%Z); ("y", Some 0%Z)]%string ["y"; "x"]%string
              [("x", "x"); ("y", "y")]%string []
              (mkT [3; 2]%nat (fun _ => / 6)) (PSFloat 1) (Lin 1)) as (q & E & V & K & M & C & P & S & Vr).
  - repeat constructor; cbn; intuition discriminate.
  - discriminate.
  - cbn. intros k Hk. intuition (subst; discriminate).
  - repeat constructor; cbn; intuition discriminate.
  - intros k Hk. cbn in *. tauto.
  - intros k v G Hk.
    assert (Hin : In k (od_keys ext_vals)) by (eapply od_get_some_key; eauto).
    cbn in Hin, Hk. tauto.
  - intros [|[|j]] k Hj; cbn in Hj; inversion Hj; subst; try (destruct j; discriminate);
    (eexists; split; [reflexivity|]; cbn; repeat split; auto; try discriminate; lia).
  - intros k Hk. cbn in *. tauto.
  - repeat constructor; cbn; intuition discriminate.
  - reflexivity.
  - apply good_keyed. reflexivity.
  - apply good_keyed. reflexivity.
  - cbn. repeat constructor.
  - cbn. assert (H : n_eqb 1 n1 = true) by (apply Reqb_iff; reflexivity). rewrite H. reflexivity.
  - cbn. assert (H : n_eqb 1 n1 = true) by (apply Reqb_iff; reflexivity). rewrite H. reflexivity.
  - exists q. split; [exact E|]. split; [exact V|]. split; [exact K|]. rewrite M. split; [reflexivity|exact S].
Qed.

(** p(y,u,v,z) with axes in the order u,y,z,v. *)
Definition exi_vals : odict (value R) :=
  [("y", VArr (of_list 0 [1; 2])); ("u", VArr (of_list 0 [1; 2; 3]));
   ("v", VArr (of_list 0 [1; 2])); ("z", VArr (of_list 0 [5; 6]))]%string.
Definition exi_dims : odict (option Z) :=
  [("y", Some 1%Z); ("u", Some 0%Z); ("v", Some 3%Z); ("z", Some 2%Z)]%string.
Definition exi_make := make_pd "y,u,v,z" exi_vals (Some exi_dims)
  (Some (mkT [3; 2; 2; 2]%nat (fun _ => / 24))) (PSFloat 1).

Lemma exi_ok : exists p, exi_make = Ok p /\ valid_pd p ["u"; "y"; "z"; "v"]%string /\
  p_keylist p = ["y"; "u"; "v"; "z"]%string /\
  od_keys (p_marg p) = ["y"; "u"; "v"; "z"]%string /\ p_pscale p = Lin 1 /\
  size_of p "y" = 2%nat /\ size_of p "z" = 2%nat.
Proof.
  destruct (@make_pd_ok F exi_vals exi_dims ["u"; "y"; "z"; "v"]%string
              [("y", "y"); ("u", "u"); ("v", "v"); ("z", "z")]%string []
              (mkT [3; 2; 2; 2]%nat (fun _ => / 24)) (PSFloat 1) (Lin 1)) as (q & E & V & K & M & C & P & S & Vr).
  - repeat constructor; cbn; intuition discriminate.
  - discriminate.
  - cbn. intros k Hk. intuition (subst; discriminate).
  - repeat constructor; cbn; intuition discriminate.
  - intros k Hk. cbn in *. tauto.
  - intros k v G Hk.
    assert (Hin : In k (od_keys exi_vals)) by (eapply od_get_some_key; eauto).
    cbn in Hin, Hk. tauto.
  - intros [|[|[|[|j]]]] k Hj; cbn in Hj; inversion Hj; subst; try (destruct j; discriminate);
    (eexists; split; [reflexivity|]; cbn; repeat split; auto; try discriminate; lia).
  - intros k Hk. cbn in *. tauto.
  - repeat constructor; cbn; intuition discriminate.
  - reflexivity.
  - apply good_keyed. reflexivity.
  - apply good_keyed. reflexivity.
  - cbn. repeat constructor.
  - cbn. assert (H : n_eqb 1 n1 = true) by (apply Reqb_iff; reflexivity). rewrite H. reflexivity.
  - cbn. assert (H : n_eqb 1 n1 = true) by (apply Reqb_iff; reflexivity). rewrite H. reflexivity.
  - exists q. split; [exact E|]. split; [exact V|]. split; [exact K|]. rewrite M. split; [reflexivity|].
    split; [exact S|]. unfold size_of. rewrite !Vr. cbn. auto.
Qed.
End Ex2.
