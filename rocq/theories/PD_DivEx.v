(** The same probabilities p(x,y) on two axis orders. *)
From Coq Require Import Ascii String ZArith Reals Lra Bool Arith Lia Permutation List.
From Verif Require Import Base Num Tensor TensorBcast OdLemmas TensorLemmas RNumLemmas PScales
  PScales_Spec PScales_Proofs Names Names_Spec Names_Proofs Distr PDModel PD_Spec PD_Make PD_Sums
  PD_Valid PD_Marg PD_Examples PD_Div_Spec PD_Rescaled.
Import ListNotations.
Local Open Scope R_scope.

(** One half at x=0, y=1 and one sixth elsewhere. *)
Definition sq_prob (x y : nat) : R := match x, y with 0%nat, 1%nat => 1/2 | _, _ => 1/6 end.
Definition sq_vals : odict (value R) :=
  [("x", VArr (of_list 0 [1; 2])); ("y", VArr (of_list 0 [3; 4]))]%string.
Definition sq_xy : result (pd R) := @make_pd R _ fmt_ex "x,y" sq_vals (Some [("x", Some 0%Z); ("y", Some 1%Z)]%string)
  (Some (mkT [2; 2]%nat (fun i => sq_prob (hd 0%nat i) (hd 0%nat (tl i))))) (PSFloat 1).
Definition sq_yx : result (pd R) := @make_pd R _ fmt_ex "x,y" sq_vals (Some [("x", Some 1%Z); ("y", Some 0%Z)]%string)
  (Some (mkT [2; 2]%nat (fun i => sq_prob (hd 0%nat (tl i)) (hd 0%nat i)))) (PSFloat 1).

Ltac square dims L g :=
  destruct (@make_pd_ok fmt_ex sq_vals dims L [("x", "x"); ("y", "y")]%string []
              (mkT [2; 2]%nat g) (PSFloat 1) (Lin 1)) as (q & E & V & K & M & C & P & S & Vr);
  [ repeat constructor; cbn; intuition discriminate
  | discriminate
  | cbn; intros k Hk; intuition (subst; discriminate)
  | repeat constructor; cbn; intuition discriminate
  | intros k Hk; cbn in *; tauto
  | intros k v G Hk;
    assert (Hin : In k (od_keys sq_vals)) by (eapply od_get_some_key; eauto);
    cbn in Hin, Hk; tauto
  | intros [|[|j]] k Hj; cbn in Hj; inversion Hj; subst; try (destruct j; discriminate);
    (eexists; split; [reflexivity|]; cbn; repeat split; auto; try discriminate; lia)
  | intros k Hk; cbn in *; tauto
  | repeat constructor; cbn; intuition discriminate
  | reflexivity
  | apply good_keyed; reflexivity
  | apply good_keyed; reflexivity
  | cbn; repeat constructor
  | cbn; assert (H : n_eqb 1 n1 = true) by (apply Reqb_iff; reflexivity); rewrite H; reflexivity
  | cbn; assert (H : n_eqb 1 n1 = true) by (apply Reqb_iff; reflexivity); rewrite H; reflexivity
  | exists q; split; [exact E|]; split; [exact V|]; rewrite M, C, P; repeat (split; [reflexivity|]); split; [exact S|];
    split; apply Vr; cbn; auto ].

Lemma sq_xy_ok : exists p, sq_xy = Ok p /\ @valid_pd fmt_ex p ["x"; "y"]%string /\
  od_keys (p_marg p) = ["x"; "y"]%string /\ od_keys (p_cond p) = [] /\
  p_prob p = Some (mkT [2; 2]%nat (fun i => sq_prob (hd 0%nat i) (hd 0%nat (tl i)))) /\ p_pscale p = Lin 1 /\
  variable p "x" = Some (Col [1; 2]) /\ variable p "y" = Some (Col [3; 4]).
Proof. square [("x", Some 0%Z); ("y", Some 1%Z)]%string ["x"; "y"]%string (fun i => sq_prob (hd 0%nat i) (hd 0%nat (tl i))). Qed.

Lemma sq_yx_ok : exists p, sq_yx = Ok p /\ @valid_pd fmt_ex p ["y"; "x"]%string /\
  od_keys (p_marg p) = ["x"; "y"]%string /\ od_keys (p_cond p) = [] /\
  p_prob p = Some (mkT [2; 2]%nat (fun i => sq_prob (hd 0%nat (tl i)) (hd 0%nat i))) /\ p_pscale p = Lin 1 /\
  variable p "x" = Some (Col [1; 2]) /\ variable p "y" = Some (Col [3; 4]).
Proof. square [("x", Some 1%Z); ("y", Some 0%Z)]%string ["y"; "x"]%string (fun i => sq_prob (hd 0%nat (tl i)) (hd 0%nat i)). Qed.

Lemma ex_exchanged : exists p q : pd R, sq_xy = Ok p /\ sq_yx = Ok q /\
  "x"%string <> "y"%string /\ @matching fmt_ex p ["x"; "y"]%string q ["y"; "x"]%string /\ fine_scale p /\ fine_scale q /\
  In "x"%string (od_keys (p_marg q)) /\ In "y"%string (od_keys (p_marg q)) /\
  size_of p "x" = 2%nat /\ size_of p "y" = 2%nat /\ ~ log_scaled p /\
  let a := (fun k => if String.eqb k "x" then 0%nat else 1%nat) in
  prob_at p ["x"; "y"]%string a = 1/2 /\ prob_at q ["y"; "x"]%string a = 1/2 /\
  prob_at q ["y"; "x"]%string (exchanged "x" "y" a) = 1/6 /\ 1/2 <= npi /\ npz <= 1/6 <= npi.
Proof.
  destruct sq_xy_ok as (p & E & V & M & C & P & S & Vx & Vy). destruct sq_yx_ok as (q & E' & V' & M' & C' & P' & S' & Vx' & Vy').
  destruct (@fine_plain fmt_ex p S) as [FS NL]. destruct (@fine_plain fmt_ex q S') as [FS' NL'].
  exists p, q. split; [exact E|]. split; [exact E'|]. split; [discriminate|]. split.
  { constructor; auto.
    - rewrite C, C'. tauto.
    - rewrite M, M'. intros x Hx. exact Hx.
    - rewrite M'. intros k [<-|[<-|[]]]; congruence. }
  split; [exact FS|]. split; [exact FS'|]. rewrite M'. split; [cbn; auto|]. split; [cbn; auto|].
  unfold size_of. rewrite Vx, Vy. split; [reflexivity|]. split; [reflexivity|]. split; [exact NL|]. cbv zeta.
  unfold prob_at. rewrite P, P', S, S'. unfold exchanged. cbn [map String.eqb Ascii.eqb Bool.eqb get hd tl sq_prob spec_of].
  assert (D : forall v, denote (PSFloat 1) v = v) by (intros v; unfold denote; cbn; destruct (Req_EM_T 1 0); lra).
  rewrite !D. pose proof npi_big. pose proof npz_le_sixth. pose proof npz_pos. repeat split; lra.
Qed.
