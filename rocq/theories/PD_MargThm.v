(** The statements of Thm_Marg derived from the lemmas, and their examples. *)
From Coq Require Import String ZArith Reals Lra Bool Arith Lia Permutation List.
From Verif Require Import Base Num Tensor TensorBcast OdLemmas TensorLemmas RNumLemmas PScales
  PScales_Spec PScales_Proofs Names Names_Spec Names_Proofs Distr PDModel PD_Spec PD_Make PD_Sums
  PD_Valid PD_Marg PD_Marg2 PD_MargRefute PD_Examples.
Import ListNotations.
Local Open Scope R_scope.

Lemma marginalise_sums_out (F : Fmt R) (p : pd R) (L keys : list string) :
  valid_pd p L -> fine_scale p -> key_ordered p L ->
  incl keys (od_keys (p_marg p)) -> incl keys L -> without keys (p_keylist p) <> [] ->
  exists q, marginalise p keys = Ok q /\ valid_pd q (without keys L) /\
    p_keylist q = without keys (p_keylist p) /\
    od_keys (p_marg q) = without keys (od_keys (p_marg p)) /\
    p_cond q = p_cond p /\ p_pscale q = p_pscale p /\
    (forall k, In k (p_keylist q) -> variable q k = variable p k) /\
    forall a, in_bounds p (without keys L) a ->
      (log_scaled p -> (forall b, in_bounds p L b -> prob_at p L b <= npi) /\
                       npz <= sum_over (sized p (restrict keys L)) (prob_at p L) a) ->
      prob_at q (without keys L) a = sum_over (sized p (restrict keys L)) (prob_at p L) a.
Proof.
  intros V FS KO IM IK NE.
  destruct (marginalise_ok p L V FS keys IM IK (key_ordered_aligned p L keys KO IK) NE) as
    (q & E & Vq & Kq & Mq & Cq & Sq & Vr & Pq).
  exists q. do 3 (split; [assumption|]). split; [|auto].
  rewrite Mq. apply (od_keys_filter (fun x => negb (mem_str x keys))).
Qed.

Lemma marginalise_conserves_total (F : Fmt R) (p : pd R) (L keys : list string) :
  valid_pd p L -> fine_scale p -> key_ordered p L ->
  incl keys (od_keys (p_marg p)) -> incl keys L -> without keys (p_keylist p) <> [] ->
  (log_scaled p -> (forall b, in_bounds p L b -> prob_at p L b <= npi) /\
     forall a, in_bounds p (without keys L) a ->
       npz <= sum_over (sized p (restrict keys L)) (prob_at p L) a) ->
  exists q, marginalise p keys = Ok q /\ total q (without keys L) = total p L.
Proof.
  intros V FS KO IM IK NE LG.
  destruct (marginalise_total p L keys V FS KO IM IK NE LG) as (q & E & T).
  exists q. split; auto. apply T.
Qed.

Lemma marginalise_aligned (F : Fmt R) (p : pd R) (L keys : list string) :
  valid_pd p L -> fine_scale p ->
  incl keys (od_keys (p_marg p)) -> incl keys L ->
  (forall k, In k (without keys L) ->
    length (restrict keys (before k (p_keylist p))) = length (restrict keys (before k L))) ->
  without keys (p_keylist p) <> [] ->
  exists q, marginalise p keys = Ok q /\ valid_pd q (without keys L) /\
    forall a, in_bounds p (without keys L) a ->
      (log_scaled p -> (forall b, in_bounds p L b -> prob_at p L b <= npi) /\
                       npz <= sum_over (sized p (restrict keys L)) (prob_at p L) a) ->
      prob_at q (without keys L) a = sum_over (sized p (restrict keys L)) (prob_at p L) a.
Proof.
  intros V FS IM IK AL NE.
  destruct (marginalise_ok p L V FS keys IM IK AL NE) as
    (q & E & Vq & Kq & Mq & Cq & Sq & Vr & Pq).
  exists q. auto.
Qed.

Section Ex.
Let F : Fmt R := fmt_ex.
Existing Instance F.

Lemma ex_c13 : exists p : pd R, @ex_make = Ok p /\ valid_pd p ["x"; "y"; "z"]%string /\
    fine_scale p /\ key_ordered p ["x"; "y"; "z"]%string /\
    incl ["x"]%string (od_keys (p_marg p)) /\ incl ["x"]%string ["x"; "y"; "z"]%string /\
    without ["x"]%string (p_keylist p) <> [] /\ ~ log_scaled p /\
    in_bounds p (without ["x"]%string ["x"; "y"; "z"]%string) (fun _ => 1%nat) /\
    incl ["y"; "w"]%string (od_keys (p_marg p)) /\
    (forall k, In k (od_keys (p_marg p)) -> ~ In k ["x"; "y"; "z"]%string -> In k ["y"; "w"]%string).
Proof.
  destruct ex_ok as (p & E & V & K & M & C & P & S & Vx & Vy & Vz & Vw). exists p.
  destruct (fine_plain p S) as [FS NL].
  split; [exact E|]. split; [exact V|]. split; [exact FS|].
  unfold key_ordered. rewrite K, M.
  split; [reflexivity|]. split; [intros k; cbn; tauto|]. split; [intros k; cbn; tauto|].
  split; [discriminate|]. split; [exact NL|]. split.
  { intros k Hk. cbn in Hk. unfold size_of. destruct Hk as [<-|[<-|[]]]; rewrite ?Vy, ?Vz; cbn; lia. }
  split; [intros k; cbn; tauto|]. intros k; cbn; tauto.
Qed.

Lemma ex_c14 : exists p : pd R, @ex_make = Ok p /\ valid_pd p ["x"; "y"; "z"]%string /\
    fine_scale p /\ key_ordered p ["x"; "y"; "z"]%string /\
    incl (["x"%string] ++ ["y"%string]) (od_keys (p_marg p)) /\
    incl (["x"%string] ++ ["y"%string]) ["x"; "y"; "z"]%string /\
    (forall k, In k ["x"]%string -> ~ In k ["y"]%string) /\
    without (["x"%string] ++ ["y"%string]) (p_keylist p) <> [] /\ ~ log_scaled p.
Proof.
  destruct ex_ok as (p & E & V & K & M & C & P & S & Vx & Vy & Vz & Vw). exists p.
  destruct (fine_plain p S) as [FS NL].
  split; [exact E|]. split; [exact V|]. split; [exact FS|].
  unfold key_ordered. rewrite K, M.
  split; [reflexivity|]. split; [intros k; cbn; tauto|]. split; [intros k; cbn; tauto|].
  split; [|split; [discriminate|exact NL]]. intros k [<-|[]] [H|[]]. discriminate.
Qed.

Lemma ex_c15_transposed :
  exists p : pd R, @ext_make = Ok p /\ valid_pd p ["y"; "x"]%string /\ fine_scale p /\
    p_keylist p = ["x"; "y"]%string /\ od_keys (p_marg p) = ["x"; "y"]%string.
Proof.
  destruct ext_ok as (p & E & V & K & M & S). exists p. destruct (fine_plain p S) as [FS NL].
  split; [exact E|]. split; [exact V|]. auto.
Qed.

Lemma ex_c15_exchanged :
  exists p : pd R, @exi_make = Ok p /\ valid_pd p ["u"; "y"; "z"; "v"]%string /\ fine_scale p /\
    ~ log_scaled p /\ p_keylist p = ["y"; "u"; "v"; "z"]%string /\
    incl ["u"; "v"]%string (od_keys (p_marg p)) /\ size_of p "y" = 2%nat /\ size_of p "z" = 2%nat.
Proof.
  destruct exi_ok as (p & E & V & K & M & S & Sy & Sz). exists p. destruct (fine_plain p S) as [FS NL].
  split; [exact E|]. split; [exact V|]. split; [exact FS|]. split; [exact NL|]. split; [exact K|].
  rewrite M. split; [intros k; cbn; tauto|]. auto.
Qed.

End Ex.

(** p(x,y,z) with x and y along axis 0, for any numbers. *)
Section Shared.
Context {T : Type} {NT : Num T} {FT : Fmt T}.
Definition shared_make (a b c d e f one w : T) := make_pd "x,y,z"
  [("x", VArr (of_list n0 [a; b])); ("y", VArr (of_list n0 [c; d])); ("z", VArr (of_list n0 [e; f]))]%string
  (Some [("x", Some 0%Z); ("y", Some 0%Z); ("z", Some 1%Z)]%string)
  (Some (mkT [2; 2]%nat (fun _ => w))) (PSFloat one).

Lemma shared_ok (a b c d e f one w : T) : n_eqb one n1 = true ->
  exists (p : @pd T) (u v x t : tensor T), shared_make a b c d e f one w = Ok p /\
    p_vals p = [("x", VArr u); ("y", VArr v); ("z", VArr x)]%string /\
    p_dims p = [("x", Some 0%Z); ("y", Some 0%Z); ("z", Some 1%Z)]%string /\
    d_aresing (p_d p) = [false; false; false] /\
    od_keys (p_marg p) = ["x"; "y"; "z"]%string /\ p_pscale p = Lin n1 /\
    p_prob p = Some t /\ ndim t = 2%nat /\ tsize x = list_max (shape x) /\ shape x <> [] /\
    ~ In "z"%string disallowed /\
    Forall (fun ke => good_entry (snd ke) /\ key_of (snd ke) (fst ke)) (p_marg p) /\ p_cond p = [].
Proof.
  intros H. unfold shared_make, make_pd.
  match goal with |- context [str_margcond ?n] => let r := eval vm_compute in (str_margcond n) in
    assert (E1 : str_margcond n = r) by (vm_compute; reflexivity); rewrite E1; clear E1 end.
  cbn [bind].
  match goal with |- context [make_dist ?n ?v ?d] => let r := eval vm_compute in (make_dist n v d) in
    assert (E2 : make_dist n v d = r) by (vm_compute; reflexivity); rewrite E2; clear E2 end.
  cbn [bind d_vals d_aresing fst snd].
  match goal with |- context [override_names ?n ?v] => let r := eval vm_compute in (override_names n v) in
    assert (E3 : override_names n v = r) by (vm_compute; reflexivity); rewrite E3; clear E3 end.
  cbn [bind].
  assert (E4 : eval_pscale (PSFloat one) = Ok (Lin n1)) by (cbn [eval_pscale]; rewrite H; reflexivity).
  rewrite E4. cbn [bind].
  match goal with |- context [check_prob ?n ?v] => let r := eval vm_compute in (check_prob n v) in
    assert (E5 : check_prob n v = r) by (vm_compute; reflexivity); rewrite E5; clear E5 end.
  cbn [bind].
  eexists _, _, _, _, _. split; [reflexivity|].
  cbn. repeat (split; [reflexivity || discriminate|]).
  split; [intuition discriminate|]. split; [|reflexivity]. apply good_keyed. reflexivity.
Qed.
End Shared.

Section Ex2.
Let F : Fmt R := fmt_ex.
Existing Instance F.

(** p(x,y,z) with x and y along axis 0. *)
Definition exs_make := make_pd "x,y,z"
  [("x", VArr (of_list 0 [1; 2])); ("y", VArr (of_list 0 [3; 4])); ("z", VArr (of_list 0 [5; 6]))]%string
  (Some [("x", Some 0%Z); ("y", Some 0%Z); ("z", Some 1%Z)]%string)
  (Some (mkT [2; 2]%nat (fun _ => / 4))) (PSFloat 1).

Lemma ex_c15_shared :
  exists (p : pd R) (a b c t : tensor R), @exs_make = Ok p /\
    p_vals p = [("x", VArr a); ("y", VArr b); ("z", VArr c)]%string /\
    p_dims p = [("x", Some 0%Z); ("y", Some 0%Z); ("z", Some 1%Z)]%string /\
    d_aresing (p_d p) = [false; false; false] /\
    od_keys (p_marg p) = ["x"; "y"; "z"]%string /\ p_pscale p = Lin 1 /\
    p_prob p = Some t /\ ndim t = 2%nat /\ tsize c = list_max (shape c) /\ shape c <> [] /\
    ~ In "z"%string disallowed /\
    Forall (fun ke => good_entry (snd ke) /\ key_of (snd ke) (fst ke)) (p_marg p) /\ p_cond p = [].
Proof.
  apply (@shared_ok R RNum F 1 2 3 4 5 6 1 (/ 4)). apply Reqb_iff. reflexivity.
Qed.
End Ex2.
