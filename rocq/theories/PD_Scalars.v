(** Products hold the first values found of a variable that has a single value. *)
From Coq Require Import String ZArith Reals Bool Arith Lia List.
From Verif Require Import Base OdLemmas Num Tensor TensorBcast TensorLemmas PScales Names Names_Spec Names_Proofs Distr PDModel PDUtils PD_Spec
  PD_Product_Spec PD_Product1 PD_Make PD_Sums PD_Valid PD_Counts PD_CountsEx PD_Spelling.
Import ListNotations.

Section Scalars.
Notation val := (odict (value R)).

Lemma find_first (args : list (pd R)) k p q v : first_two args k p q -> od_get (p_vals p) k = Some v ->
  find_values (map (fun a => p_vals a) args) k = Some v.
Proof.
  intros (l1 & l2 & l3 & -> & NH) E. rewrite map_app. cbn [map].
  induction l1 as [|a l1 IH]; cbn [map app find_values]; [rewrite E; reflexivity|].
  rewrite (NH a (or_introl eq_refl)). apply IH. intros r I. apply NH. right. exact I.
Qed.

Lemma collect_get (vals : list val) keys pv flags k v : collect_vals vals keys = Ok (pv, flags) -> In k keys ->
  find_values vals k = Some v -> isunitsetint v = false -> od_get pv k = Some v.
Proof.
  unfold collect_vals. intros H I Fv Us.
  assert (G : forall (l : list string) acc pv flags, fold_res (fun acc key =>
              match find_values vals key with
              | None => Err AssertionError
              | Some v =>
                  let us := isunitsetint v in
                  let v' := if us then VSet [SEint 0] else v in
                  Ok (od_set (fst acc) key v', snd acc ++ [(issingleton v', us)])
              end) l acc = Ok (pv, flags) -> In k l \/ od_get (fst acc) k = Some v -> od_get pv k = Some v).
  { clear - Fv Us. induction l as [|k0 l IH]; intros [pv0 fl0] pv flags H C; cbn [fold_res] in H.
    - injection H as <- <-. destruct C as [[]|C]. exact C.
    - destruct (find_values vals k0) as [v0|] eqn:F0; cbn [bind] in H; [|discriminate]. apply IH in H; [exact H|].
      cbn [fst snd] in *. destruct (string_dec k0 k) as [->|Ne].
      + right. assert (v0 = v) by congruence. subst. rewrite Us. apply od_get_set_eq.
      + destruct C as [[C|C]|C]; [congruence|auto|]. right. rewrite od_get_set_ne; auto. }
  eapply G; eauto.
Qed.

Lemma sum_other (vals : list val) keys pv pv' k : snd (flag_of vals k) = false ->
  sum_unitsets vals keys (map (flag_of vals) keys) pv = Ok pv' -> od_get pv' k = od_get pv k.
Proof.
  intros Us H. unfold sum_unitsets in H.
  refine (fold_res_inv _ (fun _ (pv' : odict (value R)) => od_get pv' k = od_get pv k) _ eq_refl _ H).
  intros pre [k0 [b us]] post s1 s2 Ec N1 H1. cbn [fst snd] in H1. destruct us; [|injection H1 as <-; exact N1].
  assert (Ne : k0 <> k).
  { intros ->. assert (I : In (k, (b, true)) (combine keys (map (flag_of vals) keys))) by (rewrite Ec; apply in_elt).
    clear - I Us. induction keys as [|x keys IH]; [destruct I|]. destruct I as [I|I]; [|auto]. injection I as -> I. rewrite I in Us. discriminate. }
  rewrite <- N1.
  refine (fold_res_inv _ (fun _ (pv' : odict (value R)) => od_get pv' k = od_get s1 k) _ eq_refl _ H1). clear - Ne.
  intros pre val post s2 s3 _ N1 H1. destruct (od_get val k0) as [v|]; [|injection H1 as <-; exact N1].
  destruct (assert_ _); [|discriminate]. cbn [bind] in H1. destruct (od_getR s2 k0) as [a0|]; [|discriminate]. cbn [bind] in H1.
  destruct (set_int a0); [|discriminate]. cbn [bind] in H1. destruct (set_int v); [|discriminate]. cbn [bind] in H1. injection H1 as <-.
  rewrite od_get_set_ne by auto. exact N1.
Qed.

Lemma place_other (vals : list val) nd keys cd (pv : val) pv2 dims sh k : fst (flag_of vals k) = true ->
  place_vals nd keys (map fst (map (flag_of vals) keys)) cd pv = Ok (pv2, dims, sh) -> od_get pv2 k = od_get pv k /\ (NoDup (od_keys pv) -> NoDup (od_keys pv2)).
Proof.
  intros Sg H. unfold place_vals in H.
  refine (fold_res_inv _ (fun _ (st : val * odict Z * list nat) => od_get (fst (fst st)) k = od_get pv k /\ (NoDup (od_keys pv) -> NoDup (od_keys (fst (fst st))))) _ _ _ H); [split; auto|].
  intros pre [k0 [s c]] post [[pv1 dm1] sh1] [[pv3 dm3] sh3] Ec [N1 N2] H1. cbn [fst snd] in *. destruct s; [injection H1 as <- <- <-; auto|].
  assert (Ne : k0 <> k).
  { intros ->. assert (I : In (k, (false, c)) (combine keys (combine (map fst (map (flag_of vals) keys)) cd))) by (rewrite Ec; apply in_elt).
    clear - I Sg. revert cd I. induction keys as [|x keys IH]; intros cd I; [destruct I|]. destruct cd as [|y cd]; [destruct I|].
    destruct I as [I|I]; [|eauto]. injection I as -> I _. rewrite I in Sg. discriminate. }
  destruct (od_getR pv1 k0) as [v|]; cbn [bind] in H1; [|discriminate]. destruct v as [| | |t|]; try discriminate.
  destruct (py_indexR _ _); cbn [bind] in H1; [|discriminate]. destruct (reshape _ _); cbn [bind] in H1; [|discriminate].
  injection H1 as <- <- <-. split; [rewrite od_get_set_ne by auto; exact N1|]. intros ND. apply od_keys_set_nodup. auto.
Qed.

Lemma product_first {F : Fmt R} args given (r m c p q : pd R) k e v :
  product args given = Ok (Some r) -> NoDup (marginals args) -> In m args -> In c args ->
  od_vals (p_marg m) <> od_vals (p_marg c) ->
  od_get (p_marg m) k = Some e -> key_of e k -> first_two args k p q -> od_get (p_vals p) k = Some v ->
  issingleton v = true -> v <> VSet [SEnone] -> ~ counted p k -> od_get (p_vals r) k = Some v.
Proof.
  intros H NM Im Ic Dn Em Ke FH Ev Sv Nv NC. unfold product in H. destruct args as [|a0 rest] eqn:EA; [discriminate|]. rewrite <- EA in *.
  destruct (product_pscale _ _) as [psc|]; cbn [bind] in H; [|discriminate].
  destruct (map_res (fun a => p_probR a) args) as [probs|]; cbn [bind] in H; [|discriminate].
  assert (Us : isunitsetint v = false).
  { destruct v as [| |[|[] []]| |]; try reflexivity. exfalso. apply NC. eexists. exact Ev. }
  pose proof (find_first args k p q v FH Ev) as Fv.
  assert (Fl : flag_of (map (fun a => p_vals a) args) k = (true, false)) by (unfold flag_of; rewrite Fv, Us; cbn; rewrite Sv; reflexivity).
  destruct (nodup_str (flat_map (fun a => od_keys (p_marg a)) args)) eqn:ND.
  2: { exfalso. apply not_true_iff_false in ND. apply ND. apply nodup_str_iff. exact NM. }
  cbn [bind] in H. rewrite orb_false_r in H.
  assert (AS : all_same (map (fun a => od_vals (p_marg a)) args) = false).
  { apply not_true_iff_false. intros C. apply Dn. rewrite EA in C, Im, Ic. cbn [map all_same] in C. rewrite forallb_forall in C.
    assert (G : forall x, In x (a0 :: rest) -> od_vals (p_marg a0) = od_vals (p_marg x)).
    { intros x [<-|I]; [reflexivity|]. apply list_eqb_str. apply C. apply in_map_iff. eauto. }
    rewrite <- (G m Im), <- (G c Ic). reflexivity. }
  rewrite AS in H. cbn [andb] in H. rewrite andb_false_r in H.
  destruct (check_conds _ _ _ _); cbn [bind] in H; [|discriminate].
  match type of H with context [collect_vals _ ?ks] => set (K := ks) in * end.
  assert (IK : In k K).
  { unfold K. apply in_map_iff. exists e. split; [eapply key_of_fun; [apply str2key_key_of|exact Ke]|].
    apply in_or_app. left. apply in_concat. exists (od_vals (p_marg m)). split; [apply in_map_iff; eauto|].
    apply od_get_in in Em. apply in_map_iff. exists (k, e). auto. }
  destruct (collect_vals _ K) as [[pv0 flags]|] eqn:CV; cbn [bind] in H; [|discriminate].
  destruct (collect_flags _ _ _ _ CV) as [-> ND0].
  pose proof (collect_get _ _ _ _ k v CV IK Fv Us) as G0.
  destruct (sum_unitsets _ _ _ _) as [pv1|] eqn:SU; cbn [bind] in H; [|discriminate].
  pose proof (sum_nodup _ _ _ _ _ SU ND0) as ND1.
  rewrite <- (sum_other _ _ _ _ k (f_equal snd Fl) SU) in G0.
  match type of H with bind ?x _ = _ => destruct x as [nd|]; cbn [bind] in H; [|discriminate] end.
  destruct (cumsum nd) as [|c0 cd0] eqn:Ecd; [discriminate|]. rewrite <- Ecd in *.
  match type of H with (if ?x then _ else _) = _ => destruct x end.
  - match type of H with bind ?x _ = _ => destruct x as [r'|] eqn:MP; cbn [bind] in H; [|discriminate] end.
    injection H as <-. eapply make_pd_keeps; eauto.
  - match type of H with bind ?x _ = _ => destruct x as [[[pv2 pdm] psh]|] eqn:PV; cbn [bind] in H; [|discriminate] end.
    destruct (place_other _ _ _ _ _ _ _ _ k (f_equal fst Fl) PV) as [G2 ND2].
    match type of H with bind ?x _ = _ => destruct x; cbn [bind] in H; [|discriminate] end.
    destruct (prod_rule _ _ _ _) as [[prob ps]|]; cbn [bind] in H; [|discriminate].
    match type of H with bind ?x _ = _ => destruct x as [r'|] eqn:MP; cbn [bind] in H; [|discriminate] end.
    injection H as <-. eapply make_pd_keeps; eauto. congruence.
Qed.
End Scalars.

(** p(x=a) times p(y=c|x=b), a, b and c being printed as 5, 6 and 1. *)
Section Accepted.
Context {F : Fmt R} (a b c pa pb : R).
Hypothesis Fa : F a = "5"%string.
Hypothesis Fb : F b = "6"%string.
Hypothesis Fc : F c = "1"%string.

Definition x_is : result (pd R) := make_pd "x" [("x", VNum a)]%string (Some []) (Some (tscalar pa)) (PSFloat 1%R).
Definition y_given_x : result (pd R) := make_pd "y|x" [("y", VNum c); ("x", VNum b)]%string (Some []) (Some (tscalar pb)) (PSFloat 1%R).

Lemma x_y_accepted : exists p q r, x_is = Ok p /\ y_given_x = Ok q /\
  NoDup (marginals [p; q]) /\ od_vals (p_marg p) <> od_vals (p_marg q) /\
  od_get (p_marg p) "x"%string = Some "x=5"%string /\ od_get (p_cond q) "x"%string = Some "x=6"%string /\
  od_get (p_vals p) "x"%string = Some (VNum a) /\ od_get (p_vals q) "x"%string = Some (VNum b) /\
  product [p; q] PSNone = Ok (Some r).
Proof.
  destruct x_is as [p|] eqn:Ep; [|exfalso; revert Ep; cbv -[n_eqb n_leb n_ltb n_ofZ n1 n0 n_mul RNum R1 IZR]; rewrite ?Fa, ?one1; discriminate].
  destruct y_given_x as [q|] eqn:Eq; [|exfalso; revert Eq; cbv -[n_eqb n_leb n_ltb n_ofZ n1 n0 n_mul RNum R1 IZR]; rewrite ?Fb, ?Fc, ?one1; discriminate].
  exists p, q. revert Ep Eq.
  cbv -[product marginals od_get od_keys od_vals n_eqb n_leb n_ltb n_ofZ n1 n0 n_mul RNum R1 IZR]; rewrite ?Fa, ?Fb, ?Fc, ?one1.
  cbv -[product marginals od_get od_keys od_vals n_eqb n_leb n_ltb n_ofZ n1 n0 n_mul RNum R1 IZR].
  intros Ep Eq. injection Ep as <-. injection Eq as <-.
  match goal with |- context [@product R RNum F ?l ?g] => assert (X : exists r, @product R RNum F l g = Ok (Some r)) end.
  { eexists. cbv -[n_eqb n_leb n_ltb n_ofZ n1 n0 n_mul RNum R1 IZR].
    repeat (rewrite ?mul111, ?one1, ?one2, ?one0, ?zero0, ?Fa, ?Fb, ?Fc; cbv -[n_eqb n_leb n_ltb n_ofZ n1 n0 n_mul RNum R1 IZR]). reflexivity. }
  destruct X as (r & X). exists r. do 2 (split; [reflexivity|]).
  split; [cbn; repeat constructor; cbn; intuition discriminate|]. split; [cbn; discriminate|]. repeat (split; [cbn; rewrite ?Fa, ?Fb, ?Fc; reflexivity|]). exact X.
Qed.
End Accepted.
