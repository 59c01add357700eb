(** Products of factors that spell a column differently (x and x=[]). *)
From Coq Require Import String Ascii ZArith Reals Lra Bool Arith Lia Permutation List.
From Verif Require Import Base Num Tensor TensorLemmas TensorBcast OdLemmas RNumLemmas PScales PScales_Spec
  Names Names_Spec Names_Proofs Distr Distr_Spec Distr_Proofs PDModel PDUtils PD_Spec PD_Sums PD_Make PD_Valid
  PD_Product_Spec PD_Product3.
Import ListNotations.
Local Open Scope list_scope.

(** *** Axes assigned to keys of which one comes twice *)
Definition place_step (ndims : nat) (st : odict (value R) * odict Z * list nat) (e : string * (bool * nat)) :
    result (odict (value R) * odict Z * list nat) :=
  let '(pv, dims, psh) := st in
  let '(key, (s, c)) := e in
  if (s : bool) then Ok st
  else
    let! v := od_getR pv key in
    match v with
    | VArr a =>
        let dim := (Z.of_nat c - 1)%Z in
        let! j := py_indexR ndims dim in
        let rsh := set_nth j (tsize a) (repeat 1 ndims) in
        let! a' := reshape rsh a in
        Ok (od_set pv key (VArr a'), od_set dims key dim, set_nth j (tsize a) psh)
    | _ => Err AttributeError
    end.

Lemma place_step_false n pv dims psh k c st : place_step n (pv, dims, psh) (k, (false, c)) = Ok st ->
  exists a psh', st = (od_set pv k (VArr a), od_set dims k (Z.of_nat c - 1)%Z, psh').
Proof.
  cbn. destruct (od_getR pv k) as [v|]; [|discriminate]. cbn [bind]. destruct v; try discriminate.
  destruct (py_indexR n _) as [j|]; [|discriminate]. cbn [bind]. destruct (reshape _ _) as [a'|]; [|discriminate]. cbn [bind].
  intros H. injection H as <-. eauto.
Qed.

Lemma place_dims n l pv dims psh pv' dims' psh' k : fold_res (place_step n) l (pv, dims, psh) = Ok (pv', dims', psh') ->
  (forall z, od_get dims' k = Some z -> (exists c, In (k, (false, c)) l /\ z = (Z.of_nat c - 1)%Z) \/ od_get dims k = Some z) /\
  (od_get dims k <> None -> od_get dims' k <> None) /\
  (NoDup (od_keys pv) -> NoDup (od_keys pv')) /\ (od_get pv k <> None -> od_get pv' k <> None).
Proof.
  revert pv dims psh. induction l as [|[k0 [s c]] l IH]; intros pv dims psh H; cbn [fold_res] in H.
  { injection H as <- <- <-. auto. }
  destruct s.
  { cbn [place_step bind] in H. destruct (IH _ _ _ H) as (I1 & I2 & I3). split; [|auto]. intros z Hz. destruct (I1 z Hz) as [(c' & Ic & E)|E]; [|auto].
    left. exists c'. split; [right; exact Ic|exact E]. }
  destruct (place_step n (pv, dims, psh) (k0, (false, c))) as [[[pv1 dims1] psh1]|] eqn:PS; cbn [bind] in H; [|discriminate].
  apply place_step_false in PS. destruct PS as (a & psh2 & PS). injection PS as -> -> ->.
  destruct (IH _ _ _ H) as (I1 & I2 & I3 & I4). split; [|split; [|split]].
  - intros z Hz. destruct (I1 z Hz) as [(c' & Ic & E)|E]; [left; exists c'; split; [right; exact Ic|exact E]|].
    destruct (string_dec k k0) as [->|Ne].
    + rewrite od_get_set_eq in E. injection E as <-. left. exists c. split; [left; reflexivity|reflexivity].
    + rewrite od_get_set_ne in E by congruence. auto.
  - intros Hk. apply I2. destruct (string_dec k k0) as [->|Ne]; [rewrite od_get_set_eq; discriminate|rewrite od_get_set_ne by congruence; exact Hk].
  - intros ND. apply I3. apply od_keys_set_nodup. exact ND.
  - intros Hk. apply I4. destruct (string_dec k k0) as [->|Ne]; [rewrite od_get_set_eq; discriminate|rewrite od_get_set_ne by congruence; exact Hk].
Qed.

Lemma twice_gap n l1 l2 l3 k c0 c1 pv psh pv' dims' psh' :
  fold_res (place_step n) (l1 ++ (k, (false, c0)) :: l2 ++ (k, (false, c1)) :: l3) (pv, [], psh) = Ok (pv', dims', psh') ->
  (forall k' c, In (k', (false, c)) l1 -> c < c0) -> 0 < c0 -> (forall k' c, In (k', (false, c)) l2 -> c0 < c) ->
  c0 < c1 -> (forall k' c, In (k', (false, c)) l3 -> c1 < c) ->
  (forall k', od_get dims' k' <> Some (Z.of_nat c0 - 1)%Z) /\ (exists z, od_get dims' k = Some z /\ (Z.of_nat c0 <= z)%Z) /\ od_get pv' k <> None.
Proof.
  intros H B1 P0 B2 C B3. rewrite fold_res_app in H.
  destruct (fold_res (place_step n) l1 (pv, [], psh)) as [[[v1 d1] p1]|] eqn:H1; cbn [bind] in H; [|discriminate]. cbn [fold_res] in H.
  destruct (place_step n (v1, d1, p1) (k, (false, c0))) as [[[v2 d2] p2]|] eqn:H2; cbn [bind] in H; [|discriminate].
  apply place_step_false in H2. destruct H2 as (a2 & q2 & H2). injection H2 as -> -> ->. rewrite fold_res_app in H.
  destruct (fold_res (place_step n) l2 _) as [[[v3 d3] p3]|] eqn:H3; cbn [bind] in H; [|discriminate]. cbn [fold_res] in H.
  destruct (place_step n (v3, d3, p3) (k, (false, c1))) as [[[v4 d4] p4]|] eqn:H4; cbn [bind] in H; [|discriminate].
  apply place_step_false in H4. destruct H4 as (a4 & q4 & H4). injection H4 as -> -> ->.
  split; [|split].
  - intros k' E. destruct (place_dims _ _ _ _ _ _ _ _ k' H) as (I1 & _). destruct (I1 _ E) as [(c & Ic & Ez)|E4]; [apply B3 in Ic; lia|].
    destruct (string_dec k' k) as [->|Ne]; [rewrite od_get_set_eq in E4; injection E4 as E4; lia|]. rewrite od_get_set_ne in E4 by congruence.
    destruct (place_dims _ _ _ _ _ _ _ _ k' H3) as (I3 & _). destruct (I3 _ E4) as [(c & Ic & Ez)|E2]; [apply B2 in Ic; lia|].
    rewrite od_get_set_ne in E2 by congruence.
    destruct (place_dims _ _ _ _ _ _ _ _ k' H1) as (J1 & _). destruct (J1 _ E2) as [(c & Ic & Ez)|E0]; [apply B1 in Ic; lia|discriminate].
  - destruct (place_dims _ _ _ _ _ _ _ _ k H) as (I1 & I2 & _). rewrite od_get_set_eq in I1, I2.
    destruct (od_get dims' k) as [z|] eqn:Ez; [|exfalso; apply I2; [discriminate|reflexivity]].
    exists z. split; [reflexivity|]. destruct (I1 z eq_refl) as [(c & Ic & E)|E]; [apply B3 in Ic; lia|injection E as <-; lia].
  - destruct (place_dims _ _ _ _ _ _ _ _ k H) as (_ & _ & _ & I4). apply I4. rewrite od_get_set_eq. discriminate.
Qed.

(** Axes grow along the keys. *)
Lemma cumsum_bounds n sing (keys : list string) e c : In (e, (false, c)) (combine keys (combine sing (cumsum_from n (map negb sing)))) ->
  n < c <= n + length (filter negb sing).
Proof.
  revert n keys. induction sing as [|b sing IH]; intros n keys I; [destruct keys; destruct I|]. destruct keys as [|k keys]; [destruct I|].
  cbn [map cumsum_from combine] in I. destruct I as [I|I].
  - injection I as -> -> <-. cbn. lia.
  - apply IH in I. cbn [filter]. destruct b; cbn [negb length] in *; lia.
Qed.

Lemma cumsum_app n l m : cumsum_from n (map negb (l ++ m)) = cumsum_from n (map negb l) ++ cumsum_from (n + length (filter negb l)) (map negb m).
Proof.
  revert n. induction l as [|b l IH]; intros n; [cbn; rewrite Nat.add_0_r; reflexivity|]. cbn [app map cumsum_from filter]. rewrite IH.
  cbn [app]. f_equal. f_equal. destruct b; cbn [negb length]; f_equal; lia.
Qed.

Lemma cumsum_length n l : length (cumsum_from n l) = length l.
Proof. revert n. induction l as [|b l IH]; intros n; [reflexivity|]. cbn. rewrite IH. reflexivity. Qed.

Lemma combine_app {B C} (l1 l2 : list B) (m1 m2 : list C) : length l1 = length m1 ->
  combine (l1 ++ l2) (m1 ++ m2) = combine l1 m1 ++ combine l2 m2.
Proof. revert m1. induction l1 as [|b l1 IH]; intros [|c m1] E; try discriminate; [reflexivity|]. cbn. rewrite IH by (cbn in E; congruence). reflexivity. Qed.

Lemma twice_placed n k1 k2 k3 k s1 s2 s3 pv psh pv' dims' psh' :
  length k1 = length s1 -> length k2 = length s2 ->
  fold_res (place_step n) (combine (k1 ++ k :: k2 ++ k :: k3) (combine (s1 ++ false :: s2 ++ false :: s3) (cumsum (map negb (s1 ++ false :: s2 ++ false :: s3)))))
    (pv, [], psh) = Ok (pv', dims', psh') ->
  exists c0, 0 < c0 /\ (forall k', od_get dims' k' <> Some (Z.of_nat c0 - 1)%Z) /\ (exists z, od_get dims' k = Some z /\ (Z.of_nat c0 <= z)%Z) /\
    (forall k' z, od_get dims' k' = Some z -> (0 <= z)%Z) /\ od_get pv' k <> None /\ (NoDup (od_keys pv) -> NoDup (od_keys pv')).
Proof.
  intros E1 E2 H. unfold cumsum in H.
  assert (NN : forall k' z, od_get dims' k' = Some z -> (0 <= z)%Z).
  { intros k' z Ez. destruct (place_dims _ _ _ _ _ _ _ _ k' H) as (I1 & _). destruct (I1 z Ez) as [(c & Ic & ->)|C]; [|discriminate]. apply cumsum_bounds in Ic. lia. }
  assert (ND : NoDup (od_keys pv) -> NoDup (od_keys pv')) by apply (place_dims _ _ _ _ _ _ _ _ k H). rewrite cumsum_app in H.
  rewrite (combine_app s1) in H by (rewrite cumsum_length, map_length; reflexivity).
  rewrite (combine_app k1) in H by (rewrite combine_length, cumsum_length, map_length, Nat.min_id; exact E1).
  set (n1 := 0 + length (filter negb s1)) in *.
  change (map negb (false :: s2 ++ false :: s3)) with (true :: map negb (s2 ++ false :: s3)) in H. cbn [cumsum_from combine] in H.
  rewrite cumsum_app in H. rewrite (combine_app s2) in H by (rewrite cumsum_length, map_length; reflexivity).
  rewrite (combine_app k2) in H by (rewrite combine_length, cumsum_length, map_length, Nat.min_id; exact E2).
  set (n2 := S n1 + length (filter negb s2)) in *.
  change (map negb (false :: s3)) with (true :: map negb s3) in H. cbn [cumsum_from combine] in H.
  assert (G : (forall k', od_get dims' k' <> Some (Z.of_nat (S n1) - 1)%Z) /\ (exists z, od_get dims' k = Some z /\ (Z.of_nat (S n1) <= z)%Z) /\ od_get pv' k <> None).
  2:{ exists (S n1). split; [lia|]. tauto. }
  eapply twice_gap; [exact H| | | | |].
  - intros k' c I. apply cumsum_bounds in I. unfold n1. lia.
  - lia.
  - intros k' c I. apply cumsum_bounds in I. lia.
  - unfold n2. lia.
  - intros k' c I. apply cumsum_bounds in I. lia.
Qed.

(** *** The values collected for the product *)
Definition flag_of (vals : list (odict (value R))) (key : string) : bool * bool :=
  match find_values vals key with
  | None => (true, true)
  | Some v => let us := isunitsetint v in (issingleton (if us then VSet [SEint 0] else v), us)
  end.

Lemma collect_flags vals keys pv flags : collect_vals vals keys = Ok (pv, flags) ->
  flags = map (flag_of vals) keys /\ NoDup (od_keys pv).
Proof.
  unfold collect_vals.
  assert (G : forall (l : list string) acc pv flags, fold_res (fun acc key =>
              match find_values vals key with
              | None => Err AssertionError
              | Some v =>
                  let us := isunitsetint v in
                  let v' := if us then VSet [SEint 0] else v in
                  Ok (od_set (fst acc) key v', snd acc ++ [(issingleton v', us)])
              end) l acc = Ok (pv, flags) -> flags = snd acc ++ map (flag_of vals) l /\ (NoDup (od_keys (fst acc)) -> NoDup (od_keys pv))).
  { clear. induction l as [|k l IH]; intros [pv0 fl0] pv flags H; cbn [fold_res] in H.
    - injection H as <- <-. cbn. rewrite app_nil_r. auto.
    - destruct (find_values vals k) as [v|] eqn:Fv; cbn [bind] in H; [|discriminate]. apply IH in H. cbn [fst snd] in H. destruct H as [-> H2]. split.
      + cbn [map]. unfold flag_of at 2. rewrite Fv. cbn [snd]. rewrite <- app_assoc. reflexivity.
      + intros ND. apply H2. apply od_keys_set_nodup. exact ND. }
  intros H. apply G in H. cbn in H. destruct H as [-> H]. split; [reflexivity|]. apply H. constructor.
Qed.

Lemma sum_nodup (vals : list (odict (value R))) keys flags pv pv' : sum_unitsets vals keys flags pv = Ok pv' -> NoDup (od_keys pv) -> NoDup (od_keys pv').
Proof.
  unfold sum_unitsets. intros H ND.
  refine (fold_res_inv _ (fun _ (pv : odict (value R)) => NoDup (od_keys pv)) _ ND _ H).
  intros pre [k [b us]] post s1 s2 _ N1 H1. cbn [fst snd] in H1. destruct us; [|injection H1 as <-; exact N1].
  refine (fold_res_inv _ (fun _ (pv : odict (value R)) => NoDup (od_keys pv)) _ N1 _ H1). clear.
  intros pre val post s1 s2 _ N1 H1. destruct (od_get val k) as [v|]; [|injection H1 as <-; exact N1].
  destruct (assert_ _); [|discriminate]. cbn [bind] in H1. destruct (od_getR s1 k) as [a0|]; [|discriminate]. cbn [bind] in H1.
  destruct (set_int a0); [|discriminate]. cbn [bind] in H1. destruct (set_int v); [|discriminate]. cbn [bind] in H1. injection H1 as <-.
  apply od_keys_set_nodup. exact N1.
Qed.

Lemma gap_refused {F : Fmt R} nm pv (dims : odict Z) c0 k prob ps r : NoDup (od_keys pv) -> pv <> [] ->
  0 < c0 -> (forall k', od_get dims k' <> Some (Z.of_nat c0 - 1)%Z) -> (exists z, od_get dims k = Some z /\ (Z.of_nat c0 <= z)%Z) ->
  (forall k' z, od_get dims k' = Some z -> (0 <= z)%Z) ->
  make_pd nm pv (Some (map (fun kd => (fst kd, Some (snd kd))) dims)) prob ps <> Ok r.
Proof.
  intros ND NE P0 NG (z & Gz & Lz) NN H. unfold make_pd in H. destruct (str_margcond nm) as [[m c]|]; [|discriminate]. cbn [bind] in H.
  set (dims' := map (fun kd : string * Z => (fst kd, Some (snd kd))) dims) in *.
  assert (GD : forall k, od_get dims' k = match od_get dims k with Some z => Some (Some z) | None => None end).
  { intros k0. unfold dims'. clear. induction dims as [|[k1 v] d IH]; [reflexivity|]. cbn [map fst snd od_get]. destruct (String.eqb k0 k1); auto. }
  destruct (make_dist nm pv (Some dims')) as [d|] eqn:MD; [|discriminate].
  assert (NX : naxes dims' (ndim_of_dims dims')) by (apply naxes_iff; reflexivity).
  destruct (proj1 (make_dist_iff nm pv dims' _ ND NE NX) (ex_intro _ d MD)) as (_ & _ & D3).
  assert (LT : Nat.pred c0 < ndim_of_dims dims').
  { destruct NX as [NX _]. specialize (NX k z). assert (I : In (k, Some z) dims') by (apply od_get_in; rewrite GD, Gz; reflexivity). apply NX in I. lia. }
  destruct (D3 _ LT) as (k' & a & _ & (d' & Gd & [[_ E]|[C _]] & _)).
  - rewrite GD in Gd. destruct (od_get dims k') as [z'|] eqn:E'; [|discriminate]. injection Gd as <-. apply (NG k'). rewrite E'. f_equal. lia.
  - rewrite GD in Gd. destruct (od_get dims k') as [z'|] eqn:E'; [|discriminate]. injection Gd as <-. apply NN in E'. lia.
Qed.

Section Spelled.
Context {F : Fmt R}.
Variables (args : list (pd R)) (axes : pd R -> list string) (given : pspec R).

Lemma product_spelled p q k e1 e2 : (forall p, In p args -> valid_pd p (axes p)) -> NoDup (marginals args) ->
  In p args -> In q args -> od_get (p_marg p) k = Some e1 -> od_get (p_cond q) k = Some e2 -> e1 <> e2 ->
  (forall p, In p args -> In k (p_keylist p) -> In k (axes p)) ->
  forall r, product args given <> Ok r.
Proof.
  intros V ND Ip Iq G1 G2 NE AX r H.
  assert (K1 : In k (od_keys (p_marg p))) by (eapply od_get_some_key; exact G1).
  assert (K2 : In k (od_keys (p_cond q))) by (eapply od_get_some_key; exact G2).
  assert (KP : In k (p_keylist p)) by (apply (vp_key_iff p _ (V p Ip)); auto).
  assert (KE : forall p' e, In p' args -> od_get (p_marg p') k = Some e \/ od_get (p_cond p') k = Some e -> str2key e = k).
  { intros p' e I' G. assert (In (k, e) (p_marg p' ++ p_cond p')) by (apply in_app_iff; destruct G as [G|G]; [left|right]; apply od_get_in; exact G).
    pose proof (vp_entries _ _ (V p' I')) as FE. rewrite Forall_forall in FE. destruct (FE _ H0) as [_ KO]. cbn in KO. eapply key_of_fun; [apply str2key_key_of|exact KO]. }
  assert (UK : forall p' e, In p' args -> In e (od_vals (p_marg p')) -> str2key e = k -> e = e1).
  { intros p' e I' Ie Ke. apply in_map_iff in Ie. destruct Ie as ([k' e'] & E & Ie). cbn in E. subst e'.
    pose proof (vp_entries _ _ (V p' I')) as FE. rewrite Forall_forall in FE. destruct (FE (k', e)) as [_ KO]; [apply in_app_iff; auto|]. cbn in KO.
    assert (k' = k) by (rewrite <- Ke; eapply key_of_fun; [exact KO|apply str2key_key_of]). subst k'.
    assert (NM : NoDup (od_keys (p_marg p'))).
    { pose proof (vp_names _ _ (V p' I')) as PM. pose proof (vp_keys _ _ (V p' I')) as NK. eapply Permutation_NoDup in NK; [|apply Permutation_sym; exact PM]. apply nodup_app_iff in NK. apply NK. }
    apply od_in_get in Ie; [|exact NM].
    assert (p' = p); [|subst p'; congruence].
    assert (Kp' : In k (od_keys (p_marg p'))) by (eapply od_get_some_key; exact Ie).
    clear -ND Ip I' K1 Kp'. unfold marginals in ND. induction args as [|b l IH]; [destruct Ip|]. cbn [flat_map] in ND. apply nodup_app_iff in ND. destruct ND as (_ & N2 & D).
    destruct Ip as [<-|Ip], I' as [<-|I']; auto; exfalso; apply (D k); auto; apply in_flat_map; eauto. }
  unfold product in H. destruct args as [|arg0 rest] eqn:EA; [destruct Ip|]. rewrite <- EA in *. 
  destruct (product_pscale given _) as [psc|]; [|discriminate]. cbn [bind] in H.
  destruct (map_res _ _) as [probs|]; [|discriminate]. cbn [bind] in H.
  assert (NDm : nodup_str (flat_map (fun a => od_keys (p_marg a)) args) = true) by (apply nodup_str_iff; exact ND). rewrite NDm in H. cbn [bind] in H.
  assert (AS : forallb (fun b : bool => b) (map (fun a => match p_issing a with Some true => true | _ => false end) args) = false).
  { apply not_true_is_false. intros C. rewrite forallb_forall in C.
    assert (Q : (match p_issing p with Some true => true | _ => false end) = true) by (apply C; apply in_map_iff; exists p; auto).
    unfold p_issing in Q. rewrite (vp_issing _ _ (V p Ip)) in Q.
    destruct (forallb _ (p_vals p)) eqn:FB; [|discriminate]. rewrite forallb_forall in FB.
    destruct (vp_get p k KP) as (v & Gv). pose proof (proj2 (vp_sing_false p _ (V p Ip) k v Gv) (AX p Ip KP)) as SF.
    apply od_get_in in Gv. apply FB in Gv. cbn in Gv. congruence. }
  rewrite AS in H. cbn [andb orb] in H.
  set (PM := concat (map (fun a => od_vals (p_marg a)) args)) in *. set (FC := concat (map (fun a => od_vals (p_cond a)) args)) in *.
  set (PC := filter (fun c => negb (mem_str c (filter (fun c => mem_str c PM) FC))) FC) in *.
  destruct (check_conds _ _ _ _); [|discriminate]. cbn [bind] in H.
  assert (I1 : In e1 PM).
  { unfold PM. apply in_concat. exists (od_vals (p_marg p)). split; [apply in_map_iff; exists p; auto|]. apply od_get_in in G1. apply in_map_iff. exists (k, e1). auto. }
  assert (I2 : In e2 PC).
  { assert (I2 : In e2 FC). { unfold FC. apply in_concat. exists (od_vals (p_cond q)). split; [apply in_map_iff; exists q; auto|]. apply od_get_in in G2. apply in_map_iff. exists (k, e2). auto. }
    unfold PC. apply filter_In. split; [exact I2|]. apply negb_true_iff, mem_str_false. intros C. apply filter_In in C. destruct C as [_ C]. apply mem_str_iff in C.
    unfold PM in C. apply in_concat in C. destruct C as (l & Il & Ie). apply in_map_iff in Il. destruct Il as (p' & <- & I').
    apply NE. symmetry. apply (UK p' e2 I' Ie). eapply KE; [exact Iq|right; exact G2]. }
  apply in_split in I1, I2. destruct I1 as (m1 & m2 & EM), I2 as (c1 & c2 & EC).
  assert (S1 : str2key e1 = k) by (eapply KE; [exact Ip|left; exact G1]). assert (S2 : str2key e2 = k) by (eapply KE; [exact Iq|right; exact G2]).
  assert (EK : map str2key (PM ++ PC) = map str2key m1 ++ k :: map str2key (m2 ++ c1) ++ k :: map str2key c2).
  { rewrite EM, EC. rewrite !map_app. cbn [map]. rewrite S1, S2, <- !app_assoc. reflexivity. }
  set (keys := map str2key (PM ++ PC)) in *.
  destruct (collect_vals _ keys) as [[pv0 flags]|] eqn:CV; [|discriminate]. cbn [bind] in H.
  apply collect_flags in CV. destruct CV as [EF N0].
  destruct (sum_unitsets _ _ _ _) as [pv1|] eqn:SU; [|discriminate]. cbn [bind] in H. apply sum_nodup in SU; [|exact N0].
  rewrite (PD_Product3.dims_unshared args axes V) in H. cbn [bind] in H.
  destruct (cumsum (map negb (map fst flags))) as [|cd0 cds] eqn:ECD; [discriminate|]. rewrite <- ECD in H. cbn [andb] in H.
  destruct (place_vals _ keys _ _ pv1) as [[[pv2 pdims] psh]|] eqn:PL; [|discriminate]. cbn [bind] in H.
  destruct (map_res _ _) as [probs'|]; [|discriminate]. cbn [bind] in H.
  destruct (prod_rule _ _ _ _) as [[prob ps]|]; [|discriminate]. cbn [bind] in H.
  destruct (make_pd _ pv2 _ _ _) as [res|] eqn:MP; [|discriminate].
  assert (SF : fst (flag_of (map (fun a => p_vals a) args) k) = false).
  { unfold flag_of.
    assert (FV : exists p' v, In p' args /\ od_get (p_vals p') k = Some v /\ find_values (map (fun a => p_vals a) args) k = Some v).
    { destruct (vp_get p k KP) as (v & Gv). clear -Ip Gv. induction args as [|b l IH]; [destruct Ip|]. cbn [map find_values].
      destruct (od_get (p_vals b) k) as [w|] eqn:Gw; [exists b, w; cbn; auto|]. destruct Ip as [->|Ip]; [congruence|].
      destruct (IH Ip) as (p' & v' & J1 & J2 & J3). exists p', v'. cbn. auto. }
    destruct FV as (p' & v & I' & Gv & ->).
    assert (Kp' : In k (p_keylist p')) by (eapply od_get_some_key; exact Gv).
    pose proof (proj2 (vp_sing_false p' _ (V p' I') k v Gv) (AX p' I' Kp')) as SF.
    destruct (vp_axis p' _ (V p' I') k (AX p' I' Kp')) as (a1 & Ga & _). assert (v = VArr a1) by congruence. subst v. exact SF. }
  unfold place_vals in PL.
  assert (PL' : fold_res (place_step (last (cumsum (map negb (map fst flags))) 0)) (combine keys (combine (map fst flags) (cumsum (map negb (map fst flags)))))
    (pv1, [], repeat 1 (last (cumsum (map negb (map fst flags))) 0)) = Ok (pv2, pdims, psh)) by exact PL.
  set (fl (l : list string) := map fst (map (flag_of (map (fun a => p_vals a) args)) (map str2key l))).
  assert (ES : map fst flags = fl m1 ++ false :: fl (m2 ++ c1) ++ false :: fl c2).
  { rewrite EF, EK. rewrite !map_app. cbn [map]. rewrite !map_app. cbn [map]. rewrite SF. unfold fl. rewrite !map_app. reflexivity. }
  rewrite ES, EK in PL'.
  apply twice_placed in PL'; [|unfold fl; rewrite !map_length; reflexivity|unfold fl; rewrite !map_length; reflexivity].
  destruct PL' as (c0 & C1 & C2 & C3 & C4 & C5 & C6).
  refine (gap_refused _ pv2 pdims c0 k _ _ _ (C6 SU) _ C1 C2 C3 C4 MP). intros ->. apply C5. reflexivity.
Qed.
End Spelled.
