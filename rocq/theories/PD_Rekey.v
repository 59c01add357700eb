(** rekey of distributions. *)
From Coq Require Import Ascii String ZArith Reals Lra Bool Arith Lia Permutation List.
From Verif Require Import Base Num Tensor TensorBcast OdLemmas TensorLemmas RNumLemmas PScales Names Names_Spec
  Names_Proofs Distr PDModel PDUtils PD_Spec PD_Simple_Spec PD_Make PD_Sums PD_Valid PD_Simple.
Import ListNotations.

Lemma od_set_snoc {A} (d : odict A) k v : ~ In k (od_keys d) -> od_set d k v = (d ++ [(k, v)])%list.
Proof. apply OdLemmas.od_set_new. Qed.

Lemma map_snoc_keys {A B} (f : A -> string * B) l : od_keys (map f l) = map (fun x => fst (f x)) l.
Proof. unfold od_keys. rewrite map_map. reflexivity. Qed.

Section Rekey.
Context {F : Fmt R}.
Variable keymap : odict string.
Notation ren := (renamed keymap).

Definition dim_of (d : dist R) (k : string) : option Z := match od_get (d_dims d) k with Some x => x | None => None end.

Lemma rekey_loop_ok (d : dist R) :
  NoDup (map ren (d_keylist d)) -> (forall k, In k (d_keylist d) -> exists x, od_get (d_dims d) k = Some x) ->
  rekey_loop d keymap = Ok (map (fun kv => (ren (fst kv), snd kv)) (d_vals d),
                            map (fun kv => (ren (fst kv), dim_of d (fst kv))) (d_vals d)).
Proof.
  intros ND HD. unfold rekey_loop.
  destruct (@fold_res_ok _ _ (fun acc kv =>
              let! dim := od_getR (d_dims d) (fst kv) in
              match od_get keymap (fst kv) with
              | None => Ok (od_set (fst acc) (fst kv) (snd kv), od_set (snd acc) (fst kv) dim)
              | Some mk =>
                  let! _ := assert_ (negb (od_mem (fst acc) mk)) in
                  Ok (od_set (fst acc) mk (snd kv), od_set (snd acc) mk dim)
              end)
    (fun pre (acc : odict (value R) * odict (option Z)) => acc = (map (fun kv => (ren (fst kv), snd kv)) pre,
                      map (fun kv => (ren (fst kv), dim_of d (fst kv))) pre)) (d_vals d) ([], []))
    as (acc & E & I); [reflexivity| |rewrite E, I; reflexivity].
  intros pre [k v] post acc E ->. cbn [fst snd].
  destruct (HD k) as (x & G). { unfold d_keylist. rewrite E. unfold od_keys. rewrite map_app. apply in_or_app. cbn. auto. }
  assert (Gd : dim_of d k = x) by (unfold dim_of; rewrite G; reflexivity).
  rewrite (proj2 (od_getR_ok _ _ _) G). cbn [bind].
  assert (Nk : ~ In (ren k) (map (fun kv => ren (fst kv)) pre)).
  { unfold d_keylist in ND. rewrite E in ND. unfold od_keys in ND. rewrite map_app, map_app in ND. cbn in ND.
    apply NoDup_remove_2 in ND. rewrite in_app_iff, map_map in ND. tauto. }
  eexists. split; [|rewrite !map_app; cbn [map fst snd]; rewrite Gd; reflexivity].
  unfold renamed in Nk |- * at 1. destruct (od_get keymap k) as [mk|] eqn:Gk.
  - rewrite (proj2 (od_mem_false _ mk)); [|rewrite map_snoc_keys; cbn [fst]; exact Nk]. cbn [negb assert_ bind].
    rewrite !od_set_snoc by (rewrite map_snoc_keys; cbn [fst]; exact Nk). unfold renamed. rewrite Gk. reflexivity.
  - rewrite !od_set_snoc by (rewrite map_snoc_keys; cbn [fst]; exact Nk). unfold renamed. rewrite Gk. reflexivity.
Qed.

Definition new_entry (ke : string * string) : string * string :=
  (ren (fst ke), match od_get keymap (fst ke) with Some mk => rekey_entry mk (snd ke) | None => snd ke end).

Lemma rekey_dict_ok (m : odict string) : NoDup (map ren (od_keys m)) ->
  rekey_dict m keymap = Ok (map new_entry m).
Proof.
  intros ND. unfold rekey_dict.
  destruct (@fold_res_ok _ _ (fun acc kv =>
              match od_get keymap (fst kv) with
              | None => Ok (od_set acc (fst kv) (snd kv))
              | Some mk =>
                  let! _ := assert_ (negb (od_mem acc mk)) in
                  Ok (od_set acc mk (rekey_entry mk (snd kv)))
              end)
    (fun pre (acc : odict string) => acc = map new_entry pre) m [])
    as (acc & E & I); [reflexivity| |rewrite E, I; reflexivity].
  intros pre [k e] post acc E ->. cbn [fst snd].
  assert (Nk : ~ In (ren k) (map (fun x => fst (new_entry x)) pre)).
  { rewrite E in ND. unfold od_keys in ND. rewrite map_app, map_app in ND. cbn in ND.
    apply NoDup_remove_2 in ND. rewrite in_app_iff, map_map in ND. cbn. tauto. }
  eexists. split; [|rewrite map_app; reflexivity].
  cbn [map]. assert (Q : new_entry (k, e) =
    (ren k, match od_get keymap k with Some mk => rekey_entry mk e | None => e end)) by reflexivity.
  rewrite Q. clear Q. change (ren k) with (match od_get keymap k with Some s => s | None => k end) in Nk |- *.
  destruct (od_get keymap k) as [mk|] eqn:Gk.
  - rewrite (proj2 (od_mem_false _ mk)); [|rewrite map_snoc_keys; exact Nk]. cbn [negb assert_ bind].
    rewrite od_set_snoc by (rewrite map_snoc_keys; exact Nk). reflexivity.
  - rewrite od_set_snoc by (rewrite map_snoc_keys; exact Nk). reflexivity.
Qed.

Lemma str_drop_app s t : str_drop (String.length s) (s ++ t) = t.
Proof. induction s; cbn; auto. Qed.

Lemma rekey_entry_keyed mk k r : k <> ""%string -> ~ occurs "=" k ->
  rekey_entry mk (k ++ "=" ++ r) = (mk ++ "=" ++ r)%string.
Proof.
  intros NE F0. unfold rekey_entry. change ("=" ++ r)%string with (String "=" r).
  rewrite find_char_app_none by exact F0. destruct k as [|c k]; [contradiction|]. cbn [String.length].
  change (S (String.length k)) with (String.length (String c k)). rewrite str_drop_app. reflexivity.
Qed.

Lemma rekey_entry_plain mk e : ~ occurs "=" e \/ (exists r, e = "=" ++ r)%string -> rekey_entry mk e = mk.
Proof.
  unfold rekey_entry. intros [H|(r & ->)].
  - apply find_char_none in H. rewrite H. reflexivity.
  - reflexivity.
Qed.

Lemma good_join a r : simple_key a -> good_entry ("x" ++ "=" ++ r) ->
  good_entry (a ++ "=" ++ r) /\ key_of (a ++ "=" ++ r) a.
Proof.
  intros [(A0 & A1 & A2 & A3 & A4) A5] (_ & B1 & B2 & B3 & B4).
  unfold good_entry in *. rewrite !occurs_app in *. split.
  - split; [destruct a; [contradiction|discriminate]|]. tauto.
  - left. exists r. auto.
Qed.

Lemma good_tail k r : good_entry (k ++ "=" ++ r) -> good_entry ("x" ++ "=" ++ r).
Proof.
  intros (_ & B1 & B2 & B3 & B4). unfold good_entry. rewrite !occurs_app in *.
  assert (X : forall c, c <> "x"%char -> ~ occurs c "x") by (intros c H [C|[]]; congruence).
  split; [discriminate|]. repeat split; intros [C|C]; try tauto; revert C; apply X; discriminate.
Qed.

Lemma simple_plain k : simple_key k -> good_entry k /\ key_of k k.
Proof. intros [G O]. split; [exact G|]. right. auto. Qed.

Lemma new_entry_good k e : (forall s, od_get keymap k = Some s -> simple_key s) ->
  good_entry e -> key_of e k -> good_entry (snd (new_entry (k, e))) /\ key_of (snd (new_entry (k, e))) (fst (new_entry (k, e))).
Proof.
  intros S G K. unfold new_entry, renamed. cbn [fst snd]. destruct (od_get keymap k) as [mk|]; [|auto].
  specialize (S mk eq_refl). destruct K as [(r & -> & NE & O)|(-> & O)].
  - rewrite rekey_entry_keyed by assumption. apply good_join; [exact S|]. eapply good_tail; exact G.
  - rewrite rekey_entry_plain by exact O. apply simple_plain. exact S.
Qed.

Lemma NoDup_map_incl {A B} (f : A -> B) l m : NoDup (map f l) -> NoDup m -> incl m l -> NoDup (map f m).
Proof.
  intros Hl Hm I. induction m as [|x m IH]; [constructor|]. inversion Hm; subst. cbn. constructor.
  - intros C. apply in_map_iff in C. destruct C as (y & E & Iy).
    assert (x = y); [|subst; contradiction].
    assert (Ix : In x l) by (apply I; left; reflexivity). assert (Iy' : In y l) by (apply I; right; exact Iy).
    clear - Hl E Ix Iy'. induction l as [|z l IH]; [contradiction|]. cbn in Hl. inversion Hl; subst.
    destruct Ix as [->|Ix], Iy' as [->|Iy']; auto.
    + exfalso. apply H1. rewrite <- E. apply in_map. exact Iy'.
    + exfalso. apply H1. rewrite E. apply in_map. exact Ix.
  - apply IH; [assumption|]. intros y Iy. apply I. right. exact Iy.
Qed.

Lemma NoDup_map_inj {A B} (f : A -> B) l x y : NoDup (map f l) -> In x l -> In y l -> f x = f y -> x = y.
Proof.
  induction l as [|z l IH]; intros H Ix Iy E; [contradiction|]. cbn in H. inversion H; subst.
  destruct Ix as [->|Ix], Iy as [->|Iy]; auto.
  - exfalso. apply H2. rewrite E. apply in_map. exact Iy.
  - exfalso. apply H2. rewrite <- E. apply in_map. exact Ix.
Qed.

Lemma od_get_renamed {A B} (g : string -> A -> B) (d : odict A) k : NoDup (map ren (od_keys d)) -> In k (od_keys d) ->
  od_get (map (fun kv => (ren (fst kv), g (fst kv) (snd kv))) d) (ren k) =
  match od_get d k with Some v => Some (g k v) | None => None end.
Proof.
  intros ND Hk. apply od_key_get in Hk as Hk'. destruct Hk' as (v & G). rewrite G.
  apply od_in_get.
  - unfold od_keys. rewrite map_map. cbn. unfold od_keys in ND. rewrite map_map in ND. exact ND.
  - apply in_map_iff. exists (k, v). split; [reflexivity|]. apply od_get_in. exact G.
Qed.

Lemma rekey_ok p L : valid_pd p L ->
  NoDup (map ren (p_keylist p)) ->
  (forall k s, In k (p_keylist p) -> od_get keymap k = Some s -> simple_key s /\ ~ In s ["attrs"; "prob"; "pscale"]%string) ->
  exists q, pd_rekey p keymap = Ok q /\ valid_pd q (map ren L) /\
    p_keylist q = map ren (p_keylist p) /\
    od_keys (p_marg q) = map ren (od_keys (p_marg p)) /\ od_keys (p_cond q) = map ren (od_keys (p_cond p)) /\
    p_pscale q = p_pscale p /\
    (forall k, In k (p_keylist p) -> variable q (ren k) = variable p k /\
                                     od_get (p_dims q) (ren k) = od_get (p_dims p) k) /\
    (forall a, prob_at q (map ren L) a = prob_at p L (fun k => a (ren k))).
Proof.
  intros V ND SK.
  pose proof (vp_keys _ _ V) as NDk.
  assert (HD : forall k, In k (d_keylist (p_d p)) -> exists x, od_get (d_dims (p_d p)) k = Some x).
  { intros k Hk. pose proof (vp_dim p L V k Hk) as D. apply od_getR_ok in D. eauto. }
  set (vals' := map (fun kv => (ren (fst kv), snd kv)) (d_vals (p_d p))).
  set (dims' := map (fun kv => (ren (fst kv), dim_of (p_d p) (fst kv))) (d_vals (p_d p))).
  assert (Kv : od_keys vals' = map ren (p_keylist p)).
  { unfold vals'. rewrite map_snoc_keys. cbn. unfold p_keylist, d_keylist, od_keys. rewrite map_map. reflexivity. }
  assert (Kd : od_keys dims' = map ren (p_keylist p)).
  { unfold dims'. rewrite map_snoc_keys. cbn. unfold p_keylist, d_keylist, od_keys. rewrite map_map. reflexivity. }
  assert (Gv : forall k, In k (p_keylist p) -> od_get vals' (ren k) = od_get (p_vals p) k).
  { intros k Hk. unfold vals'. rewrite (@od_get_renamed (value R) (value R) (fun _ v => v) _ k ND Hk).
    change (d_vals (p_d p)) with (p_vals p). destruct (od_get (p_vals p) k); reflexivity. }
  assert (Gd : forall k, In k (p_keylist p) -> od_get dims' (ren k) = od_get (p_dims p) k).
  { intros k Hk. unfold dims'. rewrite (@od_get_renamed (value R) (option Z) (fun k _ => dim_of (p_d p) k) _ k ND Hk).
    destruct (vp_get p k Hk) as (v & G). change (d_vals (p_d p)) with (p_vals p). rewrite G.
    destruct (HD k Hk) as (x & D). unfold dim_of. rewrite D. symmetry. exact D. }
  assert (NL : NoDup (map ren L)). { eapply NoDup_map_incl; [exact ND|apply V|apply V]. }
  assert (NIn : forall k, In k (p_keylist p) -> In (ren k) (map ren L) -> In k L).
  { intros k Hk I. apply in_map_iff in I. destruct I as (k' & E & I).
    assert (k' = k); [|subst; exact I]. exact (NoDup_map_inj ren (p_keylist p) k' k ND (vp_incl _ _ V _ I) Hk E). }
  assert (NE : vals' <> []).
  { intros C. apply (vp_some _ _ V). assert (X : od_keys vals' = []) by (rewrite C; reflexivity).
    rewrite Kv in X. destruct (p_keylist p); [reflexivity|discriminate]. }
  assert (RS : forall k, In k (od_keys vals') -> ~ In k disallowed).
  { intros k Hk. rewrite Kv in Hk. apply in_map_iff in Hk. destruct Hk as (k0 & <- & Hk).
    unfold renamed. destruct (od_get keymap k0) as [s|] eqn:G; [apply (SK k0 s Hk G)|apply (vp_reserved _ _ V k0 Hk)]. }
  assert (HS : forall k v, od_get vals' k = Some v -> ~ In k (map ren L) ->
     issingleton v = true /\ (od_get dims' k = None \/ od_get dims' k = Some None)).
  { intros k v G N. assert (Hk : In k (od_keys vals')) by (eapply od_get_some_key; eauto).
    rewrite Kv in Hk. apply in_map_iff in Hk. destruct Hk as (k0 & <- & Hk). rewrite Gv in G by exact Hk.
    rewrite Gd by exact Hk. assert (N0 : ~ In k0 L) by (intros C; apply N, in_map, C).
    destruct (vp_scalar _ _ V k0 v G N0). auto. }
  assert (HA : forall j k, nth_error (map ren L) j = Some k -> exists k0, nth_error L j = Some k0 /\ k = ren k0 /\ In k0 (p_keylist p)).
  { intros j k H. rewrite nth_error_map in H. destruct (nth_error L j) as [k0|] eqn:E; [|discriminate]. cbn in H. injection H as <-.
    exists k0. repeat split. apply (vp_incl _ _ V). eapply nth_error_In; eauto. }
  destruct (@make_dist_ok R (d_name (p_d p)) vals' dims' (map ren L)) as
    (d & Ed & Dn & Dk & Dsc & Dar & Dsh & Dnd & Dsing & Dis & Did & Dnod).
  - rewrite Kv. exact ND.
  - exact NE.
  - exact RS.
  - exact NL.
  - rewrite Kv. apply incl_map. apply V.
  - exact HS.
  - intros j k Hj. destruct (HA j k Hj) as (k0 & H0 & -> & Hk).
    assert (I0 : In k0 L) by (eapply nth_error_In; eauto).
    destruct (vp_axis p L V k0 I0) as (a & A1 & A2 & A3 & A4 & A5 & A6).
    destruct (vp_tsize p L V k0 a I0 A1) as (B1 & B2 & B3 & B4).
    rewrite (nth_pos k0 L j (vp_axes _ _ V) H0) in *.
    exists a. rewrite Gv, Gd by exact Hk. auto.
  - rewrite Kv, Kd. apply incl_refl.
  - rewrite Kd. exact ND.
  - destruct (vp_prob _ _ V) as (t & Et & St).
    pose proof (vp_marg_cond p L V) as (NM & NC & DJ).
    assert (IM : incl (od_keys (p_marg p)) (p_keylist p)) by (intros k Hk; apply (vp_key_iff p L V); auto).
    assert (IC : incl (od_keys (p_cond p)) (p_keylist p)) by (intros k Hk; apply (vp_key_iff p L V); auto).
    assert (KM : forall m : odict string, od_keys (map new_entry m) = map ren (od_keys m)).
    { intros m. rewrite map_snoc_keys. unfold od_keys. rewrite map_map. reflexivity. }
    assert (Vk : forall k, In k (p_keylist p) -> exists v, od_get vals' (ren k) = Some v /\ od_get (p_vals p) k = Some v).
    { intros k Hk. destruct (vp_get p k Hk) as (v & G). exists v. rewrite Gv by exact Hk. auto. }
    assert (VE : forall k e, In (k, e) (p_marg p ++ p_cond p) -> good_entry e /\ key_of e k /\ In k (p_keylist p)).
    { intros k e I. pose proof (vp_entries _ _ V) as VE. rewrite Forall_forall in VE. apply VE in I as I'. cbn in I'.
      destruct I' as [I1 I2]. split; [exact I1|]. split; [exact I2|]. apply (vp_key_iff p L V).
      apply in_app_iff in I. destruct I as [I|I]; apply (in_map fst) in I; auto. }
    assert (Gds : forall k v, od_get (d_vals d) k = Some v -> ~ In k (map ren L) -> od_get vals' k = Some v).
    { intros k v G N. assert (Hk : In k (od_keys vals')) by (rewrite <- Dk; eapply od_get_some_key; exact G).
      apply od_key_get in Hk. destruct Hk as (w & Gw). destruct (Dsc k w Gw N) as [Q _]. congruence. }
    destruct (@make_pd_ok F (d_vals d) (d_dims d) (map ren L) (map new_entry (p_marg p)) (map new_entry (p_cond p))
                t (spec_of (p_pscale p)) (p_pscale p)) as (q & E & Vq & Kq & Mq & Cq & Pq & Sq & Varq).
    + change (NoDup (d_keylist d)). rewrite Dk, Kv. exact ND.
    + intros C. apply NE. assert (X : d_keylist d = []) by (unfold d_keylist; rewrite C; reflexivity).
      rewrite Dk in X. destruct vals'; [reflexivity|discriminate].
    + change (od_keys (d_vals d)) with (d_keylist d). rewrite Dk. exact RS.
    + exact NL.
    + change (od_keys (d_vals d)) with (d_keylist d). rewrite Dk, Kv. apply incl_map. apply V.
    + intros k v G N. pose proof (Gds k v G N) as G'. destruct (Dsc k v G' N) as [Q1 Q2].
      destruct (HS k v G' N). auto.
    + intros j k Hj. destruct (HA j k Hj) as (k0 & H0 & -> & Hk).
      assert (I0 : In k0 L) by (eapply nth_error_In; eauto).
      destruct (vp_axis p L V k0 I0) as (a & A1 & A2 & A3 & A4 & A5 & A6).
      rewrite (nth_pos k0 L j (vp_axes _ _ V) H0) in *.
      pose proof A1 as A1'. rewrite <- Gv in A1' by exact Hk.
      destruct (Dar j (ren k0) a Hj A1') as (a' & C1 & C2 & C3 & C4 & C5).
      assert (TS : tsize a' = tsize a).
      { apply (f_equal (@length R)) in C3. rewrite !to_list_length in C3. exact C3. }
      assert (J : j < length (map ren L)) by (apply nth_error_Some; congruence).
      exists a'. unfold axis_shape in C2. rewrite set_nth_repeat in C2 by exact J.
      split; [exact C1|]. split; [rewrite C2; destruct j; discriminate|].
      split; [rewrite TS, C2, list_max_axis; [reflexivity|lia]|]. split; [lia|]. split; [exact C4|].
      rewrite St, A5. congruence.
    + change (od_keys (d_vals d)) with (d_keylist d). rewrite Dk. exact Did.
    + exact Dnod.
    + rewrite St, map_length. apply V.
    + rewrite <- map_app. apply Forall_forall. intros ke I. apply in_map_iff in I. destruct I as ([k e] & <- & I).
      destruct (VE k e I) as (G1 & G2 & G3). apply new_entry_good; [|assumption|assumption].
      intros s G. apply (SK k s G3 G).
    + rewrite <- map_app. apply Forall_forall. intros ke I. apply in_map_iff in I. destruct I as (x & <- & I).
      apply in_map_iff in I. destruct I as ([k e] & <- & I).
      destruct (VE k e I) as (G1 & G2 & G3).
      assert (S0 : forall s, od_get keymap k = Some s -> simple_key s) by (intros s G; apply (SK k s G3 G)).
      pose proof (new_entry_good k e S0 G1 G2) as NG.
      unfold render. cbn [fst snd new_entry] in NG |- *.
      destruct (mem_str (ren k) (map ren L)) eqn:M; [exact NG|]. apply mem_str_false in M.
      destruct (od_get (d_vals d) (ren k)) as [v|] eqn:Gk; [|exact NG].
      apply (Gds _ v) in Gk; [|exact M]. rewrite Gv in Gk by exact G3.
      assert (NL0 : ~ In k L) by (intros C; apply M, in_map, C).
      assert (Ge : od_get (p_marg p ++ p_cond p) k = Some e).
      { apply od_in_get; [|exact I]. unfold od_keys. rewrite map_app.
        eapply Permutation_NoDup; [apply Permutation_sym, (vp_names _ _ V)|exact NDk]. }
      pose proof (vp_rendered _ _ V k v e Gk NL0 Ge) as R. subst e.
      unfold renamed in *. destruct (od_get keymap k) as [mk|]; [|auto].
      apply good_join; [apply S0; reflexivity|]. eapply good_tail; exact G1.
    + rewrite !KM, <- map_app. change (od_keys (d_vals d)) with (d_keylist d). rewrite Dk, Kv.
      apply Permutation_map. apply (vp_names _ _ V).
    + apply V.
    + apply V.
    + exists q. split; [|split; [exact Vq|]].
      * unfold pd_rekey, rekey. rewrite (rekey_loop_ok (p_d p) ND HD). cbn [bind]. fold vals' dims'. rewrite Ed. cbn [bind].
        rewrite !rekey_dict_ok.
        -- cbn [bind]. rewrite Et. exact E.
        -- eapply NoDup_map_incl; [exact ND|exact NC|exact IC].
        -- eapply NoDup_map_incl; [exact ND|exact NM|exact IM].
      * assert (Kq' : p_keylist q = map ren (p_keylist p)).
        { rewrite Kq. change (od_keys (d_vals d)) with (d_keylist d). rewrite Dk. exact Kv. }
        split; [exact Kq'|]. rewrite Mq, Cq, !render_keys, !KM. do 3 (split; [auto; fail|]). split.
        -- intros k Hk. destruct (in_dec string_dec k L) as [I0|I0].
           ++ pose proof (pos_nth _ _ I0) as H0.
              destruct (vp_axis p L V k I0) as (a & A1 & A2 & A3 & A4 & A5 & A6).
              assert (H1 : nth_error (map ren L) (pos k L) = Some (ren k)) by (rewrite nth_error_map, H0; reflexivity).
              pose proof A1 as A1'. rewrite <- Gv in A1' by exact Hk.
              destruct (Dar _ (ren k) a H1 A1') as (a' & C1 & C2 & C3 & C4 & C5).
              rewrite Varq, C1. split.
              ** unfold variable. rewrite A1. unfold var_of. rewrite C3, A2, C2. unfold axis_shape.
                 rewrite set_nth_repeat by (apply nth_error_Some; congruence).
                 destruct (pos k L); reflexivity.
              ** destruct (vp_column _ _ Vq _ _ H1) as (b & n & _ & _ & _ & _ & D). rewrite D, A6. reflexivity.
           ++ destruct (Vk k Hk) as (v & G1 & G2).
              assert (N : ~ In (ren k) (map ren L)) by (intros C; apply I0, (NIn k Hk C)).
              destruct (Dsc _ v G1 N) as [Q1 Q2]. rewrite Varq, Q1. split; [unfold variable; rewrite G2; reflexivity|].
              rewrite (vp_dim_scalar p L V k Hk I0). apply (vp_dim_scalar q _ Vq (ren k)); [|exact N].
              rewrite Kq'. apply in_map. exact Hk.
        -- intros a. unfold prob_at. rewrite Pq, Sq, Et. rewrite map_map. reflexivity.
Qed.

End Rekey.

(** *** collisions *)
Section Collide.
Context {F : Fmt R}.
Variables (a b : string).
Let km : odict string := [(a, b)].

Lemma km_other k : k <> a -> od_get km k = None.
Proof. intros H. cbn. destruct (String.eqb_spec k a); congruence. Qed.
Lemma km_a : od_get km a = Some b.
Proof. cbn. rewrite String.eqb_refl. reflexivity. Qed.

Section Loop.
Variable d : dist R.
Let f := fun (acc : odict (value R) * odict (option Z)) (kv : string * value R) =>
              let! dim := od_getR (d_dims d) (fst kv) in
              match od_get km (fst kv) with
              | None => Ok (od_set (fst acc) (fst kv) (snd kv), od_set (snd acc) (fst kv) dim)
              | Some mk =>
                  let! _ := assert_ (negb (od_mem (fst acc) mk)) in
                  Ok (od_set (fst acc) mk (snd kv), od_set (snd acc) mk dim)
              end.
Let dd (l : odict (value R)) : odict (option Z) := map (fun kv => (fst kv, dim_of d (fst kv))) l.

Lemma dd_keys l : od_keys (dd l) = od_keys l.
Proof. unfold dd. rewrite map_snoc_keys. reflexivity. Qed.

Lemma loop_app l : forall x y, ~ In a (od_keys l) -> NoDup (od_keys x ++ od_keys l) -> od_keys y = od_keys x ->
  (forall k, In k (od_keys l) -> exists z, od_get (d_dims d) k = Some z) ->
  fold_res f l (x, y) = Ok ((x ++ l)%list, (y ++ dd l)%list).
Proof.
  induction l as [|[k v] l IH]; intros x y Na ND K H.
  - cbn. rewrite !app_nil_r. reflexivity.
  - cbn [fold_res]. unfold f at 1. cbn [fst snd].
    destruct (H k) as (z & G); [left; reflexivity|]. rewrite (proj2 (od_getR_ok _ _ _) G). cbn [bind].
    rewrite km_other by (intros ->; apply Na; left; reflexivity). cbn [bind].
    cbn [od_keys map fst] in ND. assert (Nk : ~ In k (od_keys x)).
    { apply NoDup_remove_2 in ND. rewrite in_app_iff in ND. tauto. }
    rewrite od_set_snoc by exact Nk. rewrite od_set_snoc by (rewrite K; exact Nk).
    rewrite IH.
    + rewrite <- !app_assoc. cbn [app]. change (dd ((k, v) :: l)) with ((k, dim_of d k) :: dd l).
      assert (Gd : dim_of d k = z) by (unfold dim_of; rewrite G; reflexivity). rewrite Gd. reflexivity.
    + intros C. apply Na. right. exact C.
    + unfold od_keys in *. rewrite map_app. cbn. rewrite <- app_assoc. exact ND.
    + unfold od_keys in *. rewrite !map_app. cbn. rewrite K. reflexivity.
    + intros k' Hk'. apply H. right. exact Hk'.
Qed.

Lemma collide_loop v1 v2 v3 va vb :
  d_vals d = v1 ++ (a, va) :: v2 ++ (b, vb) :: v3 -> NoDup (d_keylist d) ->
  (forall k, In k (d_keylist d) -> exists z, od_get (d_dims d) k = Some z) ->
  rekey_loop d km = Ok (v1 ++ (b, vb) :: v2 ++ v3, dd (v1 ++ (b, vb) :: v2 ++ v3)).
Proof.
  intros E ND HD. unfold rekey_loop. change (fold_res f (d_vals d) ([], []) = Ok (v1 ++ (b, vb) :: v2 ++ v3, dd (v1 ++ (b, vb) :: v2 ++ v3))).
  unfold d_keylist in *. rewrite E in *. clear E. unfold od_keys in ND. rewrite map_app in ND. cbn [map fst] in ND.
  rewrite map_app in ND. cbn [map fst] in ND. fold (od_keys v1) (od_keys v2) (od_keys v3) in ND.
  assert (HD' : forall k, In k (od_keys v1) \/ k = a \/ In k (od_keys v2) \/ k = b \/ In k (od_keys v3) ->
                 exists z, od_get (d_dims d) k = Some z).
  { intros k H. apply HD. unfold od_keys. rewrite map_app. cbn [map fst]. rewrite map_app. cbn [map fst].
    fold (od_keys v1) (od_keys v2) (od_keys v3). rewrite in_app_iff. cbn. rewrite in_app_iff. cbn. intuition auto. }
  assert (ND1 : NoDup (od_keys v1) /\ ~ In a (od_keys v1) /\ ~ In b (od_keys v1) /\ a <> b /\
    NoDup (od_keys v1 ++ b :: od_keys v2 ++ od_keys v3) /\ ~ In a (od_keys v2) /\ ~ In a (od_keys v3)).
  { apply nodup_app_iff in ND as ND0. destruct ND0 as (N1 & N2 & N3). split; [exact N1|].
    split; [intros C; apply (N3 a C); left; reflexivity|].
    split; [intros C; apply (N3 b C); right; apply in_or_app; right; left; reflexivity|].
    inversion N2 as [|? ? N4 N5]; subst. rewrite in_app_iff in N4. cbn in N4.
    split; [intros C; apply N4; auto|]. split; [|tauto].
    apply nodup_app_iff. split; [exact N1|]. split.
    - apply NoDup_remove in N5. constructor; tauto.
    - intros k C. specialize (N3 k C). cbn in *. rewrite in_app_iff in *. cbn in N3. intuition auto. }
  destruct ND1 as (N1 & A1 & B1 & AB & N2 & A2 & A3).
  rewrite fold_res_app. rewrite loop_app; [|exact A1|exact N1|reflexivity|intros k C; apply HD'; auto].
  cbn [bind app]. cbn [fold_res]. unfold f at 1. cbn [fst snd].
  destruct (HD' a) as (za & Ga); [auto|]. rewrite (proj2 (od_getR_ok _ _ _) Ga). cbn [bind]. rewrite km_a.
  rewrite (proj2 (od_mem_false _ b) B1). cbn [negb assert_ bind].
  rewrite od_set_snoc by exact B1. rewrite od_set_snoc by (rewrite dd_keys; exact B1).
  rewrite fold_res_app. rewrite loop_app.
  - cbn [bind fold_res]. unfold f at 1. cbn [fst snd].
    destruct (HD' b) as (zb & Gb); [auto|]. rewrite (proj2 (od_getR_ok _ _ _) Gb). cbn [bind].
    rewrite km_other by auto. cbn [bind].
    rewrite <- !app_assoc. cbn [app]. rewrite !od_set_split by (rewrite ?dd_keys; exact B1).
    rewrite loop_app.
    + assert (Gd : dim_of d b = zb) by (unfold dim_of; rewrite Gb; reflexivity).
      unfold dd. rewrite !map_app. cbn [map fst]. rewrite !map_app. rewrite <- !app_assoc. cbn [app].
      rewrite Gd. reflexivity.
    + exact A3.
    + unfold od_keys in *. rewrite map_app. cbn. rewrite <- app_assoc. exact N2.
    + unfold od_keys, dd. rewrite !map_app. cbn. rewrite !map_map. reflexivity.
    + intros k C. apply HD'. auto.
  - exact A2.
  - unfold od_keys in *. rewrite map_app. cbn. rewrite <- app_assoc. cbn.
    apply nodup_app_iff in N2. destruct N2 as (M1 & M2 & M3). apply nodup_app_iff. split; [exact M1|]. split.
    + inversion M2; subst. constructor; [intros C; apply H1; apply in_or_app; auto|]. apply nodup_app_iff in H2. tauto.
    + intros k C. specialize (M3 k C). cbn in *. rewrite in_app_iff in M3. tauto.
  - unfold od_keys, dd. rewrite !map_app, map_map. cbn. reflexivity.
  - intros k C. apply HD'. auto.
Qed.
End Loop.

Lemma dict_app l : forall x : odict string, ~ In a (od_keys l) -> NoDup (od_keys x ++ od_keys l) ->
  fold_res (fun acc kv =>
              match od_get km (fst kv) with
              | None => Ok (od_set acc (fst kv) (snd kv))
              | Some mk =>
                  let! _ := assert_ (negb (od_mem acc mk)) in
                  Ok (od_set acc mk (rekey_entry mk (snd kv)))
              end) l x = Ok (x ++ l)%list.
Proof.
  induction l as [|[k v] l IH]; intros x Na ND.
  - cbn. rewrite app_nil_r. reflexivity.
  - cbn [fold_res fst snd]. rewrite km_other by (intros ->; apply Na; left; reflexivity). cbn [bind].
    cbn [od_keys map fst] in ND. assert (Nk : ~ In k (od_keys x)).
    { apply NoDup_remove_2 in ND. rewrite in_app_iff in ND. tauto. }
    rewrite od_set_snoc by exact Nk. rewrite IH.
    + rewrite <- app_assoc. reflexivity.
    + intros C. apply Na. right. exact C.
    + unfold od_keys in *. rewrite map_app. cbn. rewrite <- app_assoc. exact ND.
Qed.

Lemma collide_dict m1 m2 m3 ea eb : NoDup (od_keys (m1 ++ (a, ea) :: m2 ++ (b, eb) :: m3)) ->
  rekey_dict (m1 ++ (a, ea) :: m2 ++ (b, eb) :: m3) km = Ok (m1 ++ (b, eb) :: m2 ++ m3).
Proof.
  intros ND. unfold rekey_dict. unfold od_keys in ND. rewrite map_app in ND. cbn [map fst] in ND.
  rewrite map_app in ND. cbn [map fst] in ND. fold (od_keys m1) (od_keys m2) (od_keys m3) in ND.
  apply nodup_app_iff in ND as ND0. destruct ND0 as (N1 & N2 & N3).
  assert (A1 : ~ In a (od_keys m1)) by (intros C; apply (N3 a C); left; reflexivity).
  assert (B1 : ~ In b (od_keys m1)) by (intros C; apply (N3 b C); right; apply in_or_app; right; left; reflexivity).
  inversion N2 as [|? ? N4 N5]; subst. rewrite in_app_iff in N4. cbn in N4.
  apply NoDup_remove in N5. destruct N5 as [N5 N6]. rewrite in_app_iff in N6. apply nodup_app_iff in N5. destruct N5 as (N7 & N8 & N9).
  rewrite fold_res_app. rewrite dict_app by (auto; cbn; auto). cbn [bind app fold_res fst snd]. rewrite km_a.
  rewrite (proj2 (od_mem_false _ b) B1). cbn [negb assert_ bind]. rewrite od_set_snoc by exact B1.
  rewrite fold_res_app, dict_app.
  - cbn [bind fold_res fst snd]. rewrite km_other by (intros C; apply N4; auto). cbn [bind].
    rewrite <- app_assoc. cbn [app]. rewrite od_set_split by exact B1. rewrite dict_app.
    + rewrite <- app_assoc. reflexivity.
    + tauto.
    + unfold od_keys. rewrite map_app. cbn. rewrite <- app_assoc. cbn. rewrite ?map_app.
      apply nodup_app_iff. split; [exact N1|]. split.
      * constructor; [rewrite in_app_iff; exact N6|]. apply nodup_app_iff. auto.
      * intros k C. specialize (N3 k C). cbn in N3 |- *. rewrite in_app_iff in N3 |- *. cbn in N3. unfold od_keys in *. intuition auto.
  - tauto.
  - unfold od_keys. rewrite map_app. cbn. rewrite <- app_assoc. cbn.
    apply nodup_app_iff. split; [exact N1|]. split.
    * constructor; tauto.
    * intros k C. specialize (N3 k C). cbn in N3 |- *. rewrite in_app_iff in N3. cbn in N3. unfold od_keys in *. intuition auto.
Qed.

Lemma dict_same m : ~ In a (od_keys m) -> NoDup (od_keys m) -> rekey_dict m km = Ok m.
Proof. intros H ND. unfold rekey_dict. rewrite dict_app; [reflexivity|exact H|exact ND]. Qed.

Lemma rekey_collision p L l1 l2 l3 m1 m2 m3 : valid_pd p L ->
  p_keylist p = l1 ++ a :: l2 ++ b :: l3 -> od_keys (p_marg p) = m1 ++ a :: m2 ++ b :: m3 -> ~ In a L ->
  exists q, pd_rekey p km = Ok q /\ valid_pd q L /\
    p_keylist q = l1 ++ b :: l2 ++ l3 /\ od_keys (p_marg q) = m1 ++ b :: m2 ++ m3 /\ p_cond q = p_cond p /\
    (forall k, In k (p_keylist q) -> variable q k = variable p k) /\
    p_prob q = p_prob p /\ p_pscale q = p_pscale p.
Proof.
  intros V EK EM NaL.
  pose proof (vp_keys _ _ V) as NDk. pose proof (vp_marg_cond p L V) as (NM & NC & DJ).
  assert (SP : forall (A : Type) (d : odict A) x1 x2 x3, od_keys d = x1 ++ a :: x2 ++ b :: x3 ->
    exists d1 d2 d3 ua ub, d = d1 ++ (a, ua) :: d2 ++ (b, ub) :: d3 /\ od_keys d1 = x1 /\ od_keys d2 = x2 /\ od_keys d3 = x3).
  { intros A d x1 x2 x3 E. unfold od_keys in E. apply map_eq_app in E. destruct E as (d1 & r & -> & <- & E).
    apply map_eq_cons in E. destruct E as ([k ua] & r' & -> & <- & E). cbn [fst].
    apply map_eq_app in E. destruct E as (d2 & r2 & -> & <- & E).
    apply map_eq_cons in E. destruct E as ([k' ub] & d3 & -> & <- & <-). exists d1, d2, d3, ua, ub. repeat split. }
  destruct (SP _ _ _ _ _ EK) as (v1 & v2 & v3 & va & vb & Ev & <- & <- & <-).
  destruct (SP _ _ _ _ _ EM) as (e1 & e2 & e3 & ea & eb & Em & <- & <- & <-). clear SP EK EM.
  assert (HD : forall k, In k (d_keylist (p_d p)) -> exists x, od_get (d_dims (p_d p)) k = Some x).
  { intros k Hk. pose proof (vp_dim p L V k Hk) as D. apply od_getR_ok in D. eauto. }
  set (vals' := v1 ++ (b, vb) :: v2 ++ v3).
  set (dims' := map (fun kv => (fst kv, dim_of (p_d p) (fst kv))) vals').
  set (marg' := e1 ++ (b, eb) :: e2 ++ e3).
  assert (RL : rekey_loop (p_d p) km = Ok (vals', dims')).
  { apply (collide_loop (p_d p) v1 v2 v3 va vb); assumption. }
  assert (PV : Permutation (p_vals p) ((a, va) :: vals')).
  { unfold vals'. change (p_vals p) with (d_vals (p_d p)). rewrite Ev.
    eapply Permutation_trans; [apply Permutation_sym, Permutation_middle|]. apply perm_skip.
    apply Permutation_app_head. apply Permutation_sym, Permutation_middle. }
  assert (PK : Permutation (p_keylist p) (a :: od_keys vals')).
  { apply (Permutation_map fst) in PV. exact PV. }
  assert (ND' : NoDup (a :: od_keys vals')) by (eapply Permutation_NoDup; [exact PK|exact NDk]).
  inversion ND' as [|? ? Na' NDv]; subst.
  assert (Gv : forall k v, od_get vals' k = Some v -> od_get (p_vals p) k = Some v).
  { intros k v G. apply od_in_get; [exact NDk|]. eapply Permutation_in; [apply Permutation_sym, PV|].
    right. apply od_get_in. exact G. }
  assert (Gd : forall k, In k (od_keys vals') -> od_get dims' k = od_get (p_dims p) k).
  { intros k Hk. unfold dims'. pose proof (od_get_map (fun k (_ : value R) => dim_of (p_d p) k) vals' k) as Q.
    cbn in Q. rewrite Q. apply od_key_get in Hk as Hk'. destruct Hk' as (v & G). rewrite G.
    destruct (HD k) as (x & D). { eapply od_get_some_key. exact (Gv k v G). }
    unfold dim_of. rewrite D. symmetry. exact D. }
  assert (Kd : od_keys dims' = od_keys vals') by (unfold dims'; rewrite map_snoc_keys; reflexivity).
  assert (IL : incl L (od_keys vals')).
  { intros k Hk. assert (Ik : In k (p_keylist p)) by (apply (vp_incl _ _ V); exact Hk).
    eapply Permutation_in in Ik; [|exact PK]. destruct Ik as [->|Ik]; [contradiction|exact Ik]. }
  assert (IK : incl (od_keys vals') (p_keylist p)).
  { intros k Hk. eapply Permutation_in; [apply Permutation_sym, PK|]. right. exact Hk. }
  assert (NE : vals' <> []) by (unfold vals'; destruct v1; discriminate).
  destruct (@make_dist_ok R (d_name (p_d p)) vals' dims' L) as
    (d & Ed & Dn & Dk & Dsc & Dar & Dsh & Dnd & Dsing & Dis & Did & Dnod); auto.
  - intros k Hk. apply (vp_reserved _ _ V). apply IK. exact Hk.
  - apply V.
  - intros k v G N. rewrite Gd by (eapply od_get_some_key; eauto). destruct (vp_scalar _ _ V k v (Gv k v G) N). auto.
  - intros j k Hj. assert (Hk : In k L) by (eapply nth_error_In; eauto).
    destruct (vp_axis p L V k Hk) as (t & A1 & A2 & A3 & A4 & A5 & A6).
    destruct (vp_tsize p L V k t Hk A1) as (B1 & B2 & B3 & B4).
    rewrite (nth_pos k L j (vp_axes _ _ V) Hj) in *. exists t.
    assert (Ik : In k (od_keys vals')) by (apply IL; exact Hk).
    apply od_key_get in Ik as Ik'. destruct Ik' as (w & G). rewrite Gd by exact Ik.
    pose proof (Gv k w G). split; [congruence|]. auto.
  - rewrite Kd. apply incl_refl.
  - rewrite Kd. exact NDv.
  - destruct (vp_prob _ _ V) as (t & Et & St).
    assert (Kdv : od_keys (d_vals d) = od_keys vals') by exact Dk.
    destruct (make_pd_from p L V (d_vals d) (d_dims d) L marg' (p_cond p) t (spec_of (p_pscale p)) (p_pscale p)) as
      (q & E & Vq & Kq & Mq & Cq & Pq & Sq & Varq).
    + rewrite Kdv. exact NDv.
    + intros C. apply (f_equal (@od_keys _)) in C. rewrite Kdv in C. unfold vals' in C. destruct v1; discriminate.
    + rewrite Kdv. exact IK.
    + intros k v G N. assert (Ik : In k (od_keys vals')) by (rewrite <- Kdv; eapply od_get_some_key; eauto).
      apply od_key_get in Ik. destruct Ik as (w & Gw). destruct (Dsc k w Gw N) as [Q _]. rewrite (Gv k w Gw). congruence.
    + intros k v G Hk. pose proof (pos_nth _ _ Hk) as Hj.
      destruct (vp_axis p L V k Hk) as (u & A1 & A2 & A3 & A4 & A5 & A6).
      assert (Ik : In k (od_keys vals')) by (apply IL; exact Hk).
      apply od_key_get in Ik. destruct Ik as (w & Gw). pose proof (Gv k w Gw) as Gw'.
      assert (w = VArr u) by congruence. subst w.
      destruct (Dar _ k u Hj Gw) as (u' & C1 & C2 & C3 & C4 & C5). rewrite C1 in G. injection G as <-.
      assert (TS : tsize u' = tsize u).
      { apply (f_equal (@length R)) in C3. rewrite !to_list_length in C3. exact C3. }
      unfold axis_shape in C2. rewrite set_nth_repeat in C2 by (apply pos_lt; exact Hk).
      exists u'. split; [reflexivity|]. split; [rewrite C2; destruct (pos k L); discriminate|].
      split; [rewrite TS, C2, list_max_axis; [reflexivity|lia]|].
      unfold variable. rewrite A1. unfold var_of. rewrite A2, C3. destruct (pos k L); reflexivity.
    + apply V.
    + intros k. rewrite Kdv. split; [intros Hk; split; [exact Hk|apply IL; exact Hk]|tauto].
    + intros j k Hj. assert (Hk : In k L) by (eapply nth_error_In; eauto).
      assert (Ik : In k (od_keys vals')) by (apply IL; exact Hk).
      apply od_key_get in Ik. destruct Ik as (w & Gw). pose proof (Gv k w Gw) as Gw'.
      destruct (vp_axis p L V k Hk) as (u & A1 & _). assert (w = VArr u) by congruence. subst w.
      destruct (Dar j k u Hj Gw) as (u' & C1 & C2 & C3 & C4 & C5). exact C4.
    + intros k Hk N. rewrite Kdv in Hk. apply od_key_get in Hk. destruct Hk as (w & Gw).
      destruct (Dsc k w Gw N) as [_ Q]. auto.
    + rewrite Kdv. exact Did.
    + exact Dnod.
    + rewrite St. apply vp_shape_sizes. exact V.
    + intros ke I. rewrite Em. unfold marg' in I. rewrite !in_app_iff in *. cbn in *. rewrite !in_app_iff in *. cbn. tauto.
    + rewrite Kdv. apply (Permutation_cons_inv (a := a)). eapply Permutation_trans; [|exact PK].
      eapply Permutation_trans; [|apply (vp_names _ _ V)]. rewrite Em. unfold marg', od_keys. rewrite !map_app. cbn [map fst].
      rewrite !map_app. cbn [map fst]. rewrite <- !app_assoc. cbn [app]. rewrite <- !app_assoc.
      eapply Permutation_trans; [apply Permutation_middle|]. apply Permutation_app_head. apply perm_skip.
      apply Permutation_middle.
    + apply V.
    + apply V.
    + exists q. split.
      * unfold pd_rekey, rekey. rewrite RL. cbn [bind]. rewrite Ed. cbn [bind]. rewrite Em.
        rewrite collide_dict by (rewrite <- Em; exact NM). cbn [bind].
        rewrite dict_same; [|apply DJ; rewrite Em; unfold od_keys; rewrite map_app; apply in_or_app; right; left; reflexivity|exact NC].
        cbn [bind]. rewrite Et. exact E.
      * split; [exact Vq|]. rewrite Kq, Kdv, Mq. unfold vals', marg', od_keys. rewrite !map_app. cbn [map fst]. rewrite !map_app.
        do 3 (split; [auto; fail|]). split.
        -- intros k Hk. apply Varq. rewrite Kdv. unfold vals', od_keys. rewrite !map_app. cbn [map fst]. rewrite !map_app. exact Hk.
        -- rewrite Et. auto.
Qed.
End Collide.
