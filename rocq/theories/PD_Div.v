(** Division of distributions. *)
From Coq Require Import Ascii String ZArith Reals Lra Bool Arith Lia Permutation List.
From Verif Require Import Base Num Tensor TensorBcast OdLemmas TensorLemmas RNumLemmas PScales
  PScales_Spec PScales_Proofs PScales_Prod Names Names_Spec Names_Proofs Distr PDModel PDUtils PD_Spec PD_Make PD_Sums
  PD_Valid PD_Marg PD_Align.
Import ListNotations.
Local Open Scope nat_scope.

Lemma filter_all {A} (f : A -> bool) l : (forall x, f x = true) -> filter f l = l.
Proof. intros H. induction l as [|x l IH]; [reflexivity|]. cbn. rewrite H. f_equal. exact IH. Qed.

Section Div.
Context {F : Fmt R}.

(** A variable is on an axis when it holds a column. *)
Lemma axis_col (p : pd R) L k : valid_pd p L -> (In k L <-> exists l, variable p k = Some (Col l)).
Proof.
  intros V. split.
  - intros K. destruct (vp_axis p L V k K) as (a & G & _). destruct (vp_tsize p L V k a K G) as (_ & Sh & _).
    unfold variable. rewrite G. cbn. destruct (shape a); [contradiction|]. eauto.
  - intros (l & E). unfold variable in E. destruct (od_get (p_vals p) k) as [v|] eqn:G; [|discriminate].
    apply (vp_sing_false p L V k v G). injection E as E. destruct v as [x|s|m|a|]; try discriminate. cbn in *.
    destruct (shape a); [discriminate|reflexivity].
Qed.

Variables (p q : pd R) (L L2 : list string).
Hypothesis V : valid_pd p L.
Hypothesis V2 : valid_pd q L2.
Hypothesis HC : forall k, In k (od_keys (p_cond p)) <-> In k (od_keys (p_cond q)).
Hypothesis HI : incl (od_keys (p_marg q)) (od_keys (p_marg p)).
Hypothesis HV : forall k, In k (od_keys (p_marg q)) -> variable q k = variable p k.

Definition dkeys := od_keys (p_marg q).
Definition dcond0 : odict (value R) := map (fun kv => (fst kv, VStr (snd kv))) (p_cond p).
Definition dent (k : string) : string * string := (k, match od_get (p_marg p) k with Some e => e | None => EmptyString end).
Definition dmarg := filter (fun ke => negb (mem_str (fst ke) dkeys)) (p_marg p).
Definition dcond := p_cond p ++ map dent (filter (fun k => mem_str k dkeys) (p_keylist p)).

Lemma key_var k : In k dkeys -> (In k L <-> In k L2).
Proof. intros K. rewrite (axis_col p L k V), (axis_col q L2 k V2), (HV k K). reflexivity. Qed.

Definition dinv (divs : bool) (pre : list (string * value R * bool)) (st : odict string * odict string * odict (value R) * list nat) : Prop :=
  let '(marg, cond, vals, rsh) := st in
  let ks := map (fun it => fst (fst it)) pre in
  let hit := filter (fun k => mem_str k dkeys) ks in
  marg = filter (fun ke => negb (mem_str (fst ke) hit)) (p_marg p) /\
  cond = p_cond p ++ map dent hit /\
  (NoDup (od_keys vals) /\
   forall k, od_get vals k = if mem_str k ks && negb (mem_str k dkeys) then od_get (p_vals p) k else od_get dcond0 k) /\
  rsh = if divs then repeat 1 (length L) else mask (size_of q) hit L.

Lemma div_loop divs : exists vals,
  fold_res (div_step p q divs) (p_items p) (p_marg p, p_cond p, dcond0, repeat 1 (p_ndim p))
   = Ok (dmarg, dcond, vals, if divs then repeat 1 (length L) else mask (size_of q) dkeys L) /\
  NoDup (od_keys vals) /\
  forall k, od_get vals k = if mem_str k dkeys then None else od_get (p_vals p) k.
Proof.
  assert (Nv : NoDup (od_keys (p_vals p))) by (apply (vp_keys _ _ V)).
  assert (Ki : map (fun it => fst (fst it)) (p_items p) = p_keylist p).
  { rewrite (vp_items p L V), map_map. reflexivity. }
  assert (KC : od_keys dcond0 = od_keys (p_cond p)) by (unfold dcond0, od_keys; rewrite map_map; reflexivity).
  destruct (vp_marg_cond p L V) as (NM & NC & DMC).
  destruct (@fold_res_ok (string * value R * bool) (odict string * odict string * odict (value R) * list nat) (div_step p q divs) (dinv divs) (p_items p) (p_marg p, p_cond p, dcond0, repeat 1 (p_ndim p))) as (st & E & Hst).
  - unfold dinv. cbn [map filter]. split; [|split; [|split]].
    + symmetry. apply filter_all. reflexivity.
    + rewrite app_nil_r. reflexivity.
    + split; [rewrite KC; exact NC|]. intros k. reflexivity.
    + unfold p_ndim. rewrite (vp_ndim _ _ V). destruct divs; [reflexivity|]. symmetry. apply mask_none.
  - intros pre [[key v] sing] post [[[marg cond] vals] rsh] Ep (Hm & Hc & (Hn & Hg) & Hr).
    set (ks := map (fun it : string * value R * bool => fst (fst it)) pre) in *.
    assert (Kin : In ((key, v), sing) (p_items p)) by (rewrite Ep; apply in_elt).
    destruct (vp_in_items p L V key v sing Kin) as (Gv & Es & _).
    assert (NK : ~ In key ks).
    { assert (N : NoDup (p_keylist p)) by apply (vp_keys _ _ V). rewrite <- Ki, Ep, map_app in N. cbn in N.
      apply NoDup_remove_2 in N. intros C. apply N, in_or_app. left. exact C. }
    assert (Km : map (fun it : string * value R * bool => fst (fst it)) (pre ++ [((key, v), sing)]) = ks ++ [key]) by (rewrite map_app; reflexivity).
    unfold div_step, dinv. rewrite Km, filter_app. cbn [filter].
    destruct (od_mem (p_marg q) key) eqn:M.
    + apply od_mem_iff in M. change (In key dkeys) in M. rewrite (proj2 (mem_str_iff key dkeys) M).
      assert (Mp : In key (od_keys (p_marg p))) by (apply HI; exact M).
      assert (Ge : exists e, od_get (p_marg p) key = Some e) by (apply od_key_get; exact Mp). destruct Ge as (e & Ge).
      assert (NH : ~ In key (filter (fun k => mem_str k dkeys) ks)) by (intros C; apply filter_In in C; tauto).
      assert (Gm : od_get marg key = Some e).
      { rewrite Hm, (od_get_filter (fun k => negb (mem_str k (filter (fun k => mem_str k dkeys) ks)))).
        rewrite (proj2 (mem_str_false _ _) NH). exact Ge. }
      rewrite (proj2 (od_getR_ok _ _ _) Gm). cbn [bind].
      assert (R1 : exists rsh', (if negb sing && negb divs
         then let! dim := od_getR (p_dims p) key in
              match dim, od_get (p_vals q) key with
              | Some dz, Some (VArr b) => let! i := py_indexR (length rsh) dz in Ok (set_nth i (tsize b) rsh)
              | _, None => Err KeyError
              | _, _ => Err AttributeError
              end
         else Ok rsh) = Ok rsh' /\
         rsh' = if divs then repeat 1 (length L) else mask (size_of q) (filter (fun k => mem_str k dkeys) ks ++ [key]) L).
      { destruct divs; [rewrite andb_false_r; eauto|]. rewrite andb_true_r.
        destruct sing; cbn [negb].
        - exists rsh. split; [reflexivity|]. rewrite Hr. apply mask_ext. intros k Kk. rewrite in_app_iff. cbn.
          assert (k <> key); [|intuition congruence]. intros ->. apply mem_str_iff in Kk. rewrite Kk in Es. discriminate.
        - assert (KL : In key L) by (apply mem_str_iff; destruct (mem_str key L); [reflexivity|discriminate]).
          destruct (vp_axis p L V key KL) as (a & _ & _ & _ & _ & _ & Gd). rewrite (proj2 (od_getR_ok _ _ _) Gd). cbn [bind].
          assert (KL2 : In key L2) by (apply (key_var key); auto).
          destruct (vp_axis q L2 V2 key KL2) as (b & Gb & _). rewrite Gb.
          rewrite Hr, mask_length, py_indexR_nat by (apply pos_lt; exact KL). cbn [bind]. eexists. split; [reflexivity|].
          rewrite <- (set_nth_mask (size_of q) (filter (fun k => mem_str k dkeys) ks) L key KL (vp_axes _ _ V)).
          f_equal. assert (Sb : tsize b = size_of q key).
          { destruct (vp_tsize q L2 V2 key b KL2 Gb) as (T1 & Sh & _). unfold size_of, variable. rewrite Gb. cbn.
            destruct (shape b) eqn:Eb; [contradiction|]. symmetry. apply to_list_length. }
          rewrite Sb. symmetry. apply nth_error_nth. rewrite nth_error_map, pos_nth by exact KL. reflexivity. }
      destruct R1 as (rsh' & -> & R2). cbn [bind]. eexists. split; [reflexivity|].
      split; [|split; [|split]].
      * rewrite Hm. rewrite od_del_remaining by exact NM. reflexivity.
      * rewrite Hc, map_app, app_assoc. cbn [map]. rewrite od_set_new.
        -- unfold dent. rewrite Ge. reflexivity.
        -- unfold od_keys. rewrite map_app, map_map. cbn [dent fst]. rewrite map_id. intros C. apply in_app_iff in C.
           destruct C as [C|C]; [apply (DMC key Mp C)|exact (NH C)].
      * split; [exact Hn|]. intros k. rewrite Hg.
        assert (Q : mem_str k (ks ++ [key]) && negb (mem_str k dkeys) = mem_str k ks && negb (mem_str k dkeys)).
        { destruct (mem_str k dkeys) eqn:Md; cbn [negb]; [rewrite !andb_false_r; reflexivity|]. rewrite !andb_true_r.
          apply eq_true_iff_eq. rewrite !mem_str_iff, in_app_iff. cbn. apply mem_str_false in Md. intuition congruence. }
        rewrite Q. reflexivity.
      * exact R2.
    + assert (M' : ~ In key dkeys) by (intros C; apply (od_mem_iff (p_marg q) key) in C; congruence).
      rewrite (proj2 (mem_str_false key dkeys) M'), app_nil_r. eexists. split; [reflexivity|].
      split; [exact Hm|]. split; [exact Hc|]. split; [|exact Hr].
      split; [apply od_keys_set_nodup, Hn|]. intros k. rewrite od_get_set, Hg.
      destruct (String.eqb_spec k key) as [->|Ne].
      * assert (Q : mem_str key (ks ++ [key]) = true) by (apply mem_str_iff, in_or_app; right; left; reflexivity).
        rewrite Q, (proj2 (mem_str_false key dkeys) M'). cbn. symmetry. exact Gv.
      * assert (Q : mem_str k (ks ++ [key]) = mem_str k ks).
        { apply eq_true_iff_eq. rewrite !mem_str_iff, in_app_iff. cbn. intuition congruence. }
        rewrite Q. reflexivity.
  - destruct st as [[[marg cond] vals] rsh]. destruct Hst as (Hm & Hc & (Hn & Hg) & Hr).
    rewrite Ki in *. exists vals. rewrite E.
    assert (Hit : forall k, In k (filter (fun k => mem_str k dkeys) (p_keylist p)) <-> In k dkeys).
    { intros k. rewrite filter_In, mem_str_iff. split; [tauto|]. intros K. split; auto. apply (vp_key_iff p L V). left. apply HI, K. }
    split; [|split; [exact Hn|]].
    + assert (M1 : marg = dmarg).
      { rewrite Hm. unfold dmarg. apply filter_ext. intros ke. f_equal. apply eq_true_iff_eq. rewrite !mem_str_iff. apply Hit. }
      assert (M2 : rsh = if divs then repeat 1 (length L) else mask (size_of q) dkeys L).
      { rewrite Hr. destruct divs; [reflexivity|]. apply mask_ext. intros k _. apply Hit. }
      rewrite M1, Hc, M2. reflexivity.
    + intros k. rewrite Hg. destruct (mem_str k dkeys) eqn:Md; cbn [negb]; [rewrite andb_false_r|rewrite andb_true_r].
      * apply mem_str_iff in Md. apply od_get_none. rewrite KC. apply (DMC k). apply HI, Md.
      * destruct (mem_str k (p_keylist p)) eqn:Mk; [reflexivity|]. apply mem_str_false in Mk.
        assert (N1 : od_get (p_vals p) k = None) by (apply od_get_none; exact Mk).
        rewrite N1. apply od_get_none. rewrite KC. intros C. apply Mk. apply (vp_key_iff p L V). auto.
Qed.

Definition dvals (vals : odict (value R)) : odict (value R) :=
  fold_left (fun acc kv => if od_mem (p_marg q) (fst kv) then od_set acc (fst kv) (snd kv) else acc) (p_vals p) vals.

Lemma dvals_ok vals : NoDup (od_keys vals) ->
  (forall k, od_get vals k = if mem_str k dkeys then None else od_get (p_vals p) k) ->
  NoDup (od_keys (dvals vals)) /\ forall k, od_get (dvals vals) k = od_get (p_vals p) k.
Proof.
  intros N G.
  assert (Q : forall post pre acc, p_vals p = pre ++ post -> NoDup (od_keys acc) ->
    (forall k, od_get acc k = if mem_str k dkeys && negb (mem_str k (od_keys pre)) then None else od_get (p_vals p) k) ->
    let r := fold_left (fun acc kv => if od_mem (p_marg q) (fst kv) then od_set acc (fst kv) (snd kv) else acc) post acc in
    NoDup (od_keys r) /\ forall k, od_get r k = od_get (p_vals p) k).
  { induction post as [|[k0 v0] post IH]; intros pre acc E Na Ga; cbv zeta; cbn [fold_left].
    - split; [exact Na|]. intros k. rewrite Ga, E, app_nil_r.
      destruct (mem_str k (od_keys pre)) eqn:M; cbn [negb]; [rewrite andb_false_r; reflexivity|].
      rewrite andb_true_r. destruct (mem_str k dkeys); [|reflexivity]. symmetry. apply od_get_none. apply mem_str_false. exact M.
    - assert (Gk : od_get (p_vals p) k0 = Some v0).
      { apply od_in_get; [apply (vp_keys _ _ V)|]. rewrite E. apply in_elt. }
      assert (Kp : forall k, mem_str k (od_keys (pre ++ [(k0, v0)])) = mem_str k (od_keys pre) || (k =? k0)%string).
      { intros k. unfold od_keys. rewrite map_app. cbn [map fst]. apply eq_true_iff_eq.
        rewrite mem_str_iff, in_app_iff, orb_true_iff, mem_str_iff. cbn. rewrite String.eqb_eq. intuition congruence. }
      apply (IH (pre ++ [(k0, v0)])); [rewrite <- app_assoc; exact E| |].
      + cbn [fst snd]. destruct (od_mem (p_marg q) k0); [apply od_keys_set_nodup|]; exact Na.
      + intros k. rewrite Kp. cbn [fst snd]. destruct (od_mem (p_marg q) k0) eqn:M.
        * rewrite od_get_set, Ga. destruct (String.eqb_spec k k0) as [->|Ne].
          -- rewrite orb_true_r. cbn. rewrite andb_false_r. symmetry. exact Gk.
          -- rewrite orb_false_r. reflexivity.
        * rewrite Ga. destruct (String.eqb_spec k k0) as [->|Ne]; [|rewrite orb_false_r; reflexivity].
          assert (Md : mem_str k0 dkeys = false).
          { apply mem_str_false. intros C. apply (od_mem_iff (p_marg q)) in C. congruence. }
          rewrite Md. reflexivity. }
  apply (Q (p_vals p) [] vals); [reflexivity|exact N|]. intros k. rewrite G. cbn. rewrite andb_true_r. reflexivity.
Qed.

Lemma issing_iff : (match p_issing q with Some true => true | _ => false end) = match L2 with [] => true | _ => false end.
Proof.
  unfold p_issing. rewrite (vp_issing _ _ V2).
  destruct L2 as [|k l] eqn:EL.
  - assert (Q : forallb (fun kv : string * value R => issingleton (snd kv)) (p_vals q) = true); [|rewrite Q; reflexivity].
    apply forallb_forall. intros [k v] Hin. cbn. apply (vp_sing q [] V2 k v); [|intros []].
    apply od_in_get; [apply (vp_keys _ _ V2)|exact Hin].
  - destruct (forallb (fun kv : string * value R => issingleton (snd kv)) (p_vals q)) eqn:Q; [|reflexivity].
    rewrite forallb_forall in Q. destruct (vp_axis q (k :: l) V2 k (or_introl eq_refl)) as (a & G & _).
    assert (S1 := Q (k, VArr a) (od_get_in _ _ G)). cbn [snd] in S1.
    apply (vp_sing q _ V2 k _ G) in S1. exfalso. apply S1. left. reflexivity.
Qed.

(** A column of at least two values among the divisor's conditionals cannot be fitted. *)
Lemma prod_list_perm (l m : list nat) : Permutation l m -> prod_list l = prod_list m.
Proof. unfold prod_list. induction 1; cbn; lia. Qed.

Lemma prod_list_split (sz : string -> nat) (f : string -> bool) (l : list string) :
  prod_list (map sz l) = prod_list (map sz (filter f l)) * prod_list (map sz (filter (fun k => negb (f k)) l)).
Proof. unfold prod_list. induction l as [|x l IH]; cbn; [reflexivity|]. rewrite IH. destruct (f x); cbn; lia. Qed.

Lemma div_cond_column k : In k L2 -> ~ In k dkeys -> 2 <= size_of q k -> exists e, truediv p q = Err e.
Proof.
  intros K NK Sk. unfold truediv.
  assert (Q1 : seteq_str (od_keys (p_cond p)) (od_keys (p_cond q)) = true) by (apply seteq_str_iff; split; intros x X; apply HC, X).
  rewrite Q1. cbn [assert_ bind]. cbv zeta. rewrite issing_iff.
  assert (DF : match L2 with [] => true | _ => false end = false) by (destruct L2; [destruct K|reflexivity]).
  rewrite DF. cbn [negb orb assert_ bind].
  destruct (div_loop false) as (vals & El & _).
  match goal with |- exists e, bind ?x _ = _ => replace x with (Ok (dmarg, dcond, vals, mask (size_of q) dkeys L)) by (symmetry; exact El) end.
  cbn [bind].
  destruct (vp_prob_get p L V) as (tp & Pp & Rp & Sp). destruct (vp_prob_get q L2 V2) as (tq & Pq & Rq & Sq).
  rewrite Rp, Rq. cbn [bind].
  assert (Er : reshape (mask (size_of q) dkeys L) tq = Err ValueError); [|rewrite Er; cbn [bind]; eauto].
  unfold reshape. destruct (Nat.eqb_spec (prod_list (mask (size_of q) dkeys L)) (tsize tq)) as [E|]; [|reflexivity]. exfalso.
  unfold tsize in E. rewrite prod_mask, Sq, (prod_list_split (size_of q) (fun k => mem_str k dkeys) L2) in E.
  assert (PP : Permutation (filter (fun k => mem_str k dkeys) L) (filter (fun k => mem_str k dkeys) L2)).
  { apply NoDup_Permutation; [apply filter_nodup, (vp_axes _ _ V)|apply filter_nodup, (vp_axes _ _ V2)|].
    intros x. rewrite !filter_In, mem_str_iff. split; intros [X1 X2]; (split; [apply (key_var x X2), X1|exact X2]). }
  rewrite (prod_list_perm _ _ (Permutation_map (size_of q) PP)) in E.
  assert (Pos : forall l, incl l L2 -> 0 < prod_list (map (size_of q) l)).
  { induction l as [|x l IH]; intros I; [cbn; lia|]. cbn [map prod_list fold_right].
    assert (Px : 0 < size_of q x).
    { assert (Hx : In x L2) by (apply I; left; reflexivity).
      destruct (vp_axis q L2 V2 x Hx) as (a & Ga & _ & Ta & Pa & _). destruct (vp_tsize q L2 V2 x a Hx Ga) as (T1 & Sh & _).
      unfold size_of, variable. rewrite Ga. cbn. destruct (shape a); [contradiction|]. rewrite to_list_length. lia. }
    assert (P2 := IH (fun y Hy => I y (or_intror Hy))). unfold prod_list in *. cbn. nia. }
  assert (P1 := Pos (filter (fun k => mem_str k dkeys) L2) (fun y Hy => proj1 (proj1 (filter_In _ _ _) Hy))).
  assert (P2 : 2 <= prod_list (map (size_of q) (filter (fun k => negb (mem_str k dkeys)) L2))).
  { assert (Hk : In k (filter (fun k => negb (mem_str k dkeys)) L2)) by (apply filter_In; split; [exact K|apply negb_true_iff, mem_str_false, NK]).
    assert (I2 : incl (filter (fun k => negb (mem_str k dkeys)) L2) L2) by (intros y Hy; apply filter_In in Hy; tauto).
    apply in_split in Hk. destruct Hk as (l1 & l2 & Es). rewrite Es in *.
    rewrite (prod_list_perm _ (map (size_of q) (k :: l1 ++ l2))) by (apply Permutation_map, Permutation_sym, Permutation_middle).
    assert (P3 : 0 < prod_list (map (size_of q) (l1 ++ l2))).
    { apply Pos. intros y Hy. apply I2. apply in_app_iff in Hy. apply in_app_iff. cbn. tauto. }
    unfold prod_list in *. cbn. nia. }
  nia.
Qed.

(** The columns of the divisor are its marginal ones and possibly single values. *)
Hypothesis HP : forall k, In k L2 -> ~ In k dkeys -> size_of q k = 1.
(** When there are none, the divisor holds all the scalar marginals of the dividend. *)
Hypothesis HS : L2 = [] -> forall k, In k (od_keys (p_marg p)) -> ~ In k L -> In k dkeys.
Hypothesis FS : fine_scale p.
Hypothesis FS2 : fine_scale q.

Lemma size_eq k : In k dkeys -> size_of q k = size_of p k.
Proof. intros K. unfold size_of. rewrite HV by exact K. reflexivity. Qed.

Lemma prod_columns : prod_list (map (size_of q) L2) = prod_list (map (size_of q) (filter (fun k => mem_str k dkeys) L)).
Proof.
  rewrite (prod_list_split (size_of q) (fun k => mem_str k dkeys) L2).
  assert (PP : Permutation (filter (fun k => mem_str k dkeys) L) (filter (fun k => mem_str k dkeys) L2)).
  { apply NoDup_Permutation; [apply filter_nodup, (vp_axes _ _ V)|apply filter_nodup, (vp_axes _ _ V2)|].
    intros x. rewrite !filter_In, mem_str_iff. split; intros [X1 X2]; (split; [apply (key_var x X2), X1|exact X2]). }
  rewrite (prod_list_perm _ _ (Permutation_map (size_of q) PP)).
  assert (O : forall l, (forall k, In k l -> size_of q k = 1) -> prod_list (map (size_of q) l) = 1).
  { induction l as [|k l IH]; intros H; [reflexivity|]. cbn [map prod_list fold_right]. rewrite H by (left; reflexivity).
    unfold prod_list in IH. rewrite IH; [reflexivity|]. intros x X. apply H. right. exact X. }
  rewrite (O (filter (fun k => negb (mem_str k dkeys)) L2)); [lia|]. intros k K. apply filter_In in K. destruct K as [K1 K2]. apply HP; [exact K1|].
  apply negb_true_iff, mem_str_false in K2. exact K2.
Qed.

Lemma div_gen : exists r, truediv p q = Ok r /\ valid_pd r L /\
  p_marg r = dmarg /\ p_cond r = dcond /\ p_pscale r = p_pscale p /\
  (forall k, In k (p_keylist p) -> variable r k = variable p k) /\
  forall a b, in_bounds p L a -> in_bounds q L2 b ->
    ravel (map (size_of q) L2) (map b L2) =
      ravel (map (size_of p) (filter (fun k => mem_str k dkeys) L)) (map a (filter (fun k => mem_str k dkeys) L)) ->
    let P := prob_at p L a in let Q := prob_at q L2 b in
    (P <= npi)%R -> (npz <= Q <= npi)%R -> (log_scaled p -> (npz <= P / Q)%R) ->
    prob_at r L a = (P / Q)%R.
Proof.
  set (divs := match L2 with [] => true | _ => false end).
  destruct (div_loop divs) as (vals & El & Nv & Gv).
  destruct (dvals_ok vals Nv Gv) as [Nd Gd].
  destruct (vp_prob_get p L V) as (tp & Pp & Rp & Sp). destruct (vp_prob_get q L2 V2) as (tq & Pq & Rq & Sq).
  assert (MS : mask (size_of q) dkeys L = mask (size_of p) dkeys L).
  { apply map_ext. intros k. destruct (mem_str k dkeys) eqn:M; [|reflexivity]. apply size_eq, mem_str_iff, M. }
  assert (DV : exists dv, (if divs then Ok tq else reshape (if divs then repeat 1 (length L) else mask (size_of q) dkeys L) tq) = Ok dv /\
    bcast_shape (shape tp) (shape dv) = Ok (shape tp) /\
    forall a b, in_bounds p L a -> in_bounds q L2 b ->
      ravel (map (size_of q) L2) (map b L2) =
        ravel (map (size_of p) (filter (fun k => mem_str k dkeys) L)) (map a (filter (fun k => mem_str k dkeys) L)) ->
      get dv (bcast_idx (shape dv) (map a L)) = get tq (map b L2)).
  { assert (DC : divs = true /\ L2 = [] \/ divs = false) by (unfold divs; destruct L2; auto).
    destruct DC as [[-> E2] | ->].
    - exists tq. split; [reflexivity|]. rewrite Sq, E2. cbn [map]. split; [apply bcast_nil_r|].
      intros a b Ha Hb _. f_equal.
    - destruct (reshape_ok (mask (size_of q) dkeys L) tq) as (dv & Er & Sr & _).
      { unfold tsize. rewrite prod_mask, Sq. symmetry. apply prod_columns. }
      exists dv. split; [exact Er|]. rewrite Sr, Sp. split.
      + rewrite MS. rewrite <- (mask_all (size_of p) L L) by apply incl_refl.
        unfold bcast_shape. rewrite !mask_length, Nat.max_id. unfold pad_shape. rewrite !mask_length, Nat.sub_diag. cbn [repeat app].
        rewrite merge_mask. f_equal. apply mask_ext. intros k K. rewrite in_app_iff. tauto.
      + intros a b Ha Hb' Fl.
        assert (Hb : forall k, In k L -> a k < size_of p k) by (intros k K; apply Ha, K).
        assert (MI : in_range (mask (size_of q) dkeys L) (midx dkeys a L)).
        { rewrite MS. apply midx_in_range. intros k K _. apply Hb, K. }
        assert (IR : in_range (map (size_of q) L2) (map b L2)) by (apply in_range_map; exact Hb').
        rewrite MS. rewrite bcast_mask by exact Hb.
        unfold reshape in Er. destruct (_ =? _); [|discriminate]. injection Er as <-. cbn [get].
        rewrite Sq. f_equal. rewrite <- (unravel_ravel IR). f_equal. rewrite Fl, (ravel_sqz MI), MS, sqs_mask, sqz_mask.
        symmetry. apply (@ravel_sqz (map (size_of p) (filter (fun k => mem_str k dkeys) L))). apply in_range_map.
        intros k K. apply filter_In in K. apply Hb. tauto. }
  destruct DV as (dv & Edv & Bdv & Gdv).
  assert (NT : ~ log_kind (spec_of (p_pscale p)) = true \/ True) by auto. clear NT.
  destruct (div_prob_quotient tp dv (spec_of (p_pscale p)) (spec_of (p_pscale q)) PSNone (shape tp) Bdv) as (t & Et & St & Gt).
  - apply FS.
  - apply FS2.
  - split; cbn; auto.
  - eapply vp_not_unit_log; eauto.
  - eapply vp_not_unit_log; eauto.
  - discriminate.
  - apply FS.
  - apply FS2.
  - left. reflexivity.
  - destruct FS as [_ [G|G]]; [left; auto|right]. rewrite Rabs_minus_sym. exact G.
  - auto.
  - cbn [truthy] in Gt.
    assert (Kd : forall k, In k (od_keys (dvals vals)) <-> In k (p_keylist p)).
    { intros k. split; intros K.
      - apply od_key_get in K. destruct K as (v & G). rewrite Gd in G. eapply od_get_some_key. exact G.
      - apply vp_get in K. destruct K as (v & G). rewrite <- Gd in G. eapply od_get_some_key. exact G. }
    destruct (vp_marg_cond p L V) as (NM & NC & DMC).
    assert (Hhit : forall k, In k (filter (fun k => mem_str k dkeys) (p_keylist p)) <-> In k dkeys).
    { intros k. rewrite filter_In, mem_str_iff. split; [tauto|]. intros K. split; auto. apply (vp_key_iff p L V). left. apply HI, K. }
    assert (KM : forall k, In k (od_keys dmarg) <-> In k (od_keys (p_marg p)) /\ ~ In k dkeys).
    { intros k. unfold dmarg. rewrite (od_keys_filter (fun k => negb (mem_str k dkeys))), filter_In, negb_true_iff, mem_str_false. tauto. }
    assert (KC : od_keys dcond = od_keys (p_cond p) ++ filter (fun k => mem_str k dkeys) (p_keylist p)).
    { unfold dcond, od_keys. rewrite map_app, map_map. cbn [dent fst]. rewrite map_id. reflexivity. }
    destruct (make_pd_from p L V (dvals vals) (p_dims p) L dmarg dcond t (spec_of (p_pscale p)) (p_pscale p)) as
      (r & Er & Vr & Kr & Mr & Cr & Pr & Sr & Vv).
    + exact Nd.
    + intros C. destruct (p_keylist p) as [|k l] eqn:E; [apply (vp_some _ _ V); exact E|].
      assert (Q : In k (od_keys (dvals vals))) by (apply Kd; left; reflexivity). rewrite C in Q. exact Q.
    + intros k K. apply Kd, K.
    + intros k v G _. rewrite Gd in G. exact G.
    + intros k v G K. rewrite Gd in G. destruct (vp_axis p L V k K) as (a & Ga & _). assert (v = VArr a) by congruence. subst v.
      destruct (vp_tsize p L V k a K Ga) as (T1 & Sh & T2 & T3). exists a. split; [reflexivity|]. split; [exact Sh|].
      split; [auto|]. unfold variable. rewrite Ga. cbn. destruct (shape a); [contradiction|reflexivity].
    + apply (vp_axes _ _ V).
    + intros k. rewrite Kd. split; [intros K; split; [exact K|apply (vp_incl _ _ V), K]|tauto].
    + intros j k Hj. destruct (vp_column _ _ V j k Hj) as (a & n & _ & _ & _ & _ & D). exact D.
    + intros k K NL. right. apply (vp_dim_scalar p L V); [apply Kd, K|exact NL].
    + intros k K. apply Kd. apply (vp_dims _ _ V). exact K.
    + apply (vp_dims _ _ V).
    + rewrite St. exact Sp.
    + intros ke Hke. apply in_app_iff in Hke. apply in_app_iff. destruct Hke as [Hke|Hke].
      * apply filter_In in Hke. tauto.
      * unfold dcond in Hke. apply in_app_iff in Hke. destruct Hke as [Hke|Hke]; [auto|]. left.
        apply in_map_iff in Hke. destruct Hke as (k & <- & K). apply Hhit in K.
        assert (Q := HI k K). apply od_key_get in Q. destruct Q as (e & Ge). unfold dent. rewrite Ge. apply od_get_in. exact Ge.
    + apply NoDup_Permutation; [| exact Nd|].
      * rewrite KC. apply nodup_app_iff. split; [unfold dmarg; rewrite (od_keys_filter (fun k => negb (mem_str k dkeys))); apply filter_nodup, NM|].
        split; [apply nodup_app_iff; split; [exact NC|]; split; [apply filter_nodup, (vp_keys _ _ V)|]|].
        -- intros k K1 K2. apply Hhit in K2. apply (DMC k (HI k K2) K1).
        -- intros k K1 K2. apply KM in K1. apply in_app_iff in K2. destruct K2 as [K2|K2]; [apply (DMC k); tauto|]. apply Hhit in K2. tauto.
      * intros k. rewrite KC, !in_app_iff, KM, Kd, Hhit, (vp_key_iff p L V).
        specialize (HI k). fold dkeys in HI. destruct (in_dec string_dec k dkeys); tauto.
    + apply (vp_pscale _ _ V).
    + apply (vp_pscale _ _ V).
    + exists r. split.
      { unfold truediv.
        assert (Q1 : seteq_str (od_keys (p_cond p)) (od_keys (p_cond q)) = true) by (apply seteq_str_iff; split; intros k K; apply HC, K).
        rewrite Q1. cbn [assert_ bind]. cbv zeta. rewrite issing_iff. fold divs.
        match goal with |- context [assert_ (negb divs || ?e)] => assert (Q2 : (negb divs || e)%bool = true) end.
        { assert (DC : L2 = [] \/ divs = false) by (unfold divs; destruct L2; auto).
          destruct DC as [EL2 | ->]; [|reflexivity]. apply orb_true_iff. right. apply seteq_str_iff. split; intros k.
          - rewrite in_map_iff. intros ([[k1 v1] s1] & E1' & Hin). cbn in E1'. subst k1. apply filter_In in Hin. destruct Hin as [Hin Hb].
            cbn [fst snd] in Hb. apply andb_true_iff in Hb. destruct Hb as [-> Hm].
            destruct (vp_in_items p L V k v1 true Hin) as (_ & Hs & _). apply HS; [exact EL2| |].
            + apply od_mem_iff. exact Hm.
            + symmetry in Hs. apply negb_true_iff, mem_str_false in Hs. exact Hs.
          - rewrite in_map_iff. intros K. assert (KM' := HI k K). assert (Kk : In k (p_keylist p)) by (apply (vp_key_iff p L V); auto).
            destruct (vp_get p k Kk) as (v & G). exists ((k, v), issingleton v). split; [reflexivity|]. apply filter_In. split.
            + rewrite (vp_items p L V). apply in_map_iff. exists (k, v). split; [reflexivity|]. apply od_get_in. exact G.
            + cbn [fst snd]. apply andb_true_iff. split; [|apply od_mem_iff; exact KM'].
              apply (vp_sing p L V k v G). intros C. apply (key_var k K) in C. rewrite EL2 in C. exact C. }
        rewrite Q2. cbn [assert_ bind]. 
        match goal with |- bind ?x _ = _ => replace x with (Ok (dmarg, dcond, vals, if divs then repeat 1 (length L) else mask (size_of q) dkeys L)) by (symmetry; exact El) end.
        cbn [bind]. cbv zeta. rewrite Rp, Rq. cbn [bind].
        rewrite Edv. cbn [bind]. rewrite Et. cbn [bind]. exact Er. }
      split; [exact Vr|]. split; [exact Mr|]. split; [exact Cr|]. split; [exact Sr|].
      split; [intros k K; apply Vv, Kd, K|].
      intros a b Ha Hb Fl. cbv zeta. intros B1 B2 B3.
      assert (Hr : in_range (shape tp) (map a L)) by (rewrite Sp; apply in_range_map; exact Ha).
      unfold prob_at at 1. rewrite Pr, Sr. 
      assert (EP : prob_at p L a = denote (spec_of (p_pscale p)) (get tp (bcast_idx (shape tp) (map a L)))).
      { unfold prob_at. rewrite Pp. do 2 f_equal. rewrite bcast_idx_id; [reflexivity|exact Hr]. }
      assert (EQ : prob_at q L2 b = denote (spec_of (p_pscale q)) (get dv (bcast_idx (shape dv) (map a L)))).
      { unfold prob_at. rewrite Pq, (Gdv a b Ha Hb Fl). reflexivity. }
      rewrite EP, EQ in *. apply Gt; auto.
Qed.
End Div.

Section DivOk.
Context {F : Fmt R}.
Variables (p q : pd R) (L L2 : list string).
Hypothesis V : valid_pd p L.
Hypothesis V2 : valid_pd q L2.
Hypothesis HC : forall k, In k (od_keys (p_cond p)) <-> In k (od_keys (p_cond q)).
Hypothesis HI : incl (od_keys (p_marg q)) (od_keys (p_marg p)).
Hypothesis HV : forall k, In k (od_keys (p_marg q)) -> variable q k = variable p k.
(** The columns of the divisor are its marginal ones and lie in the order of the dividend. *)
Hypothesis HL : L2 = filter (fun k => mem_str k (dkeys q)) L.
Hypothesis HS : L2 = [] -> forall k, In k (od_keys (p_marg p)) -> ~ In k L -> In k (dkeys q).
Hypothesis FS : fine_scale p.
Hypothesis FS2 : fine_scale q.

Lemma div_ok : exists r, truediv p q = Ok r /\ valid_pd r L /\
  p_marg r = dmarg p q /\ p_cond r = dcond p q /\ p_pscale r = p_pscale p /\
  (forall k, In k (p_keylist p) -> variable r k = variable p k) /\
  forall a, in_bounds p L a ->
    let P := prob_at p L a in let Q := prob_at q L2 a in
    (P <= npi)%R -> (npz <= Q <= npi)%R -> (log_scaled p -> (npz <= P / Q)%R) ->
    prob_at r L a = (P / Q)%R.
Proof.
  assert (HP : forall k, In k L2 -> ~ In k (dkeys q) -> size_of q k = 1).
  { intros k K N. exfalso. apply N. rewrite HL in K. apply filter_In in K. destruct K as [_ K]. apply mem_str_iff, K. }
  destruct (div_gen p q L L2 V V2 HC HI HV HP HS FS FS2) as (r & E & Vr & Mr & Cr & Sr & Vv & Pr).
  exists r. repeat (split; [assumption|]). intros a Ha.
  assert (Sz : forall k, In k L2 -> size_of q k = size_of p k).
  { intros k K. rewrite HL in K. apply filter_In in K. destruct K as [_ K]. apply mem_str_iff in K. apply (size_eq p q HV k K). }
  apply (Pr a a Ha).
  - intros k K. rewrite Sz by exact K. apply Ha. rewrite HL in K. apply filter_In in K. tauto.
  - rewrite <- HL. f_equal. apply map_ext_in. exact Sz.
Qed.
End DivOk.
