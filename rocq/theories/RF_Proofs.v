(** Proofs about fields of independent random variables. *)
From Coq Require Import String Ascii ZArith Reals Lra Bool Arith Lia Permutation List.
From Verif Require Import Base Num Tensor TensorBcast OdLemmas TensorLemmas RNumLemmas PScales PScales_Spec
  PScales_Proofs PScales_Prod Names Names_Spec Names_Proofs Distr PDModel PDUtils PD_Spec PD_Simple_Spec PD_Make PD_Sums PD_Valid PD_Marg
  PD_Align PD_Product2 PD_Product3 PD_Rekey PD_Remarg PD_Expect VariableModel RVModel FieldModel Field_Spec Field_Proofs Field_Dims RFModel RF_Spec.
Import ListNotations.
Local Open Scope list_scope.

(** *** The field *)

Lemma nodes_nth (vs : list (rv R)) i : nth_error (nodes vs) i =
  match nth_error vs i with Some v => Some (node i v) | None => None end.
Proof.
  unfold nodes. enough (H : forall a i, nth_error (map (fun iv => node (fst iv) (snd iv)) (combine (seq a (length vs)) vs)) i =
    match nth_error vs i with Some v => Some (node (a + i) v) | None => None end) by apply (H 0).
  clear i. induction vs as [|v vs IH]; intros a i; [destruct i; reflexivity|].
  destruct i as [|i]; cbn [length seq combine map nth_error fst snd].
  - rewrite Nat.add_0_r. reflexivity.
  - rewrite IH. replace (S a + i) with (a + S i) by lia. reflexivity.
Qed.

Lemma nodes_length (vs : list (rv R)) : length (nodes vs) = length vs.
Proof. unfold nodes. rewrite map_length, combine_length, seq_length. lia. Qed.

Lemma nodes_names (vs : list (rv R)) : map (@fv_name R) (nodes vs) = names_of vs.
Proof.
  unfold names_of. apply nth_error_ext. intros i. rewrite !nth_error_map, nodes_nth. destruct (nth_error vs i); reflexivity.
Qed.

Lemma nodes_ids (vs : list (rv R)) : map (@fv_id R) (nodes vs) = seq 0 (length vs).
Proof.
  apply nth_error_ext. intros i. rewrite nth_error_map, nodes_nth.
  destruct (nth_error vs i) as [v|] eqn:E; cbn.
  - assert (i < length vs) by (apply nth_error_Some; congruence).
    rewrite nth_error_nth' with (d := 0) by (rewrite seq_length; auto). rewrite seq_nth by auto. reflexivity.
  - apply nth_error_None in E. symmetry. apply nth_error_None. rewrite seq_length. auto.
Qed.

Lemma pick_all (vs : list (rv R)) f : fd_varlist f = nodes vs -> pick vs f = vs.
Proof.
  intros E. unfold pick. rewrite E. unfold nodes.
  enough (H : forall pre, flat_map (fun w => match nth_error (pre ++ vs) (fv_id w) with Some v => [v] | None => [] end)
    (map (fun iv => node (fst iv) (snd iv)) (combine (seq (length pre) (length vs)) vs)) = vs) by apply (H []).
  clear E f. induction vs as [|v vs IH]; intros pre; [reflexivity|].
  cbn [length seq combine map flat_map fst snd node fv_id]. rewrite nth_error_app2, Nat.sub_diag by auto. cbn [nth_error app].
  f_equal. specialize (IH (pre ++ [v])). rewrite app_length in IH. cbn [length] in IH.
  rewrite Nat.add_1_r, <- app_assoc in IH. exact IH.
Qed.

Lemma field_ok (vs : list (rv R)) : vs <> [] -> NoDup (names_of vs) ->
  exists f, make_field true (match vs with [v] => AddOne (Some (node 0 v)) | _ => AddMany (map Some (nodes vs)) end) = Ok f /\
    fd_keys f = names_of vs /\ fd_varlist f = nodes vs.
Proof.
  intros NE ND. destruct vs as [|v [|w vs]]; [congruence| |].
  - eexists. split; [reflexivity|]. split; reflexivity.
  - destruct (@construct R true (nodes (v :: w :: vs))) as (f & E & H & _).
    + discriminate.
    + unfold distinct_objects. rewrite nodes_ids. apply seq_NoDup.
    + unfold distinct_names. rewrite nodes_names. exact ND.
    + intros u I. unfold nodes in I. apply in_map_iff in I. destruct I as ([i x] & <- & _). reflexivity.
    + exists f. split; [exact E|]. destruct H as (H1 & H2 & _). rewrite nodes_names in H1. auto.
Qed.

Lemma scale_not_unit (vs : list (rv R)) s : scales_ok vs -> In s (map scale_of vs) -> ~ unit_log s.
Proof.
  intros [H|[H _]] I U; rewrite Forall_forall in H; apply H in I; unfold unit_log in U; subst.
  - destruct I as [_ I]. discriminate.
  - destruct I as [I|I]; [discriminate|]. injection I. lra.
Qed.

(** The scale of the field, whatever it is the scale of. *)
Definition natural (vs : list (rv R)) (ps : pspec R) (q : pscale R) : Prop :=
  product_pscale PSNone (map scale_of vs) = Ok ps /\ eval_pscale ps = Ok q /\ eval_pscale (spec_of q) = Ok q /\
  spec_of q = ps /\
  factor (spec_of q) = Rprod (map factor (map scale_of vs)) /\
  log_kind (spec_of q) = existsb log_kind (map scale_of vs).

Lemma natural_ok (vs : list (rv R)) : vs <> [] -> scales_ok vs -> exists ps q, natural vs ps q.
Proof.
  intros NE FT. assert (NS : map scale_of vs <> []) by (destruct vs; [congruence|discriminate]).
  set (ts := map (fun _ : rv R => @tscalar R 1%R) vs).
  assert (Bt : bcast_all (map shape ts) = Ok []).
  { unfold ts. clear. destruct vs as [|v vs]; [reflexivity|].
    unfold bcast_all. cbn [map]. change (shape (tscalar 1%R)) with (@nil nat).
    induction vs as [|u l IH]; [reflexivity|]. cbn [map fold_res]. change (shape (tscalar 1%R)) with (@nil nat).
    destruct l; [reflexivity|]. exact IH. }
  destruct (prod_rule_scaled ts (map scale_of vs) []) as (t & ps & psc & E1 & E2 & _ & E3 & E4 & _ & E5 & _).
  - unfold ts. destruct vs; [congruence|discriminate].
  - unfold ts. rewrite !map_length. reflexivity.
  - exact FT.
  - exact Bt.
  - exists ps, psc. split; [exact E1|]. split; [exact E3|]. split; [exact E4|]. split; [|exact E5].
    destruct FT as [FL|[FP C]].
    + assert (Cx : existsb iscomplex (map scale_of vs) = false).
      { apply not_true_is_false. intros C. apply existsb_exists in C. destruct C as (sc & Isc & C). rewrite Forall_forall in FL.
        apply FL in Isc. destruct Isc as [_ Q]. destruct sc; discriminate. }
      unfold product_pscale in E1. cbn [truthy] in E1.
      rewrite prod_pscale_default, Cx, prod_pscale_lin in E1; auto.
      2:{ eapply Forall_impl; [|exact FL]. intros sc [Q _]. exact Q. }
      2:{ eapply Forall_impl; [|exact FL]. intros sc [_ Q] U'. rewrite U' in Q. discriminate. }
      cbn [bind] in E1. assert (Ps : spec_of (Lin (Rprod (map factor (map scale_of vs)))) = ps) by congruence. rewrite <- Ps in E3 |- *.
      rewrite eval_spec_of in E3; [congruence|].
      cbn [p_ok]. assert (0 < Rprod (map factor (map scale_of vs)))%R; [|lra].
      clear -FL. induction FL as [|x l [Vx _] FL IH]; cbn; [lra|]. apply Rmult_lt_0_compat; [apply factor_pos; exact Vx|exact IH].
    + destruct (prod_rule_plain_log ts (map scale_of vs) []) as (t' & E & _); auto.
      * unfold ts. destruct vs; [congruence|discriminate].
      * unfold ts. rewrite !map_length. reflexivity.
      * apply natural_scale in E; auto. assert (ps = PSCplx 0%R 0%R) by congruence. subst ps.
        rewrite eval_log_spellings in E3 by (cbn; auto 6). injection E3 as <-. reflexivity.
Qed.

Lemma make_rf_ok (vs : list (rv R)) : vs <> [] -> NoDup (names_of vs) -> scales_ok vs ->
  exists f ps q, make_rf vs = Ok (mkRF vs f q) /\ fd_keys f = names_of vs /\ fd_varlist f = nodes vs /\ natural vs ps q.
Proof.
  intros NE ND SC. destruct (field_ok vs NE ND) as (f & E & K & V). destruct (natural_ok vs NE SC) as (ps & q & NT).
  exists f, ps, q. split; [|auto]. unfold make_rf. rewrite E. cbn [bind]. rewrite pick_all by exact V.
  destruct NT as (P1 & P2 & P3 & P4 & _). unfold product_pscale in P1. cbn [truthy] in P1.
  destruct (prod_pscale (map scale_of vs) None) as [[p|]|e]; cbn [bind] in *; try discriminate; injection P1 as P1.
  - rewrite P1, P2. cbn [bind]. rewrite P4. unfold new_pscale. destruct (ps_true ps); rewrite P2; reflexivity.
  - rewrite P1, P2. cbn [bind]. rewrite P4. unfold new_pscale. destruct (ps_true ps); rewrite P2; reflexivity.
Qed.

(** *** Probabilities of a variable *)
Definition pfun {TR : Trunc R} (v : rv R) (y : pyval R) : R :=
  match rv_prob v with
  | RPScalar p => if inside_b (rv_state v) y then p else if is_log (rv_pscale v) then nni else n0
  | RPBern b => bernoulli_prob (as_num y) b
  | RPFun f => f (as_num y)
  | RPArray _ => 0%R
  end.

Lemma scales_p_ok (vs : list (rv R)) v : scales_ok vs -> In v vs -> p_ok (rv_pscale v).
Proof.
  intros [H|[H _]] I; rewrite Forall_map in H; rewrite Forall_forall in H; specialize (H v I); unfold scale_of in H.
  - destruct H as [_ H]. destruct (rv_pscale v) as [c|re im]; [|discriminate]. cbn in H |- *. intros ->.
    destruct (Req_EM_T 0 0); [discriminate|congruence].
  - destruct (rv_pscale v) as [c|re im]; cbn in *; destruct H as [H|H]; try discriminate; injection H; intros; lra.
Qed.

Lemma eval_callable {TR : Trunc R} v a : callable v -> p_ok (rv_pscale v) -> eval_prob v a = Ok (tmap (pfun v) a).
Proof.
  intros C O. unfold eval_prob, pfun, callable in *. destruct (rv_prob v) as [p|b|l|f]; cbn; [|reflexivity|contradiction|reflexivity].
  rewrite eval_spec_of by exact O. reflexivity.
Qed.

Lemma zip_same {B C D E} (f : B -> C -> D) (g : E -> B) (h : E -> C) (k : E -> D) l :
  (forall v, In v l -> f (g v) (h v) = k v) -> zip_with f (map g l) (map h l) = map k l.
Proof. induction l as [|v l IH]; intros H; [reflexivity|]. cbn. rewrite H by (left; reflexivity). f_equal. apply IH. intros w I. apply H. right. exact I. Qed.

(** *** Keys with a suffix *)
Lemma app_tail_inj (a b s : string) : (a ++ s)%string = (b ++ s)%string -> a = b.
Proof.
  assert (Ln : forall u w, String.length (u ++ w) = String.length u + String.length w) by (induction u; intros w; cbn; auto).
  revert b. induction a as [|c a IH]; intros b E.
  - destruct b as [|d b]; [reflexivity|]. exfalso. apply (f_equal String.length) in E. rewrite !Ln in E. cbn in E. lia.
  - destruct b as [|d b].
    + exfalso. apply (f_equal String.length) in E. rewrite !Ln in E. cbn in E. lia.
    + cbn in E. injection E as -> E. f_equal. apply IH. exact E.
Qed.

Lemma rk_keys {B} (g : string -> string) (d : odict B) : od_keys (map (fun kv => (g (fst kv), snd kv)) d) = map g (od_keys d).
Proof. unfold od_keys. rewrite !map_map. reflexivity. Qed.

Lemma rk_get {B} (g : string -> string) (d : odict B) k : (forall a b, g a = g b -> a = b) ->
  od_get (map (fun kv => (g (fst kv), snd kv)) d) (g k) = od_get d k.
Proof.
  intros GI. induction d as [|[k0 v] d IH]; [reflexivity|]. cbn [map fst snd od_get].
  destruct (String.eqb_spec (g k) (g k0)) as [E|NE], (String.eqb_spec k k0) as [E'|NE']; auto; [apply GI in E|subst]; congruence.
Qed.

Lemma od_get_map {B C} (h : B -> C) (d : odict B) k :
  od_get (map (fun kv => (fst kv, h (snd kv))) d) k = match od_get d k with Some v => Some (h v) | None => None end.
Proof. induction d as [|[k0 v] d IH]; [reflexivity|]. cbn [map fst snd od_get]. destruct (String.eqb k k0); auto. Qed.

(** *** Evaluation of the values asked for *)
Section Call.
Context {F : Fmt R} {TR : Trunc R}.
Variables (vs : list (rv R)) (values : odict (fentry R)).
Variables (x : string -> fval R) (aa : string -> values_in R) (r : nat -> rnd R) (A : string -> tensor (pyval R)).
Hypothesis NE : vs <> [].
Hypothesis NA : named_apart (names_of vs).
Hypothesis NDv : NoDup (od_keys values).
Hypothesis INv : incl (od_keys values) (names_of vs).
Hypothesis HE : forall i v, nth_error vs i = Some v ->
  evaluates v values (x (rv_name v)) (aa (rv_name v)) (r i) (A (rv_name v)).

Let names := names_of vs.
Let L := filter (needs_axis values) names.

Lemma name_ix k : In k names -> exists i v, nth_error vs i = Some v /\ rv_name v = k.
Proof.
  intros I. apply in_map_iff in I. destruct I as (v & E & I). apply In_nth_error in I. destruct I as (i & I). eauto.
Qed.

Lemma ix_name i v : nth_error vs i = Some v -> In (rv_name v) names.
Proof. intros I. apply in_map_iff. exists v. split; [reflexivity|]. eapply nth_error_In; eauto. Qed.

Lemma get_one k : In k names -> od_get values k = Some (One (x k)).
Proof. intros I. destruct (name_ix k I) as (i & v & Iv & <-). apply (HE i v Iv). Qed.

Lemma entry_one k e : In (k, e) values -> In k names /\ e = One (x k).
Proof.
  intros I. assert (K : In k names). { apply INv. apply in_map_iff. exists (k, e). auto. }
  split; [exact K|]. pose proof (od_in_get _ _ _ NDv I) as G. rewrite get_one in G by exact K. congruence.
Qed.

Lemma unshared k : In k names -> shared k = false.
Proof.
  intros I. destruct NA as [_ S]. destruct (S k I) as [[G _] _]. destruct G as (_ & C & _). apply has_char_false. exact C.
Qed.

Lemma keys_all k : In k (od_keys values) <-> In k names.
Proof. split; [apply INv|]. intros I. apply od_get_some_key with (v := One (x k)). apply get_one. exact I. Qed.

Lemma needs_one k : In k names -> needs_axis values k = negb (dimensionless (x k)).
Proof. intros I. unfold needs_axis. rewrite get_one by exact I. reflexivity. Qed.

Lemma flat_sub (l : list string) : incl l names -> flat_map subkeys l = l.
Proof.
  induction l as [|k l IH]; intros I; [reflexivity|]. cbn [flat_map].
  rewrite subkeys_unshared by (apply unshared, I; left; reflexivity). cbn [app]. f_equal. apply IH.
  intros y Hy. apply I. right. exact Hy.
Qed.

Lemma parsed f : fd_keys f = names -> f_parse_args f values = Ok values.
Proof.
  intros Kf. unfold f_parse_args.
  assert (E : map_res (parse_entry f) values = Ok values).
  { rewrite map_res_all with (g := fun kv => kv); [rewrite map_id; reflexivity|].
    intros [k e] I. destruct (entry_one k e I) as [K ->]. unfold parse_entry. cbn [fst snd].
    rewrite subkeys_unshared, (unshared k K) by (apply unshared; exact K). cbn [bind last].
    assert (M : mem_str k (fd_keys f) = true) by (rewrite Kf; apply mem_str_iff; exact K).
    rewrite M. reflexivity. }
  rewrite E. cbn [bind]. f_equal. rewrite flat_sub by (intros k; apply keys_all).
  assert (G : forall l, incl l names ->
    fold_left (fun d k => if mem_str k (od_keys values) then d else od_set d k (One (default_val f values))) l values = values).
  { induction l as [|k l IH]; intros I; [reflexivity|]. cbn [fold_left].
    assert (M : mem_str k (od_keys values) = true) by (apply mem_str_iff, keys_all, I; left; reflexivity).
    rewrite M. apply IH. intros y Hy. apply I. right. exact Hy. }
  apply G. rewrite Kf. apply incl_refl.
Qed.

Lemma covers_ok : covers values names.
Proof.
  destruct NA as [N1 N2]. split; [exact N1|]. split; [apply unshared|]. split.
  - rewrite flat_sub by (intros k; apply keys_all). exact NDv.
  - split; [intros k; rewrite flat_sub by (intros y; apply keys_all); apply keys_all|].
    intros o e I. destruct (entry_one o e I) as [K ->]. apply unshared. exact K.
Qed.

Lemma gives_self k : In k names -> gives values k k (x k).
Proof.
  intros I. left. split; [reflexivity|]. split; [apply unshared; exact I|]. apply od_get_in. apply get_one. exact I.
Qed.

Lemma owner_self k : In k names -> owner values k = Some k.
Proof. intros I. eapply gives_owner; [apply covers_ok|apply gives_self; exact I]. Qed.

Lemma arrays_ok : arrays_shared values.
Proof.
  intros o k y [(-> & H & _)|(H & _ & l & I & _)] S; [congruence|].
  apply entry_one in I. destruct I. discriminate.
Qed.

Lemma axes_cols : axes values names = L.
Proof.
  unfold L. destruct NA as [N1 _]. fold names in N1.
  assert (G : forall l, NoDup l -> incl l names -> axes values l = filter (needs_axis values) l).
  { intros l. induction l as [|k l IH] using rev_ind; intros N I; [reflexivity|].
    rewrite axes_snoc, owner_self by (apply I, in_app_iff; right; left; reflexivity).
    apply nodup_app_iff in N. destruct N as (Nl & _ & D).
    rewrite IH; [|exact Nl|intros y Hy; apply I, in_app_iff; auto].
    rewrite filter_app. cbn [filter]. destruct (needs_axis values k); cbn [andb]; [|rewrite app_nil_r; reflexivity].
    assert (M : mem_str k (filter (needs_axis values) l) = false).
    { apply mem_str_false. intros C. apply filter_In in C. destruct C as [C _]. apply (D k C). left. reflexivity. }
    rewrite M. reflexivity. }
  apply G; [exact N1|apply incl_refl].
Qed.

Lemma ev_one i v : nth_error vs i = Some v -> rf_ev vs r i (node i v) (x (rv_name v)) = Ok (A (rv_name v)).
Proof.
  intros I. destruct (HE i v I) as (_ & S & E & _). unfold rf_ev. cbn [node fv_id].
  assert (G : getR vs i = Ok v) by (unfold getR; rewrite I; reflexivity).
  destruct S as [|n|y|l].
  - rewrite G. cbn [bind]. exact E.
  - rewrite G. cbn [bind]. exact E.
  - rewrite <- E. unfold rv_evaluate, evaluate. destruct (is_bool _), (rv_prob v); destruct (vs_vset _) eqn:V; try reflexivity;
    unfold rv_evaluate, evaluate in E; rewrite V in E; cbn in E; try discriminate; destruct (is_bool _), (rv_prob v); discriminate.
  - rewrite <- E. unfold rv_evaluate, evaluate. destruct (is_bool _), (rv_prob v); destruct (vs_vset _) eqn:V; try reflexivity;
    unfold rv_evaluate, evaluate in E; rewrite V in E; cbn in E; try discriminate; destruct (is_bool _), (rv_prob v); discriminate.
Qed.

Let sz (k : string) : nat := tsize (A k).

Lemma A_shape k : In k names -> dimensionless (x k) = true /\ shape (A k) = [] \/
  dimensionless (x k) = false /\ In k L /\ shape (A k) = [sz k] /\ 0 < sz k.
Proof.
  intros I. destruct (name_ix k I) as (i & v & Iv & <-). destruct (HE i v Iv) as (_ & _ & _ & [H|(H & n & Hn & S)]); [auto|].
  right. split; [exact H|]. split.
  - apply filter_In. split; [exact I|]. rewrite needs_one by exact I. rewrite H. reflexivity.
  - unfold sz, tsize. rewrite S. cbn. rewrite Nat.mul_1_r. auto.
Qed.

Lemma L_nodup : NoDup L.
Proof. apply filter_nodup. apply NA. Qed.

Lemma L_in k : In k L <-> In k names /\ dimensionless (x k) = false.
Proof.
  unfold L. rewrite filter_In. split; intros [I H]; (split; [exact I|]); rewrite needs_one in * by exact I.
  - apply negb_true_iff. exact H.
  - rewrite H. reflexivity.
Qed.

Lemma evaluated f : fd_keys f = names -> fd_varlist f = nodes vs ->
  exists vals dims, f_evaluate_by (rf_ev vs r) f values 0 = Ok (vals, dims) /\
    NoDup (od_keys vals) /\ (forall k, In k (od_keys vals) <-> In k names) /\
    (dims = [] \/ od_keys dims = od_keys vals) /\ (L = [] \/ od_keys vals = names) /\
    forall k, In k names -> exists a, od_get vals k = Some a /\ to_list a = to_list (A k) /\
      (dimensionless (x k) = true /\ a = A k /\ shape a = [] /\ (od_get dims k = None \/ od_get dims k = Some None) \/
       In k L /\ shape a = mask sz [k] L /\ 0 < sz k /\ od_get dims k = Some (Some (pos k L))).
Proof.
  intros Kf Vf. pose proof NA as [N1 _]. fold names in N1.
  destruct (forallb (@entry_scalar R) (od_vals values)) eqn:SC.
  - destruct (evaluate_scalars_by (rf_ev vs r) f values 0 SC) as (vals & E & K & G).
    exists vals, []. split; [exact E|]. rewrite K. split; [exact NDv|]. split; [apply keys_all|]. split; [auto|]. split.
    { left. destruct L as [|k l] eqn:EL; [reflexivity|]. exfalso. assert (IL : In k L) by (rewrite EL; left; reflexivity).
      apply L_in in IL. destruct IL as [IN D]. apply get_one in IN. apply od_get_in in IN. rewrite forallb_forall in SC.
      assert (IV : In (One (x k)) (od_vals values)) by (apply in_map_iff; exists (k, One (x k)); auto). apply SC in IV.
      destruct (x k); discriminate. }
    intros k I. pose proof I as I'. apply keys_all in I'. rewrite <- K in I'. apply od_key_get in I'. destruct I' as (a & Ga).
    exists a. split; [exact Ga|]. apply od_get_in in Ga. destruct (G k a Ga) as (y & Iy & ->).
    apply entry_one in Iy. destruct Iy as [_ Iy]. assert (X : x k = FNum y) by congruence.
    destruct (name_ix k I) as (i & v & Iv & <-). pose proof (ev_one i v Iv) as EV. rewrite X in EV. cbn [rf_ev] in EV.
    assert (AE : A (rv_name v) = tscalar y) by congruence. rewrite AE. split; [reflexivity|].
    left. rewrite X. cbn. auto.
  - destruct (@evaluate_axes_by R (rf_ev vs r) f values 0 A) as (vals & dims & E & K1 & K2 & G).
    + rewrite Vf, Kf. apply nodes_names.
    + rewrite Kf. apply covers_ok.
    + apply arrays_ok.
    + exact SC.
    + intros i w Hw. rewrite Vf, nodes_nth in Hw. destruct (nth_error vs i) as [v|] eqn:Iv; [|discriminate]. injection Hw as <-.
      pose proof (ix_name i v Iv) as I. exists (rv_name v), (x (rv_name v)). split; [apply gives_self; exact I|].
      split; [apply ev_one; exact Iv|]. cbn [node fv_name].
      destruct (A_shape _ I) as [[H1 H2]|(H1 & _ & H2 & _)]; rewrite H1, H2; split; congruence.
    + rewrite Kf in *. exists vals, dims. split; [exact E|]. rewrite K1. split; [exact N1|]. split; [tauto|].
      split; [right; congruence|]. split; [auto|]. intros k I. destruct (G k I) as (a & d & G1 & G2 & G3 & G4).
      exists a. split; [exact G1|]. split; [exact G3|].
      destruct (A_shape k I) as [[H1 H2]|(H1 & H0 & H2 & H3)].
      * left. destruct G4 as [(_ & -> & ->)|(C & _)]; [|congruence]. rewrite G2. auto.
      * right. split; [exact H0|]. destruct G4 as [(C & _)|(_ & o & i & O & AX & -> & SH)]; [congruence|].
        rewrite owner_self in O by exact I. injection O as <-. rewrite axes_cols in AX, SH.
        assert (Pi : i = pos k L).
        { apply (proj1 (NoDup_nth_error L) L_nodup); [apply nth_error_Some; congruence|].
          rewrite pos_nth by exact H0. exact AX. }
        subst i. cbn [Nat.add] in SH, G2. split; [|auto]. rewrite SH.
        pose proof (set_nth_mask sz [] L k H0 L_nodup) as Q. cbn [app] in Q. rewrite <- Q, mask_none. f_equal.
        symmetry. apply nth_error_nth. rewrite nth_error_map, pos_nth; auto.
Qed.

(** The axes of one variable. *)
Let cols (k : string) : list string := filter (needs_axis values) [k].

Lemma cols_in k : In k names -> cols k = if dimensionless (x k) then [] else [k].
Proof. intros I. unfold cols. cbn. rewrite needs_one by exact I. destruct (dimensionless (x k)); reflexivity. Qed.

Lemma placed_get k a s : In k names -> to_list a = to_list (A k) ->
  (dimensionless (x k) = true /\ a = A k /\ shape a = [] \/ In k L /\ shape a = mask sz [k] L /\ 0 < sz k) ->
  (forall k', In k' L -> s k' < sz k') ->
  get a (bcast_idx (shape a) (map s L)) = get (A k) (map s (cols k)).
Proof.
  intros I TL [(D & -> & SH)|(IL & SH & PZ)] B.
  - rewrite cols_in, D, SH by exact I. unfold bcast_idx. cbn [zip_with map]. reflexivity.
  - rewrite cols_in by exact I. pose proof IL as IL'. apply L_in in IL'. destruct IL' as [_ D]. rewrite D.
    rewrite SH, bcast_mask by exact B. cbn [map].
    destruct (A_shape k I) as [[C _]|(_ & _ & SA & _)]; [congruence|].
    assert (R1 : in_range (shape a) (midx [k] s L)) by (rewrite SH; apply midx_in_range; intros k' I1 _; apply B; exact I1).
    assert (R2 : in_range (shape (A k)) [s k]) by (rewrite SA; constructor; [apply B; exact IL|constructor]).
    pose proof (@TensorLemmas.to_list_get _ a _ (PF 0%R) R1) as T1. pose proof (@TensorLemmas.to_list_get _ (A k) _ (PF 0%R) R2) as T2.
    rewrite <- T1, <- T2, TL, SH, SA, ravel_column by (apply L_nodup || exact IL). f_equal. cbn. lia.
Qed.

Lemma shapes_bcast (vals : odict (tensor (pyval R))) :
  (forall k, In k names -> exists a, od_get vals k = Some a /\ to_list a = to_list (A k) /\
      (dimensionless (x k) = true /\ a = A k /\ shape a = [] \/ In k L /\ shape a = mask sz [k] L /\ 0 < sz k)) ->
  bcast_all (map (fun k => match od_get vals k with Some a => shape a | None => [] end) names) = Ok (map sz L).
Proof.
  intros HV.
  assert (E : map (fun k => match od_get vals k with Some a => shape a | None => [] end) names = map (fshape sz L) (map cols names)).
  { rewrite map_map. apply map_ext_in. intros k I. destruct (HV _ I) as (a & Ga & TL & Q). rewrite Ga.
    rewrite cols_in by exact I. destruct Q as [(D & _ & S)|(IL & S & _)].
    - rewrite D, S. reflexivity.
    - apply L_in in IL. destruct IL as [_ D]. rewrite D, S. reflexivity. }
  rewrite E, bcast_all_fshape by (unfold names, names_of; destruct vs; [congruence|discriminate]). f_equal.
  assert (IC : incl L (concat (map cols names))).
  { intros k I. rewrite concat_map_flat. apply in_flat_map. pose proof I as I'. apply L_in in I'. destruct I' as [I' D].
    exists k. split; [exact I'|]. rewrite cols_in, D by exact I'. left. reflexivity. }
  destruct L as [|k0 L0] eqn:EL; [|rewrite <- EL in *; apply fshape_all; [rewrite EL; discriminate|exact IC]].
  assert (EC : concat (map cols names) = []).
  { destruct (concat _) as [|k1 l1] eqn:E1; [reflexivity|]. exfalso. assert (I1 : In k1 (concat (map cols names))) by (rewrite E1; left; reflexivity).
    rewrite concat_map_flat in I1. apply in_flat_map in I1. destruct I1 as (k & Ik & I1). apply filter_In in I1. destruct I1 as [[<-|[]] I1].
    assert (H : In k L) by (apply filter_In; split; [exact Ik|exact I1]). rewrite EL in H. destruct H. }
  rewrite EC. reflexivity.
Qed.

(** *** Putting the distribution together *)
Lemma spread_get k : In k names -> od_get (spread values) k = Some (x k).
Proof.
  intros I. unfold spread.
  assert (G : forall (l : odict (fentry R)) acc, incl l values -> NoDup (od_keys l) ->
    od_get (fold_left (fun d (kv : string * fentry R) =>
      match snd kv with
      | One x => od_set d (fst kv) x
      | Many l => fold_left (fun d kx => od_set d (fst kx) (snd kx)) (combine (subkeys (fst kv)) l) d
      end) l acc) k = if mem_str k (od_keys l) then Some (x k) else od_get acc k).
  { induction l as [|[k0 e] l IH]; intros acc IL N; [reflexivity|]. cbn [fold_left fst snd].
    destruct (entry_one k0 e) as [K ->]; [apply IL; left; reflexivity|]. cbn [od_keys map fst] in N |- *. inversion N as [|? ? N1 N2]; subst.
    rewrite IH; [|intros y Hy; apply IL; right; exact Hy|exact N2]. cbn [mem_str existsb]. fold (od_keys l). fold (mem_str k (od_keys l)).
    destruct (String.eqb_spec k k0) as [->|Ne]; cbn [orb].
    - assert (M : mem_str k0 (od_keys l) = false) by (apply mem_str_false; exact N1). rewrite M. apply od_get_set_eq.
    - destruct (mem_str k (od_keys l)); [reflexivity|]. apply od_get_set_ne. congruence. }
  rewrite G; [|apply incl_refl|exact NDv].
  assert (M : mem_str k (od_keys values) = true) by (apply mem_str_iff, keys_all; exact I). rewrite M. reflexivity.
Qed.

Lemma dist_name_is suf : f_dist_name names values suf = join "," (map (fun k => fname (k ++ suf) (x k)) names).
Proof.
  unfold f_dist_name. f_equal. apply map_ext_in. intros k I. rewrite spread_get by exact I. reflexivity.
Qed.

Lemma to_list_num (a : tensor (pyval R)) : to_list (tmap (@as_num R RNum) a) = map as_num (to_list a).
Proof. unfold to_list, tmap, tsize. cbn [shape get]. rewrite map_map. reflexivity. Qed.

Hypothesis PR : printable F.

Lemma fname_good k y : simple_key k -> good_entry (fname k y) /\ key_of (fname k y) k.
Proof.
  intros S. assert (B : good_entry ("x" ++ "=" ++ "[]")).
  { unfold good_entry. cbn. split; [discriminate|]. repeat split; intros C; repeat (destruct C as [C|C]; [discriminate|]); destruct C. }
  destruct y as [y|a| |n]; cbn [fname].
  - apply good_join; [exact S|]. apply PR.
  - apply good_join; [exact S|exact B].
  - apply simple_plain. exact S.
  - apply good_join; [exact S|exact B].
Qed.

Lemma assembled m c suf vals (dims : odict (option nat)) (t : tensor R) (q : pscale R) :
  let g := fun k => (k ++ suf)%string in
  names = m ++ c ->
  named_apart (map g names) ->
  NoDup (od_keys vals) -> (forall k, In k (od_keys vals) <-> In k names) ->
  (dims = [] \/ od_keys dims = od_keys vals) ->
  (forall k, In k names -> exists a, od_get vals k = Some a /\ to_list a = to_list (A k) /\
      (dimensionless (x k) = true /\ a = A k /\ shape a = [] /\ (od_get dims k = None \/ od_get dims k = Some None) \/
       In k L /\ shape a = mask sz [k] L /\ 0 < sz k /\ od_get dims k = Some (Some (pos k L)))) ->
  shape t = map sz L -> eval_pscale (spec_of q) = Ok q ->
  exists p, make_pd (margcond_str (map (fun k => fname (g k) (x k)) m) (map (fun k => fname (g k) (x k)) c))
      (map (fun kv => (g (fst kv), snd kv)) (out_vals vals))
      (Some (map (fun kv => (g (fst kv), snd kv)) (out_dims dims))) (Some t) (spec_of q) = Ok p /\
    valid_pd p (map g L) /\ p_keylist p = map g (od_keys vals) /\ od_keys (p_marg p) = map g m /\ od_keys (p_cond p) = map g c /\
    p_prob p = Some t /\ p_pscale p = q /\
    (forall k, In k names -> variable p (g k) = Some (var_of (to_value (A k)))) /\
    (forall k, In k L -> od_get (p_marg p ++ p_cond p) (g k) = Some (fname (g k) (x k))).
Proof.
  intros g NMC [G1 G2] NK IK DK HV ST EP.
  assert (GI : forall k k', g k = g k' -> k = k') by (intros k k' E; eapply app_tail_inj; exact E).
  set (vals' := map (fun kv => (g (fst kv), snd kv)) (out_vals vals)).
  set (dims' := map (fun kv => (g (fst kv), snd kv)) (out_dims dims)).
  assert (KO : od_keys (out_vals vals) = od_keys vals) by (unfold od_keys, out_vals; rewrite map_map; reflexivity).
  assert (KD : od_keys (out_dims dims) = od_keys dims) by (unfold od_keys, out_dims; rewrite map_map; reflexivity).
  assert (KV : od_keys vals' = map g (od_keys vals)) by (unfold vals'; rewrite rk_keys, KO; reflexivity).
  assert (KD' : od_keys dims' = map g (od_keys dims)) by (unfold dims'; rewrite rk_keys, KD; reflexivity).
  assert (VAL : forall k, od_get vals' (g k) = match od_get vals k with Some a => Some (to_value a) | None => None end).
  { intros k. unfold vals'. rewrite rk_get by exact GI. apply od_get_map. }
  assert (DIM : forall k, od_get dims' (g k) = match od_get dims k with Some d => Some (match d with Some d => Some (Z.of_nat d) | None => None end) | None => None end).
  { intros k. unfold dims'. rewrite rk_get by exact GI. apply (od_get_map (fun d : option nat => match d with Some d => Some (Z.of_nat d) | None => None end)). }
  assert (LI : forall k, In (g k) (map g L) <-> In k L).
  { intros k. split; [|apply in_map]. intros I. apply in_map_iff in I. destruct I as (k' & E & I). apply GI in E. subst. exact I. }
  assert (SV : forall k, In k names -> ~ In k L -> exists a, od_get vals k = Some a /\ a = A k /\ shape a = [] /\ (od_get dims k = None \/ od_get dims k = Some None)).
  { intros k I NI. destruct (HV k I) as (a & E & _ & [(_ & Q)|(Q & _)]); [|contradiction]. exists a. auto. }
  assert (CV : forall k, In k L -> exists a, od_get vals k = Some a /\ to_list a = to_list (A k) /\ shape a = mask sz [k] L /\ 0 < sz k /\ od_get dims k = Some (Some (pos k L))).
  { intros k I. pose proof I as I'. apply L_in in I'. destruct I' as [I' D]. destruct (HV k I') as (a & E & TL & [(C & _)|(_ & Q)]); [congruence|]. exists a. tauto. }
  assert (LNE : forall k, In k L -> mask sz [k] L <> []) by (intros k I; destruct L; [destruct I|discriminate]).
  assert (TSZ : forall k a, In k L -> shape a = mask sz [k] L -> @tsize (pyval R) a = sz k).
  { intros k a I SH. unfold tsize. rewrite SH, prod_mask, filter_one by (apply L_nodup || exact I). cbn. lia. }
  set (ent := map (fun k => (g k, fname (g k) (x k)))).
  set (marg := ent m). set (cond := ent c).
  assert (EA : marg ++ cond = ent names) by (unfold marg, cond, ent; rewrite NMC, map_app; reflexivity).
  assert (KE : forall l, od_keys (ent l) = map g l) by (intros l; unfold ent, od_keys; rewrite map_map; reflexivity).
  assert (SK : forall k, In k names -> simple_key (g k)) by (intros k I; apply G2, in_map; exact I).
  destruct (make_pd_ok vals' dims' (map g L) marg cond t (spec_of q) q) as (p & E & VP & P1 & P2 & P3 & P4 & P5 & P6).
  - rewrite KV. eapply nodup_map_in; [|exact NK]. intros; apply GI; assumption.
  - intros C. assert (Z : od_keys vals' = []) by (rewrite C; reflexivity). rewrite KV in Z. apply map_eq_nil in Z.
    destruct vs as [|v l] eqn:EV; [congruence|]. assert (I : In (rv_name v) (od_keys vals)) by (apply IK; left; reflexivity).
    rewrite Z in I. destruct I.
  - intros k I. rewrite KV in I. apply in_map_iff in I. destruct I as (k' & <- & I). apply G2, in_map, IK. exact I.
  - eapply nodup_map_in; [|apply L_nodup]. intros; apply GI; assumption.
  - rewrite KV. intros k I. apply in_map_iff in I. destruct I as (k' & <- & I). apply in_map, IK. apply L_in in I. tauto.
  - intros k v Gk NI. pose proof (od_get_some_key _ _ Gk) as I. rewrite KV in I. apply in_map_iff in I. destruct I as (k' & <- & I).
    apply IK in I. rewrite LI in NI. destruct (SV k' I NI) as (a & Ga & _ & Sa & D). rewrite VAL, Ga in Gk. injection Gk as <-.
    split; [unfold to_value; rewrite Sa; reflexivity|]. rewrite DIM. destruct D as [-> | ->]; auto.
  - intros j k Hj. rewrite nth_error_map in Hj. destruct (nth_error L j) as [k'|] eqn:J; [|discriminate]. injection Hj as <-.
    pose proof (nth_error_In _ _ J) as IL. destruct (CV k' IL) as (a & Ga & TL & SH & PZ & D).
    assert (PJ : pos k' L = j).
    { apply (proj1 (NoDup_nth_error L) L_nodup); [apply pos_lt; exact IL|]. rewrite pos_nth by exact IL. congruence. }
    exists (tmap (@as_num R RNum) a). rewrite VAL, Ga, DIM, D, PJ. cbn [tmap shape].
    assert (TS : tsize (tmap (@as_num R RNum) a) = sz k') by (apply TSZ in SH; [exact SH|exact IL]). rewrite TS.
    split; [unfold to_value; destruct (shape a) eqn:SA; [exfalso; apply (LNE k' IL); congruence|reflexivity]|].
    split; [rewrite SH; apply LNE; exact IL|]. split; [|split; [exact PZ|split; [reflexivity|]]].
    + rewrite SH. pose proof (set_nth_mask sz [] L k' IL L_nodup) as Q. cbn [app] in Q. rewrite <- Q, mask_none.
      assert (NZ : nth (pos k' L) (map sz L) 1 = sz k') by (apply nth_error_nth; rewrite nth_error_map, pos_nth; auto). rewrite NZ.
      assert (LT : pos k' L < length L) by (apply pos_lt; exact IL).
      rewrite set_nth_repeat by exact LT. rewrite list_max_axis by exact PZ. reflexivity.
    + rewrite ST, nth_error_map, J. reflexivity.
  - rewrite KV, KD'. destruct DK as [-> | ->]; [intros k []|apply incl_refl].
  - rewrite KD'. destruct DK as [-> | ->]; [constructor|]. eapply nodup_map_in; [|exact NK]. intros; apply GI; assumption.
  - rewrite ST, !map_length. reflexivity.
  - rewrite EA. unfold ent. apply Forall_map. apply Forall_forall. intros k I. cbn [fst snd]. apply fname_good, SK. exact I.
  - rewrite EA. unfold ent. rewrite map_map. apply Forall_map. apply Forall_forall. intros k I. unfold render. cbn [fst snd].
    destruct (mem_str (g k) (map g L)) eqn:M; [apply fname_good, SK; exact I|].
    apply mem_str_false in M. rewrite LI in M. destruct (SV k I M) as (a & Ga & _ & Sa & _). rewrite VAL, Ga. unfold to_value. rewrite Sa.
    cbn [fmt_value]. apply good_join; [apply SK; exact I|apply PR].
  - unfold marg, cond. rewrite !KE, KV, <- map_app, <- NMC. apply Permutation_map. apply NoDup_Permutation; [apply NA|exact NK|].
    intros k. symmetry. apply IK.
  - exact EP.
  - exact EP.
  - exists p. split; [|split; [exact VP|]].
    + rewrite <- E. f_equal. unfold marg, cond, ent, od_vals. rewrite !map_map. reflexivity.
    + split; [congruence|]. rewrite P2, P3. repeat (split; [|]).
      * rewrite render_keys. apply KE.
      * rewrite render_keys. apply KE.
      * exact P4.
      * exact P5.
      * intros k I. rewrite P6, VAL.
        destruct (in_dec string_dec k L) as [IL|NI].
        -- destruct (CV k IL) as (a & Ga & TL & SH & _). rewrite Ga. f_equal. pose proof IL as I2. apply L_in in I2. destruct I2 as [_ D].
           destruct (A_shape k I) as [[C _]|(_ & _ & SA & _)]; [congruence|].
           unfold to_value. rewrite SA. destruct (shape a) eqn:SA'; [exfalso; apply (LNE k IL); congruence|].
           cbn [var_of tmap shape]. rewrite SA, SA'. f_equal. change (to_list (tmap (@as_num R RNum) a) = to_list (tmap (@as_num R RNum) (A k))).
           rewrite !to_list_num, TL. reflexivity.
        -- destruct (SV k I NI) as (a & Ga & -> & _). rewrite Ga. reflexivity.
      * intros k I. rewrite <- map_app, EA. pose proof I as I2. apply L_in in I2. destruct I2 as [I2 _]. unfold ent. rewrite map_map.
        apply od_in_get.
        -- unfold od_keys. rewrite map_map. unfold render. cbn [fst snd]. exact G1.
        -- apply in_map_iff. exists k. split; [|exact I2]. unfold render. cbn [fst snd].
           assert (M : mem_str (g k) (map g L) = true) by (apply mem_str_iff, LI; exact I). rewrite M. reflexivity.
Qed.

(** *** Joint probabilities *)
Hypothesis CA : forall v, In v vs -> callable v.
Hypothesis SC : scales_ok vs.

Definition at_ (s : assignment) (v : rv R) : R :=
  denote (scale_of v) (pfun v (get (A (rv_name v)) (map s (filter (needs_axis values) [rv_name v])))).

Lemma joint_prob f q ps vals : fd_varlist f = nodes vs -> fd_keys f = names -> natural vs ps q ->
  NoDup (od_keys vals) -> (forall k, In k (od_keys vals) <-> In k names) ->
  (forall k, In k names -> exists a, od_get vals k = Some a /\ to_list a = to_list (A k) /\
      (dimensionless (x k) = true /\ a = A k /\ shape a = [] \/ In k L /\ shape a = mask sz [k] L /\ 0 < sz k)) ->
  exists t, rf_eval_prob (mkRF vs f q) vals = Ok t /\ shape t = map sz L /\
    forall s, (forall k, In k L -> s k < sz k) ->
      (existsb iscomplex (map scale_of vs) = true -> forall v, In v vs -> log_kind (scale_of v) = false -> (npz <= at_ s v)%R) ->
      denote (spec_of q) (get t (map s L)) = Rprod (map (at_ s) vs).
Proof.
  intros Vf Kf NT NK IK HV. destruct NT as (P1 & P2 & P3 & P4 & P5 & P6).
  set (vl := fun k => match od_get vals k with Some a => a | None => tscalar (PF 0%R) end).
  assert (VL : forall v, In v vs -> od_getR vals (rv_name v) = Ok (vl (rv_name v)) /\
     shape (vl (rv_name v)) = fshape sz L (cols (rv_name v)) /\
     forall s, (forall k, In k L -> s k < sz k) ->
       get (vl (rv_name v)) (bcast_idx (shape (vl (rv_name v))) (map s L)) = get (A (rv_name v)) (map s (cols (rv_name v)))).
  { intros v Iv. assert (I : In (rv_name v) names) by (apply in_map; exact Iv).
    destruct (HV _ I) as (a & Ga & TL & Q). unfold vl. rewrite Ga. split; [apply od_getR_ok; exact Ga|]. split.
    - rewrite cols_in by exact I. destruct Q as [(D & _ & S)|(IL & S & _)].
      + rewrite D, S. reflexivity.
      + apply L_in in IL. destruct IL as [_ D]. rewrite D, S. reflexivity.
    - intros s B. apply placed_get; auto. }
  assert (EV : forall v, In v vs -> eval_prob v (vl (rv_name v)) = Ok (tmap (pfun v) (vl (rv_name v)))).
  { intros v Iv. apply eval_callable; [apply CA; exact Iv|eapply scales_p_ok; eauto]. }
  set (args := map (fun v => tmap (pfun v) (vl (rv_name v))) vs).
  assert (MR : map_res (fun v => let! a := od_getR vals (rv_name v) in eval_prob v a) vs = Ok args).
  { apply map_res_all. intros v Iv. destruct (VL v Iv) as (-> & _). cbn [bind]. apply EV. exact Iv. }
  assert (BA : bcast_all (map shape args) = Ok (map sz L)).
  { rewrite <- (shapes_bcast vals HV). f_equal. unfold args, names, names_of. rewrite !map_map. apply map_ext_in. intros v Iv. cbn [tmap shape].
    destruct (HV (rv_name v)) as (a & Ga & _); [apply in_map; exact Iv|]. unfold vl. rewrite Ga. reflexivity. }
  assert (AN : args <> []) by (unfold args; destruct vs; [congruence|discriminate]).
  destruct (prod_rule_scaled args (map scale_of vs) (map sz L) AN) as (t & ps' & q' & Q1 & Q2 & Q3 & Q4 & _ & _ & _ & Q5).
  { unfold args. rewrite !map_length. reflexivity. }
  { exact SC. }
  { exact BA. }
  assert (ps' = ps) by congruence. subst ps'. assert (q' = q) by congruence. subst q'.
  assert (KO : assert_ (seteq_str (od_keys vals) (fd_keys f)) = Ok tt).
  { assert (seteq_str (od_keys vals) (fd_keys f) = true) as ->; [|reflexivity]. apply seteq_str_iff. rewrite Kf. split; intros k; apply IK. }
  assert (FA : forall s, (forall k, In k L -> s k < sz k) -> factors_at args (map scale_of vs) (map s L) = map (at_ s) vs).
  { intros s B. unfold factors_at, args. apply zip_same. intros v Iv. cbn [tmap shape get].
    destruct (VL v Iv) as (_ & _ & G). rewrite G by exact B. reflexivity. }
  assert (MULTI : exists t, (let! (p, _) := rv_prod1 vs vals (spec_of q) in Ok p) = Ok t /\ shape t = map sz L /\
    forall s, (forall k, In k L -> s k < sz k) ->
      (existsb iscomplex (map scale_of vs) = true -> forall v, In v vs -> log_kind (scale_of v) = false -> (npz <= at_ s v)%R) ->
      denote (spec_of q) (get t (map s L)) = Rprod (map (at_ s) vs)).
  { exists t. split; [|split; [exact Q3|]].
    - unfold rv_prod1. assert (PP : product_pscale (spec_of q) (map scale_of vs) = Ok ps).
      { rewrite P4. unfold product_pscale in Q1 |- *. destruct (truthy ps); [reflexivity|exact Q1]. }
      rewrite PP. cbn [bind]. rewrite MR. cbn [bind]. rewrite Q2. reflexivity.
    - intros s B FL. rewrite Q5; [rewrite FA by exact B; reflexivity| |].
      + unfold in_range. clear -B. induction L as [|k l IH]; constructor.
        * apply B. left. reflexivity.
        * apply IH. intros y Hy. apply B. right. exact Hy.
      + intros C. unfold args. assert (G : forall l, incl l vs -> Forall2 (fun a sc => log_kind sc = false -> (npz <= get a (bcast_idx (shape a) (map s L)))%R)
          (map (fun v => tmap (pfun v) (vl (rv_name v))) l) (map scale_of l)); [|apply G, incl_refl].
        induction l as [|v l IH]; intros I; [constructor|]. cbn [map]. constructor.
        * intros K. assert (Iv : In v vs) by (apply I; left; reflexivity). specialize (FL C v Iv K). unfold at_ in FL.
          cbn [tmap shape get]. destruct (VL v Iv) as (_ & _ & G). rewrite G by exact B. unfold denote in FL. rewrite K in FL.
          assert (F1 : factor (scale_of v) = 1%R).
          { destruct SC as [S0|[S0 _]].
            - exfalso. apply existsb_exists in C. destruct C as (sc & Isc & C). rewrite Forall_forall in S0. destruct (S0 sc Isc) as [_ Q]. destruct sc; discriminate.
            - rewrite Forall_forall in S0. apply plain_valid. apply S0. apply in_map. exact Iv. }
          rewrite F1, Rmult_1_l in FL. exact FL.
        * apply IH. intros w Iw. apply I. right. exact Iw. }
  unfold rf_eval_prob. cbn [rf_fld]. rewrite KO. cbn [bind]. unfold rf_rvs. cbn [rf_all rf_fld rf_pscale]. rewrite pick_all by exact Vf.
  assert (CASE : (exists v, vs = [v]) \/ exists v w l, vs = v :: w :: l).
  { clear -NE. destruct vs as [|v [|w l]]; [congruence|left; eauto|right; eauto]. }
  destruct CASE as [(v & EQ)|(v & w & l & EQ)].
  2:{ destruct MULTI as (t' & M1 & M2). exists t'. split; [|exact M2]. rewrite <- M1. clear -EQ. rewrite EQ. reflexivity. }
  assert (Iv : In v vs) by (rewrite EQ; left; reflexivity).
  match goal with |- exists t, ?X = _ /\ _ => assert (X1 : X = let! a := od_getR vals (rv_name v) in eval_prob v a) by (clear -EQ; rewrite EQ; reflexivity) end.
  rewrite X1.
  destruct (VL v Iv) as (-> & SV & G). cbn [bind]. rewrite EV by exact Iv. eexists. split; [reflexivity|]. cbn [tmap shape]. split.
  - unfold args in BA. rewrite EQ in BA at 1. cbn [map bcast_all tmap shape] in BA. congruence.
  - intros s B _. assert (D : forall y, denote (spec_of q) y = denote (scale_of v) y).
    { intros y. unfold denote. rewrite P5, P6, EQ. cbn [map existsb Rprod fold_right]. rewrite Rmult_1_r, orb_false_r. reflexivity. }
    rewrite D, EQ. cbn [map Rprod fold_right]. rewrite Rmult_1_r. unfold at_. cbn [tmap get]. f_equal. f_equal.
    rewrite <- G by exact B. f_equal. symmetry.
    assert (SE : shape (vl (rv_name v)) = map sz L).
    { unfold args in BA. rewrite EQ in BA at 1. cbn [map bcast_all tmap shape] in BA. congruence. }
    rewrite SE. apply bcast_idx_id. unfold in_range. clear -B. induction L as [|k l IH]; constructor.
    + apply B. left. reflexivity.
    + apply IH. intros y Hy. apply B. right. exact Hy.
Qed.
(** *** The variable's own distribution *)
Lemma same_name k y b : same_request y b -> vname k b = fname k y.
Proof. intros [|n|z|l]; cbn; try reflexivity. destruct l as [|? [|]]; reflexivity. Qed.

Lemma own_ok i v : nth_error vs i = Some v ->
  exists p, rv_call v (aa (rv_name v)) (r i) = Ok p /\ valid_pd p (cols (rv_name v)) /\
    variable p (rv_name v) = Some (var_of (to_value (A (rv_name v)))) /\ p_pscale p = rv_pscale v /\
    forall s, prob_at p (cols (rv_name v)) s = at_ s v.
Proof.
  intros Iv. pose proof (ix_name i v Iv) as I. pose proof (nth_error_In _ _ Iv) as IN. set (k := rv_name v) in *.
  destruct (HE i v Iv) as (_ & SR & EV & _). fold k in SR, EV.
  unfold rv_call. rewrite EV. cbn [bind]. rewrite eval_callable by (try apply CA; try eapply scales_p_ok; eauto). cbn [bind]. fold k.
  rewrite (same_name k _ _ SR). rewrite cols_in by exact I.
  pose proof NA as [_ N2]. destruct (N2 k I) as [SK RS].
  assert (EP : eval_pscale (spec_of (rv_pscale v)) = Ok (rv_pscale v)) by (apply eval_spec_of; eapply scales_p_ok; eauto).
  pose proof (fname_good k (x k) SK) as FG.
  destruct (make_pd_ok [(k, to_value (A k))] [(k, match shape (A k) with [] => None | _ => Some 0%Z end)]
    (if dimensionless (x k) then [] else [k]) [(k, fname k (x k))] [] (tmap (pfun v) (A k)) (spec_of (rv_pscale v)) (rv_pscale v))
    as (p & E & VP & _ & _ & _ & P4 & P5 & P6).
  - repeat constructor. intros [].
  - discriminate.
  - intros k' [<-|[]]. exact RS.
  - destruct (dimensionless (x k)); repeat constructor. intros [].
  - destruct (dimensionless (x k)); [intros ? []|apply incl_refl].
  - intros k' w G NI. cbn in G. destruct (String.eqb_spec k' k) as [->|]; [|discriminate]. injection G as <-.
    destruct (A_shape k I) as [[D S]|(D & _)]; rewrite D in NI; [|exfalso; apply NI; left; reflexivity].
    unfold to_value. rewrite S. split; [reflexivity|]. right. cbn. rewrite String.eqb_refl. reflexivity.
  - intros j k' J. destruct (A_shape k I) as [[D S]|(D & _ & S & PZ)]; rewrite D in J; [destruct j; discriminate|].
    destruct j as [|[|j]]; try discriminate. injection J as <-.
    exists (tmap (@as_num R RNum) (A k)). cbn [od_get]. rewrite String.eqb_refl. unfold to_value. rewrite S. cbn [tmap shape]. rewrite S.
    unfold tsize. cbn [shape tmap]. rewrite S. cbn. rewrite Nat.mul_1_r, Nat.max_0_r. repeat split; auto; discriminate.
  - apply incl_refl.
  - repeat constructor. intros [].
  - cbn [tmap shape]. destruct (A_shape k I) as [[D S]|(D & _ & S & _)]; rewrite D, S; reflexivity.
  - constructor; [exact FG|constructor].
  - cbn [app map]. constructor; [|constructor]. unfold render. cbn [fst snd].
    destruct (mem_str k _); [exact FG|]. cbn [od_get]. rewrite String.eqb_refl. apply good_join; [exact SK|].
    unfold to_value. destruct (shape (A k)); apply PR.
  - apply Permutation_refl.
  - exact EP.
  - exact EP.
  - exists p. split; [|split; [exact VP|split; [|split; [exact P5|]]]].
    + rewrite <- E. reflexivity.
    + rewrite P6. cbn [od_get]. rewrite String.eqb_refl. reflexivity.
    + intros s. unfold prob_at. rewrite P4, P5. unfold at_. cbn [tmap get]. fold k. fold (cols k). rewrite cols_in by exact I. reflexivity.
Qed.

(** *** The whole call *)
Definition gives_joint (g : string -> string) (q : pscale R) (p : pd R) : Prop :=
  valid_pd p (map g L) /\ Permutation (p_keylist p) (map g names) /\ od_keys (p_marg p) = map g names /\ p_cond p = [] /\
  p_pscale p = q /\
  (forall k, In k names -> variable p (g k) = Some (var_of (to_value (A k)))) /\
  (forall k, In k L -> od_get (p_marg p) (g k) = Some (fname (g k) (x k))) /\
  forall s, in_bounds p (map g L) s ->
    (existsb iscomplex (map scale_of vs) = true -> forall v, In v vs -> log_kind (scale_of v) = false -> (npz <= at_ (fun k => s (g k)) v)%R) ->
    prob_at p (map g L) s = Rprod (map (at_ (fun k => s (g k))) vs).

Lemma parts f q ps suf : fd_varlist f = nodes vs -> fd_keys f = names -> natural vs ps q ->
  named_apart (map (fun k => (k ++ suf)%string) names) ->
  exists vals dims t p, f_parse_args f values = Ok values /\
    f_evaluate_by (rf_ev vs r) f values 0 = Ok (vals, dims) /\ rf_eval_prob (mkRF vs f q) vals = Ok t /\
    make_pd (f_dist_name names values suf) (map (fun kv => ((fst kv ++ suf)%string, snd kv)) (out_vals vals))
      (Some (map (fun kv => ((fst kv ++ suf)%string, snd kv)) (out_dims dims))) (Some t) (spec_of q) = Ok p /\
    NoDup (od_keys vals) /\ (forall k, In k (od_keys vals) <-> In k names) /\ (dims = [] \/ od_keys dims = od_keys vals) /\
    gives_joint (fun k => (k ++ suf)%string) q p.
Proof.
  intros Vf Kf NT NS. destruct (evaluated f Kf Vf) as (vals & dims & E1 & NK & IK & DK & _ & HV).
  destruct (joint_prob f q ps vals Vf Kf NT NK IK) as (t & E2 & ST & PT).
  { intros k I. destruct (HV k I) as (a & Ga & TL & Q). exists a. tauto. }
  destruct (assembled names [] suf vals dims t q (eq_sym (app_nil_r _)) NS NK IK DK HV ST) as (p & E3 & VP & KP & MP & CP & PP & SP & VV & EN).
  { apply NT. }
  assert (CN : p_cond p = []) by (destruct (p_cond p); [reflexivity|discriminate]). rewrite CN, app_nil_r in EN.
  assert (NM : f_dist_name names values suf = margcond_str (map (fun k => fname (k ++ suf) (x k)) names) (map (fun k => fname (k ++ suf) (x k)) [])).
  { rewrite dist_name_is. reflexivity. }
  rewrite <- NM in E3.
  exists vals, dims, t, p. split; [apply parsed; exact Kf|]. split; [exact E1|]. split; [exact E2|]. split; [exact E3|].
  split; [exact NK|]. split; [exact IK|]. split; [exact DK|].
  split; [exact VP|]. split.
  { rewrite KP. apply Permutation_map. apply NoDup_Permutation; [exact NK|apply NA|exact IK]. }
  split; [exact MP|]. split; [exact CN|]. split; [exact SP|]. split; [exact VV|]. split; [exact EN|].
  intros s IB FL. unfold prob_at. rewrite PP, SP, map_map. apply PT; [|exact FL].
  intros k I. pose proof I as I'. apply L_in in I'. destruct I' as [I' D].
  assert (B : s (k ++ suf)%string < size_of p (k ++ suf)%string) by (apply IB; apply (in_map (fun k => (k ++ suf)%string)); exact I).
  unfold size_of in B. rewrite VV in B by exact I'.
  destruct (A_shape k I') as [[C _]|(_ & _ & SA & _)]; [congruence|].
  unfold to_value in B. rewrite SA in B. cbn [var_of tmap shape] in B. rewrite SA in B.
  change (mkT (shape (A k)) (fun i => as_num (get (A k) i))) with (tmap (@as_num R RNum) (A k)) in B.
  rewrite to_list_length in B. exact B.
Qed.
End Call.
