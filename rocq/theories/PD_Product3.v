(** The product of distributions over disjoint marginals: variables, names and
    conditions. *)
From Coq Require Import Ascii String ZArith Reals Lra Bool Arith Lia Permutation List.
From Verif Require Import Base Num Tensor TensorBcast OdLemmas TensorLemmas RNumLemmas PScales PScales_Spec
  PScales_Proofs PScales_Prod Names Names_Spec Names_Proofs Distr PDModel PDUtils PD_Spec PD_Make PD_Sums PD_Valid PD_Marg PD_Product_Spec
  PD_Align PD_Product1 PD_Product2.
Import ListNotations.
Local Open Scope list_scope.

Lemma var_raveled (v w : value R) : var_of v = var_of w -> raveled_value v = raveled_value w.
Proof.
  intros E.
  assert (X : forall v : value R, raveled_value v = match var_of v with Scal u => raveled_value u | Col l => l end).
  { intros [x|s|l|a|]; cbn; try reflexivity. destruct (shape a); reflexivity. }
  rewrite (X v), (X w), E. reflexivity.
Qed.

Lemma allclose_refl (l : list R) : allclose l l = Ok true.
Proof.
  unfold allclose. rewrite Nat.eqb_refl. f_equal. induction l as [|x l IH]; cbn; [reflexivity|].
  rewrite IH, andb_true_r. apply isclose_R. rewrite Rminus_diag_eq, Rabs_R0 by reflexivity. pose proof (Rabs_pos x). lra.
Qed.

Lemma concat_map_flat {A B} (f : A -> list B) l : concat (map f l) = flat_map f l.
Proof. symmetry. apply flat_map_concat_map. Qed.

Lemma flat_map_map_out {A B C} (g : B -> C) (f : A -> list B) l :
  flat_map (fun a => map g (f a)) l = map g (flat_map f l).
Proof. induction l as [|a l IH]; cbn; [reflexivity|]. rewrite map_app, IH. reflexivity. Qed.

Definition tens (p : pd R) : tensor R := match p_prob p with Some t => t | None => tscalar 0%R end.

Lemma Forall2_weaken {A B} (P Q : A -> B -> Prop) l m : (forall a b, P a b -> Q a b) -> Forall2 P l m -> Forall2 Q l m.
Proof. intros H FA. induction FA; constructor; auto. Qed.

Lemma factors_gen (I : list nat) (ax : pd R -> list nat) l ts :
  Forall2 (fun p t' => get t' (bcast_idx (shape t') I) = get (tens p) (ax p)) l ts ->
  factors_at ts (map (fun a => spec_of (p_pscale a)) l) I = map (fun p => denote (spec_of (p_pscale p)) (get (tens p) (ax p))) l.
Proof.
  intros FA. induction FA as [|p t' l ts G FA IH]; [reflexivity|].
  unfold factors_at in *. cbn [map zip_with]. rewrite IH, G. reflexivity.
Qed.

Lemma floor_gen (I : list nat) (ax : pd R -> list nat) l ts :
  Forall2 (fun p t' => get t' (bcast_idx (shape t') I) = get (tens p) (ax p)) l ts ->
  Forall plain_scale (map (fun a => spec_of (p_pscale a)) l) ->
  (forall p, In p l -> ~ log_scaled p -> (npz <= denote (spec_of (p_pscale p)) (get (tens p) (ax p)))%R) ->
  Forall2 (fun a sc => log_kind sc = false -> (npz <= get a (bcast_idx (shape a) I))%R) ts (map (fun a => spec_of (p_pscale a)) l).
Proof.
  intros FA. induction FA as [|p t' l ts G FA IH]; intros HP Hn; [constructor|].
  cbn [map] in *. inversion HP as [|? ? HP1 HP2]; subst.
  constructor; [|apply IH; auto; intros q Iq; apply Hn; right; exact Iq].
  intros LK. assert (NLg : ~ log_scaled p) by (unfold log_scaled; congruence).
  specialize (Hn p (or_introl eq_refl) NLg). rewrite G.
  destruct HP1 as [HP1|HP1]; rewrite HP1 in *; [|discriminate].
  unfold denote, factor, log_kind in Hn. destruct (Req_EM_T 1 0); [lra|]. lra.
Qed.

Lemma dedup_snoc (l : list string) k : dedup_str (l ++ [k]) = if mem_str k l then dedup_str l else dedup_str l ++ [k].
Proof.
  induction l as [|x l IH]; [reflexivity|]. cbn [app dedup_str]. rewrite IH.
  destruct (mem_str k (x :: l)) eqn:M.
  - destruct (mem_str k l) eqn:M'; [reflexivity|]. apply mem_str_iff in M. apply mem_str_false in M'.
    destruct M as [->|M]; [|contradiction]. rewrite filter_app. cbn. rewrite String.eqb_refl. cbn. rewrite app_nil_r. reflexivity.
  - apply mem_str_false in M. assert (M' : mem_str k l = false) by (apply mem_str_false; intros C; apply M; right; exact C).
    rewrite M', filter_app. cbn. destruct (String.eqb_spec x k) as [->|]; [exfalso; apply M; left; reflexivity|]. reflexivity.
Qed.

Lemma dedup_filter (f : string -> bool) (l : list string) : dedup_str (filter f l) = filter f (dedup_str l).
Proof.
  induction l as [|x l IH]; [reflexivity|]. cbn [filter dedup_str]. destruct (f x) eqn:E; cbn [dedup_str].
  - rewrite IH. f_equal. clear. induction (dedup_str l) as [|y m IH]; [reflexivity|]. cbn [filter].
    destruct (negb (x =? y)%string) eqn:E1, (f y) eqn:E2; cbn [filter]; rewrite ?E1, ?E2, IH; reflexivity.
  - rewrite IH. clear -E. induction (dedup_str l) as [|y m IH]; [reflexivity|]. cbn [filter].
    destruct (String.eqb_spec x y) as [<-|]; cbn [negb]; [rewrite E; exact IH|]. cbn [filter]. rewrite IH. reflexivity.
Qed.

Lemma dedup_disjoint (l m : list string) : NoDup l -> (forall k, In k l -> ~ In k m) -> dedup_str (l ++ m) = l ++ dedup_str m.
Proof.
  induction 1 as [|x l Hx N IH]; intros D; [reflexivity|]. cbn [app dedup_str]. rewrite IH by (intros k K; apply D; right; exact K).
  f_equal. rewrite filter_app.
  assert (Q : forall z, ~ In x z -> filter (fun y => negb (String.eqb x y)) z = z).
  { clear. induction z as [|y z IH]; intros H; [reflexivity|]. cbn [filter].
    destruct (String.eqb_spec x y) as [->|]; [exfalso; apply H; left; reflexivity|]. cbn. f_equal. apply IH. intros C. apply H. right. exact C. }
  rewrite !Q; auto. rewrite dedup_in. apply D. left. reflexivity.
Qed.

(** Values all of scalars are described alike with no axes given and with an empty description of axes. *)
Lemma dims_single (l : odict (value R)) st : Forall (fun kv => issingleton (snd kv) = true) l -> NoDup (od_keys l) ->
  (forall k, In k (od_keys l) -> ~ In k (od_keys (s_dims st))) ->
  fold_res (dims_step true) l st = fold_res (dims_step false) l st.
Proof.
  intros H. revert st. induction H as [|[k v] l Hv H IH]; intros st ND D; [reflexivity|]. cbn in ND. apply NoDup_cons_iff in ND. destruct ND as [NK ND].
  cbn in Hv. cbn [fold_res]. unfold dims_step at 1 3. cbn [fst snd]. rewrite Hv.
  assert (od_get (s_dims st) k = None) as -> by (apply od_get_none, D; left; reflexivity). cbn [bind].
  apply IH; [exact ND|]. intros k' K'. cbn [s_dims]. rewrite od_keys_set_new by (apply D; left; reflexivity).
  rewrite in_app_iff. intros [C|[C|[]]]; [exact (D k' (or_intror K') C)|]. subst k'. contradiction.
Qed.

Lemma make_pd_single `{F : Fmt R} name (vals : odict (value R)) t ps : Forall (fun kv => issingleton (snd kv) = true) vals -> NoDup (od_keys vals) ->
  make_pd name vals None t ps = make_pd name vals (Some []) t ps.
Proof.
  intros H ND. unfold make_pd. destruct (str_margcond name) as [[m c]|]; [|reflexivity]. cbn [bind].
  assert (make_dist name vals None = make_dist name vals (Some [])) as ->; [|reflexivity].
  unfold make_dist. destruct vals as [|kv vals']; [reflexivity|]. destruct (clean_vals (kv :: vals')) as [l|] eqn:E; [|reflexivity]. cbn [bind].
  rewrite dims_single; [reflexivity| | |intros k _ []].
  - clear ND. revert l E H. generalize (kv :: vals'). clear. intros v l E H. revert l E. induction H as [|[k v'] v Hv H IH]; intros l E.
    + injection E as <-. constructor.
    + unfold clean_vals in *. cbn [map_res fst snd] in E. destruct (mem_str k disallowed); [discriminate|].
      destruct v' as [x|s|m|a|]; cbn [bind] in E;
      (destruct (map_res _ v) as [l'|] eqn:E'; [|try destruct m as [|[] [|]]; discriminate]); specialize (IH l' eq_refl);
      try (injection E as <-; constructor; assumption).
      destruct m as [|[] [|]]; cbn [bind] in E; injection E as <-; constructor; auto.
  - assert (od_keys l = od_keys (kv :: vals')) as ->; [|exact ND]. revert l E. generalize (kv :: vals'). clear. intros v. induction v as [|[k v'] v IH]; intros l E.
    + injection E as <-. reflexivity.
    + unfold clean_vals in *. cbn [map_res fst snd] in E. destruct (mem_str k disallowed); [discriminate|].
      destruct v' as [x|s|m|a|]; cbn [bind] in E;
      (destruct (map_res _ v) as [l'|] eqn:E'; [|try destruct m as [|[] [|]]; discriminate]); specialize (IH l' eq_refl);
      try (injection E as <-; cbn; f_equal; assumption).
      destruct m as [|[] [|]]; cbn [bind] in E; injection E as <-; cbn; f_equal; assumption.
Qed.

Section Product.
Context {F : Fmt R}.
Variable args : list (pd R).
Variable axes : pd R -> list string.
Variable X : string -> var.
Variable sp : string -> string.

Definition col (k : string) : bool := match X k with Col _ => true | Scal _ => false end.
Definition csz (k : string) : nat := match X k with Col l => length l | Scal _ => 0 end.
Definition uns (k : string) : bool := match X k with Scal v => isunitsetint v | Col _ => false end.
Definition X0 (k : string) : var := if uns k then Scal (VSet [SEint 0]) else X k.
Definition ent (k : string) : string :=
  match X k with Col _ => sp k | Scal v => (k ++ "=" ++ fmt_value v)%string end.

Definition allM := flat_map (fun p => od_keys (p_marg p)) args.
Definition allC := flat_map (fun p => od_keys (p_cond p)) args.
Definition free (l : list string) := filter (fun k => negb (mem_str k allM)) l.
Definition Fr := free allC.
Definition ks := allM ++ Fr.
Definition Ls := filter col ks.

Hypothesis V : forall p, In p args -> valid_pd p (axes p).
Hypothesis Hv : forall p k, In p args -> In k (p_keylist p) -> variable p k = Some (X k).
Hypothesis Hp : forall p k, In p args -> In k (axes p) -> od_get (p_marg p ++ p_cond p) k = Some (sp k).
Hypothesis Hm : NoDup allM.
Hypothesis Hu : forall l1 p l2 q l3 k, args = l1 ++ p :: l2 ++ q :: l3 -> uns k = true ->
  In k (p_keylist p) -> ~ In k (p_keylist q).
Hypothesis Hf : forall p, In p args -> free (od_keys (p_cond p)) = [] \/ incl Fr (od_keys (p_cond p)).
Hypothesis Hcol : NoDup (filter col Fr).

Lemma held_value p k : In p args -> In k (p_keylist p) -> exists v, od_get (p_vals p) k = Some v /\ var_of v = X k.
Proof.
  intros I K. specialize (Hv p k I K). unfold variable in Hv. destruct (od_get (p_vals p) k) as [v|]; [|discriminate].
  exists v. split; [reflexivity|congruence].
Qed.

Lemma var_sing (v : value R) : issingleton v = match var_of v with Col _ => false | Scal _ => issingleton v end.
Proof. destruct v as [x|s|l|a|]; cbn; try reflexivity. unfold issingleton. cbn. destruct (shape a); reflexivity. Qed.

Lemma held_axis p k : In p args -> In k (p_keylist p) -> (In k (axes p) <-> col k = true).
Proof.
  intros I K. destruct (held_value p k I K) as (v & G & E). unfold col.
  pose proof (vp_sing_false p (axes p) (V p I) k v G) as S. rewrite <- S.
  destruct (X k) as [u|l] eqn:EX.
  - split; [|discriminate]. intros Q. exfalso. apply S in Q.
    destruct (vp_axis p (axes p) (V p I) k Q) as (a & G' & _). assert (v = VArr a) by congruence. subst v.
    destruct (vp_tsize p (axes p) (V p I) k a Q G') as (_ & Sh & _). cbn in E. destruct (shape a); [contradiction|discriminate].
  - split; [reflexivity|]. intros _. rewrite var_sing, E. reflexivity.
Qed.

Lemma axes_key p k : In p args -> In k (axes p) -> In k (p_keylist p).
Proof. intros I K. apply (vp_incl _ _ (V p I)). exact K. Qed.

Lemma held_entry p k : In p args -> In k (p_keylist p) -> od_get (p_marg p ++ p_cond p) k = Some (ent k).
Proof.
  intros I K. destruct (col k) eqn:C.
  - assert (A : In k (axes p)) by (apply held_axis; auto). rewrite (Hp p k I A). f_equal. unfold ent. unfold col in C.
    destruct (X k); [discriminate|reflexivity].
  - assert (A : ~ In k (axes p)) by (intros A; apply held_axis in A; auto; congruence).
    destruct (held_value p k I K) as (v & G & E).
    destruct (od_get (p_marg p ++ p_cond p) k) as [e|] eqn:Ge.
    + rewrite (vp_rendered _ _ (V p I) k v e G A Ge). unfold ent. unfold col in C. rewrite <- E in *.
      destruct v as [x|s|l|a|]; try reflexivity. cbn in *. destruct (shape a); [reflexivity|discriminate].
    + exfalso. apply od_get_none in Ge. apply Ge. unfold od_keys. rewrite map_app. apply in_or_app.
      apply (vp_key_iff p (axes p) (V p I) k) in K. exact K.
Qed.

Lemma held_good p k : In p args -> In k (p_keylist p) -> good_entry (ent k) /\ key_of (ent k) k.
Proof.
  intros I K. pose proof (held_entry p k I K) as G. apply od_get_in in G.
  pose proof (vp_entries _ _ (V p I)) as E. rewrite Forall_forall in E. apply E in G. exact G.
Qed.

Lemma held_str2key p k : In p args -> In k (p_keylist p) -> str2key (ent k) = k.
Proof.
  intros I K. destruct (held_good p k I K) as [_ G]. eapply key_of_fun; [apply str2key_key_of|exact G].
Qed.

Lemma nodup_entries (d : odict string) : NoDup (od_keys d) -> (forall k, In k (od_keys d) -> od_get d k = Some (ent k)) ->
  od_vals d = map ent (od_keys d).
Proof.
  intros N H. unfold od_vals, od_keys. rewrite map_map. apply map_ext_in. intros [k e] I. cbn [fst snd].
  assert (G : od_get d k = Some e) by (apply od_in_get; auto).
  assert (Kd : In k (od_keys d)) by (eapply od_get_some_key; eauto). rewrite (H k Kd) in G. congruence.
Qed.

Lemma marg_vals p : In p args -> od_vals (p_marg p) = map ent (od_keys (p_marg p)).
Proof.
  intros I. destruct (vp_marg_cond p (axes p) (V p I)) as (N1 & N2 & DJ). apply nodup_entries; [exact N1|].
  intros k K. assert (KL : In k (p_keylist p)) by (apply (vp_key_iff p (axes p) (V p I)); auto).
  pose proof (held_entry p k I KL) as G. rewrite od_get_app in G. apply od_key_get in K. destruct K as (e & E).
  rewrite E in *. congruence.
Qed.

Lemma cond_vals p : In p args -> od_vals (p_cond p) = map ent (od_keys (p_cond p)).
Proof.
  intros I. destruct (vp_marg_cond p (axes p) (V p I)) as (N1 & N2 & DJ). apply nodup_entries; [exact N2|].
  intros k K. assert (KL : In k (p_keylist p)) by (apply (vp_key_iff p (axes p) (V p I)); auto).
  pose proof (held_entry p k I KL) as G. rewrite od_get_app in G.
  destruct (od_get (p_marg p) k) eqn:E; [|exact G]. apply od_get_some_key in E. destruct (DJ k E K).
Qed.

Lemma in_allM k : In k allM <-> exists p, In p args /\ In k (od_keys (p_marg p)).
Proof. apply in_flat_map. Qed.
Lemma in_allC k : In k allC <-> exists p, In p args /\ In k (od_keys (p_cond p)).
Proof. apply in_flat_map. Qed.
Lemma in_free l k : In k (free l) <-> In k l /\ ~ In k allM.
Proof. unfold free. rewrite filter_In, negb_true_iff, mem_str_false. reflexivity. Qed.

Lemma held_M k : In k allM -> exists p, In p args /\ In k (p_keylist p).
Proof. intros H. apply in_allM in H. destruct H as (p & I & K). exists p. split; [exact I|]. apply (vp_key_iff p (axes p) (V p I)); auto. Qed.
Lemma held_C k : In k allC -> exists p, In p args /\ In k (p_keylist p).
Proof. intros H. apply in_allC in H. destruct H as (p & I & K). exists p. split; [exact I|]. apply (vp_key_iff p (axes p) (V p I)); auto. Qed.
Lemma held_ks k : In k ks <-> exists p, In p args /\ In k (p_keylist p).
Proof.
  unfold ks. rewrite in_app_iff. unfold Fr. rewrite in_free. split.
  - intros [H|[H _]]; [apply held_M, H|apply held_C, H].
  - intros (p & I & K). destruct (in_dec string_dec k allM) as [|N]; [auto|]. right. split; [|exact N].
    apply (vp_key_iff p (axes p) (V p I)) in K. destruct K as [K|K]; [destruct N; apply in_allM|apply in_allC]; exists p; auto.
Qed.

Lemma ks_ent k : In k ks -> str2key (ent k) = k /\ good_entry (ent k) /\ key_of (ent k) k.
Proof.
  intros H. apply held_ks in H. destruct H as (p & I & K). split; [eapply held_str2key|eapply held_good]; eauto.
Qed.

Lemma M_ks k : In k allM -> In k ks. Proof. intros H. apply in_or_app. auto. Qed.
Lemma C_ks k : In k allC -> In k ks. Proof. intros H. apply held_ks, held_C, H. Qed.
Lemma Fr_ks k : In k Fr -> In k ks. Proof. intros H. apply in_or_app. auto. Qed.

Lemma ent_inj k k' : In k ks -> In k' ks -> ent k = ent k' -> k = k'.
Proof. intros K K' E. apply ks_ent in K. apply ks_ent in K'. destruct K as [<- _], K' as [<- _]. congruence. Qed.

Lemma mem_ent k l : In k ks -> incl l ks -> mem_str (ent k) (map ent l) = mem_str k l.
Proof.
  intros K I. destruct (mem_str k l) eqn:E.
  - apply mem_str_iff in E. apply mem_str_iff. apply in_map. exact E.
  - apply mem_str_false in E. apply mem_str_false. intros C. apply in_map_iff in C. destruct C as (k' & C1 & C2).
    apply E. rewrite (ent_inj k k'); auto.
Qed.

Lemma filter_map_ent (f g : string -> bool) l : (forall k, In k l -> f (ent k) = g k) -> filter f (map ent l) = map ent (filter g l).
Proof.
  induction l as [|k l IH]; intros H; cbn; [reflexivity|]. rewrite (H k (or_introl eq_refl)).
  rewrite IH by (intros k' K'; apply H; right; exact K'). destruct (g k); reflexivity.
Qed.

(** The names of the product. *)
Lemma prod_marg_eq : concat (map (fun a => od_vals (p_marg a)) args) = map ent allM.
Proof.
  rewrite (map_ext_in _ (fun a => map ent (od_keys (p_marg a)))) by (intros p I; apply marg_vals, I).
  rewrite concat_map_flat. apply flat_map_map_out.
Qed.
Lemma flat_cond_eq : concat (map (fun a => od_vals (p_cond a)) args) = map ent allC.
Proof.
  rewrite (map_ext_in _ (fun a => map ent (od_keys (p_cond a)))) by (intros p I; apply cond_vals, I).
  rewrite concat_map_flat. apply flat_map_map_out.
Qed.

Definition bound := filter (fun k => mem_str k allM) allC.

Lemma cond2marg_eq : filter (fun c => mem_str c (map ent allM)) (map ent allC) = map ent bound.
Proof.
  apply filter_map_ent. intros k K. apply mem_ent; [apply C_ks, K|]. intros k' K'. apply M_ks, K'.
Qed.

Lemma free_eq l : incl l allC -> filter (fun c => negb (mem_str c (map ent bound))) (map ent l) = map ent (free l).
Proof.
  intros I. apply filter_map_ent. intros k K. f_equal. rewrite mem_ent.
  - destruct (mem_str k allM) eqn:E.
    + apply mem_str_iff. apply filter_In. split; [apply I, K|exact E].
    + apply mem_str_false. unfold bound. rewrite filter_In. intros [_ C]. congruence.
  - apply C_ks, I, K.
  - intros k' K'. apply filter_In in K'. apply C_ks. tauto.
Qed.


(** *** The conditions agree *)
Lemma check_conds_succeeds : exists seen,
  check_conds (map (fun a => od_vals (p_cond a)) args) (map ent bound) (map ent Fr) args = Ok seen.
Proof.
  unfold check_conds. set (c2m := map ent bound). set (pc := map ent Fr).
  assert (M : combine args (map (fun a => od_vals (p_cond a)) args) = map (fun p => (p, od_vals (p_cond p))) args).
  { generalize args. intros l. induction l as [|a l IH]; cbn; [reflexivity|]. f_equal. exact IH. }
  rewrite M. set (lst := map (fun p => (p, od_vals (p_cond p))) args).
  set (inv := fun seen : odict (list R) => forall k l, od_get seen k = Some l -> exists v, var_of v = X k /\ l = raveled_value v).
  match goal with |- context [fold_res ?f lst []] =>
    destruct (@fold_res_ok (pd R * list string) (odict (list R)) f (fun _ s => inv s) lst []) as (s & E & _) end.
  - intros k l C. discriminate.
  - intros pre [p cn] post s1 Ep I1.
    assert (Ip : In p args /\ cn = od_vals (p_cond p)).
    { assert (Q : In (p, cn) lst) by (rewrite Ep; apply in_elt). apply in_map_iff in Q. destruct Q as (p' & E & Q).
      injection E as -> <-. auto. }
    destruct Ip as [Ip ->].
    assert (I : incl (od_keys (p_cond p)) allC) by (intros k K; apply in_allC; eauto).
    rewrite (cond_vals p Ip). unfold c2m at 1 2. rewrite (free_eq _ I).
    assert (A : (match map ent (free (od_keys (p_cond p))) with [] => true | _ => seteq_str pc (map ent (free (od_keys (p_cond p)))) end) = true).
    { destruct (Hf p Ip) as [E|E].
      - rewrite E. reflexivity.
      - assert (Q : seteq_str pc (map ent (free (od_keys (p_cond p)))) = true).
        { apply seteq_str_iff. split; apply incl_map; intros k K.
          - apply in_free. split; [apply E, K|]. apply in_free in K. tauto.
          - apply in_free in K. apply in_free. split; [apply I|]; tauto. }
        rewrite Q. destruct (map ent (free (od_keys (p_cond p)))); reflexivity. }
    rewrite A. cbn [assert_ bind].
    match goal with |- context [fold_res ?g c2m s1] =>
      destruct (@fold_res_ok string (odict (list R)) g (fun _ s => inv s) c2m s1 I1) as (s & E & Is) end; [|eauto].
    intros pre' n post' s2 _ I2. destruct (od_get (p_vals p) n) as [v|] eqn:G; [|eauto].
    assert (Kn : In n (p_keylist p)) by (eapply od_get_some_key; eauto).
    destruct (held_value p n Ip Kn) as (v' & G' & EX). assert (v' = v) by congruence. subst v'.
    destruct (od_get s2 n) as [w|] eqn:Gs.
    + destruct (I2 n w Gs) as (u & Eu & ->). rewrite (var_raveled u v) by congruence. rewrite allclose_refl. cbn [bind]. eauto.
    + eexists. split; [reflexivity|]. intros k l Q. rewrite od_get_set in Q. destruct (String.eqb_spec k n) as [->|].
      * injection Q as <-. eauto.
      * eauto.
  - eauto.
Qed.

Lemma prod_keys_eq : map str2key (map ent allM ++ map ent Fr) = ks.
Proof.
  rewrite <- map_app. fold ks. rewrite map_map. rewrite (map_ext_in _ (fun k => k)); [apply map_id|].
  intros k K. apply ks_ent, K.
Qed.

(** *** Values *)
Lemma var_uns (v : value R) k : var_of v = X k -> isunitsetint v = uns k.
Proof. intros E. unfold uns. rewrite <- E. destruct v as [x|s|l|a|]; try reflexivity. cbn. destruct (shape a); reflexivity. Qed.

Lemma uns_col k : uns k = true -> col k = false.
Proof. unfold uns, col. destruct (X k); [reflexivity|discriminate]. Qed.

Lemma find_first k : In k ks -> exists v, find_values (map (fun a => p_vals a) args) k = Some v /\ var_of v = X k /\
  isunitsetint v = uns k /\ (col k = false -> issingleton v = true).
Proof.
  intros K. assert (Kh := K). apply held_ks in Kh. destruct Kh as (p & I & Kp).
  assert (Q : forall l, incl l args -> In p l -> exists q v, In q args /\ od_get (p_vals q) k = Some v /\ find_values (map (fun a => p_vals a) l) k = Some v).
  { induction l as [|q l IH]; intros Il Ip; [destruct Ip|]. cbn [map find_values].
    destruct (od_get (p_vals q) k) as [v|] eqn:G.
    - exists q, v. split; [apply Il; left; reflexivity|]. auto.
    - destruct Ip as [->|Ip].
      + destruct (held_value p k I Kp) as (v & G' & _). congruence.
      + apply IH; auto. intros x Hx. apply Il. right. exact Hx. }
  destruct (Q args (incl_refl _) I) as (q & v & Iq & G & E). exists v. split; [exact E|].
  assert (Kq : In k (p_keylist q)) by (eapply od_get_some_key; eauto).
  destruct (held_value q k Iq Kq) as (v' & G' & EX). assert (v' = v) by congruence. subst v'.
  split; [exact EX|]. split; [apply var_uns, EX|].
  intros C. apply (proj2 (vp_sing q (axes q) (V q Iq) k v G)). intros A. apply held_axis in A; auto. congruence.
Qed.

(** Values held under the keys of ks, those of columns being arrays. *)
Definition holds_as (Y : string -> var) (l : list string) (d : odict (value R)) : Prop :=
  od_keys d = dedup_str l /\ NoDup (od_keys d) /\ (forall k, In k (od_keys d) <-> In k l) /\
  forall k v, od_get d k = Some v -> var_of v = Y k /\ (col k = false -> issingleton v = true).
Definition hold := holds_as X.

Lemma collect_ok : exists pv, collect_vals (map (fun a => p_vals a) args) ks = Ok (pv, map (fun k => (negb (col k), uns k)) ks) /\
  holds_as X0 ks pv.
Proof.
  unfold collect_vals.
  destruct (@fold_res_ok string (odict (value R) * list (bool * bool))
    (fun acc key => match find_values (map (fun a => p_vals a) args) key with
              | None => Err AssertionError
              | Some v => let us := isunitsetint v in let v' := if us then VSet [SEint 0] else v in
                  Ok (od_set (fst acc) key v', snd acc ++ [(issingleton v', us)]) end)
    (fun pre s => holds_as X0 pre (fst s) /\ snd s = map (fun k => (negb (col k), uns k)) pre) ks ([], [])) as ([pv fl] & E & H1 & H2).
  - split; [|reflexivity]. split; [reflexivity|]. split; [constructor|]. split; [tauto|]. intros k v C. discriminate.
  - intros pre k post [d fl] Ep [(H0 & H1 & H2 & H3) H4]. cbn [fst snd] in *.
    assert (K : In k ks) by (rewrite Ep; apply in_elt).
    destruct (find_first k K) as (v & -> & EX & U & S). cbv zeta. rewrite U. eexists. split; [reflexivity|]. cbn [fst snd]. split.
    + split.
      { rewrite dedup_snoc, <- H0. destruct (mem_str k pre) eqn:M.
        - apply od_keys_set_old. apply H2, mem_str_iff, M.
        - apply od_keys_set_new. rewrite H2. apply mem_str_false, M. }
      split; [apply od_keys_set_nodup, H1|]. split.
      * intros k'. rewrite od_keys_set_in, H2, in_app_iff. cbn. intuition congruence.
      * intros k' v' G. rewrite od_get_set in G. destruct (String.eqb_spec k' k) as [->|]; [|eauto].
        injection G as <-. unfold X0. destruct (uns k); auto.
    + rewrite map_app, <- H4. cbn. do 3 f_equal. destruct (uns k) eqn:Uk.
      * rewrite (uns_col k Uk). reflexivity.
      * unfold col in *. destruct (X k) eqn:EK; [apply S; reflexivity|]. rewrite var_sing, EX. reflexivity.
  - cbn [fst snd] in *. exists pv. rewrite E, <- H2. auto.
Qed.

(** A count is held by one factor. *)
Lemma counted_once k : uns k = true -> In k ks -> exists l1 p l2 z, args = l1 ++ p :: l2 /\
  od_get (p_vals p) k = Some (VSet [SEint z]) /\ X k = Scal (VSet [SEint z]) /\
  forall q, In q (l1 ++ l2) -> od_get (p_vals q) k = None.
Proof.
  intros U K. apply held_ks in K. destruct K as (p & I & K). destruct (held_value p k I K) as (v & G & E).
  assert (Uv := var_uns v k E). rewrite U in Uv. destruct v as [x|s|l|a|]; try discriminate. destruct l as [|[z| | | |] [|? ?]]; try discriminate.
  apply in_split in I. destruct I as (l1 & l2 & Ea). exists l1, p, l2, z. split; [exact Ea|]. split; [exact G|].
  split; [symmetry; exact E|]. intros q Iq. destruct (od_get (p_vals q) k) as [w|] eqn:Gq; [|reflexivity]. exfalso.
  apply od_get_some_key in Gq. apply in_app_iff in Iq. destruct Iq as [Iq|Iq]; apply in_split in Iq; destruct Iq as (m1 & m2 & El); subst.
  - eapply (Hu m1 q m2 p l2 k); eauto. rewrite Ea, <- app_assoc. reflexivity.
  - eapply (Hu l1 p m1 q m2 k); eauto.
Qed.

Lemma occurs_once k l m : uns k = true -> ks = l ++ k :: m -> ~ In k l.
Proof.
  intros U E Kl. assert (K : In k ks) by (rewrite E; apply in_elt).
  destruct (counted_once k U K) as (l1 & p & l2 & z & Ea & G & _ & O).
  assert (Ip : In p args) by (rewrite Ea; apply in_elt).
  assert (OM : forall f : pd R -> list string, (forall q, In q args -> incl (f q) (p_keylist q)) -> forall q, In q (l1 ++ l2) -> ~ In k (f q)).
  { intros f If q Iq C. assert (Ia : In q args) by (rewrite Ea; apply in_app_iff in Iq; apply in_app_iff; cbn; tauto).
    apply (If q Ia) in C. apply od_key_get in C. destruct C as (w & C). specialize (O q Iq). unfold p_vals in O. congruence. }
  assert (IM : forall q, In q args -> incl (od_keys (p_marg q)) (p_keylist q)) by (intros q Iq k' K'; apply (vp_key_iff q (axes q) (V q Iq)); auto).
  assert (IC : forall q, In q args -> incl (od_keys (p_cond q)) (p_keylist q)) by (intros q Iq k' K'; apply (vp_key_iff q (axes q) (V q Iq)); auto).
  assert (CN : forall f : pd R -> list string, (forall q, In q (l1 ++ l2) -> ~ In k (f q)) ->
    count_occ string_dec (flat_map f args) k = count_occ string_dec (f p) k).
  { intros f Hf'. rewrite Ea, flat_map_app. cbn [flat_map]. rewrite !count_occ_app.
    assert (Z : forall l, incl l (l1 ++ l2) -> count_occ string_dec (flat_map f l) k = 0).
    { intros l0 I0. apply count_occ_not_In. rewrite in_flat_map. intros (q & Iq & Kq). apply (Hf' q); auto. }
    rewrite (Z l1), (Z l2) by (intros q Iq; apply in_app_iff; auto). lia. }
  assert (C1 : count_occ string_dec ks k <= 1).
  { unfold ks, Fr, free. rewrite count_occ_app.
    assert (LF : count_occ string_dec (filter (fun k => negb (mem_str k allM)) allC) k <= count_occ string_dec allC k).
    { generalize allC. intros c. induction c as [|x c IH]; [cbn; lia|]. cbn. destruct (negb (mem_str x allM)); cbn; destruct (string_dec x k); lia. }
    unfold allC in LF at 2. unfold allM at 1. rewrite (CN (fun q => od_keys (p_cond q)) (OM _ IC)) in LF.
    rewrite (CN (fun q => od_keys (p_marg q)) (OM _ IM)).
    destruct (vp_marg_cond p (axes p) (V p Ip)) as (N1 & N2 & D).
    assert (B1 := proj1 (NoDup_count_occ string_dec _) N1 k). assert (B2 := proj1 (NoDup_count_occ string_dec _) N2 k).
    destruct (in_dec string_dec k (od_keys (p_marg p))) as [I|I].
    - assert (Q : ~ In k (od_keys (p_cond p))) by (intros C; exact (D k I C)).
      apply (proj1 (count_occ_not_In string_dec _ _)) in Q. lia.
    - apply (proj1 (count_occ_not_In string_dec _ _)) in I. lia. }
  rewrite E, count_occ_app in C1. cbn in C1. destruct (string_dec k k); [|congruence].
  apply (proj1 (count_occ_In string_dec _ _)) in Kl. lia.
Qed.

Lemma od_set_get {A} (d : odict A) k v : NoDup (od_keys d) -> od_get d k = Some v -> od_set d k v = d.
Proof. intros _ G. induction d as [|[k0 v0] d IH]; [discriminate|]. cbn in *. destruct (String.eqb k k0); [injection G as ->; reflexivity|]. rewrite IH; auto. Qed.

Lemma sum_counts pv0 : holds_as X0 ks pv0 -> exists pv,
  sum_unitsets (map (fun a => p_vals a) args) ks (map (fun k => (negb (col k), uns k)) ks) pv0 = Ok pv /\ hold ks pv.
Proof.
  intros (H0 & H1 & H2 & H3). unfold sum_unitsets.
  assert (CB : combine ks (map (fun k => (negb (col k), uns k)) ks) = map (fun k => (k, (negb (col k), uns k))) ks).
  { generalize ks. intros l. induction l as [|k l IH]; [reflexivity|]. cbn. f_equal. exact IH. }
  rewrite CB.
  set (inv := fun pre (d : odict (value R)) => od_keys d = od_keys pv0 /\
    forall k v, od_get d k = Some v -> var_of v = (if mem_str k pre then X k else X0 k) /\ (col k = false -> issingleton v = true)).
  assert (G : forall post pre d, ks = pre ++ post -> inv pre d -> exists pv,
    fold_res (fun (acc : odict (value R)) (kf : string * (bool * bool)) =>
              if snd (snd kf) then
                fold_res (fun acc (val : odict (value R)) =>
                            match od_get val (fst kf) with
                            | None => Ok acc
                            | Some v =>
                                let! _ := assert_ (isunitsetint v) in
                                let! a := od_getR acc (fst kf) in
                                let! za := set_int a in
                                let! zv := set_int v in
                                Ok (od_set acc (fst kf) (VSet [SEint (za + zv)]))
                            end) (map (fun a => p_vals a) args) acc
              else Ok acc) (map (fun k => (k, (negb (col k), uns k))) post) d = Ok pv /\ inv ks pv).
  { induction post as [|k post IH]; intros pre d Ep [I1 I2].
    - rewrite app_nil_r in Ep. subst pre. exists d. split; [reflexivity|]. split; assumption.
    - cbn [map fold_res fst snd]. assert (K : In k ks) by (rewrite Ep; apply in_elt).
      assert (Ep' : ks = (pre ++ [k]) ++ post) by (rewrite Ep, <- app_assoc; reflexivity).
      assert (MS : forall k', mem_str k' (pre ++ [k]) = mem_str k' pre || String.eqb k' k).
      { intros k'. unfold mem_str. rewrite existsb_app. cbn. rewrite orb_false_r. reflexivity. }
      destruct (uns k) eqn:U.
      + destruct (counted_once k U K) as (l1 & p & l2 & z & Ea & Gp & EX & O).
        assert (NP : ~ In k pre) by (eapply occurs_once; eauto).
        assert (Kd : In k (od_keys d)) by (rewrite I1; apply H2; exact K).
        apply od_key_get in Kd. destruct Kd as (w & Gw). destruct (I2 k w Gw) as [Ew _].
        apply mem_str_false in NP. rewrite NP in Ew. unfold X0 in Ew. rewrite U in Ew.
        assert (w = VSet [SEint 0]). { destruct w as [x|s|l|a|]; cbn in Ew; try congruence. destruct (shape a); congruence. } subst w.
        assert (SK : forall (l : list (pd R)) (d' : odict (value R)), (forall q, In q l -> od_get (p_vals q) k = None) ->
          fold_res (fun (acc : odict (value R)) (val : odict (value R)) =>
                            match od_get val k with
                            | None => Ok acc
                            | Some v =>
                                let! _ := assert_ (isunitsetint v) in
                                let! a := od_getR acc k in
                                let! za := set_int a in
                                let! zv := set_int v in
                                Ok (od_set acc k (VSet [SEint (za + zv)]))
                            end) (map (fun a => p_vals a) l) d' = Ok d').
        { induction l as [|q l IHl]; intros d' Hl; [reflexivity|]. cbn [map fold_res].
          rewrite (Hl q) by (left; reflexivity). cbn [bind]. apply IHl. intros q' Iq. apply Hl. right. exact Iq. }
        match goal with |- context [fold_res ?g (map (fun a => p_vals a) args) d] =>
          assert (FI : fold_res g (map (fun a => p_vals a) args) d = Ok (od_set d k (VSet [SEint (0 + z)]))) end.
        { rewrite Ea, map_app. cbn [map].
          rewrite fold_res_app, (SK l1) by (intros q Iq; apply O, in_app_iff; auto). cbn [bind fold_res].
          rewrite Gp. cbn [isunitsetint assert_ bind].
          assert (od_getR d k = Ok (VSet [SEint 0])) as -> by (apply od_getR_ok; exact Gw).
          cbn [set_int bind]. rewrite (SK l2) by (intros q Iq; apply O, in_app_iff; auto). reflexivity. }
        rewrite FI. cbn [bind].
        apply (IH (pre ++ [k]) _ Ep'). split.
        * rewrite od_keys_set_old by (eapply od_get_some_key; eauto). exact I1.
        * intros k' v' G'. rewrite MS. rewrite od_get_set in G'. destruct (String.eqb_spec k' k) as [->|Nk].
          -- injection G' as <-. rewrite orb_true_r. rewrite EX. cbn. auto.
          -- rewrite orb_false_r. apply I2, G'.
      + cbn [bind]. apply (IH (pre ++ [k]) d Ep'). split; [exact I1|]. intros k' v' G'. rewrite MS.
        destruct (I2 k' v' G') as [Q1 Q2]. split; [|exact Q2]. rewrite Q1.
        destruct (String.eqb_spec k' k) as [->|Nk]; [|rewrite orb_false_r; reflexivity].
        rewrite orb_true_r. unfold X0. rewrite U. destruct (mem_str k pre); reflexivity. }
  destruct (G ks [] pv0 eq_refl) as (pv & E & J1 & J2).
  { split; [reflexivity|]. intros k v Q. cbn. apply H3, Q. }
  exists pv. split; [exact E|]. split; [congruence|]. split; [congruence|]. split; [intros k; rewrite J1; apply H2|].
  intros k v Q. destruct (J2 k v Q) as [Q1 Q2]. split; [|exact Q2]. rewrite Q1.
  assert (M : mem_str k ks = true) by (apply mem_str_iff, H2; rewrite <- J1; eapply od_get_some_key; eauto).
  rewrite M. reflexivity.
Qed.

Lemma nodup_Z_iff l : NoDup l -> nodup_Z l = true.
Proof.
  induction l as [|d l IH]; [reflexivity|]. intros H. inversion H; subst. cbn. rewrite IH by auto. rewrite andb_true_r.
  apply negb_true_iff, not_true_is_false. intros C. unfold Zmem in C. apply existsb_exists in C. destruct C as (x & Ix & Ex).
  apply Z.eqb_eq in Ex. congruence.
Qed.

Lemma dims_unshared : dims_shared args = false.
Proof.
  unfold dims_shared. apply not_true_is_false. intros C. apply existsb_exists in C. destruct C as (p & I & C).
  apply negb_true_iff in C. assert (Q : nodup_Z (some_dims (p_dims p)) = true); [|congruence].
  apply nodup_Z_iff. destruct (vp_dims _ _ (V p I)) as [Ik ND].
  unfold some_dims.
  assert (G : forall m, incl m (p_dims p) -> NoDup (od_keys m) -> NoDup (flat_map (fun kd : string * option Z => match snd kd with Some d => [d] | None => [] end) m) /\
     forall d, In d (flat_map (fun kd : string * option Z => match snd kd with Some d => [d] | None => [] end) m) -> exists k, In k (od_keys m) /\ In k (axes p) /\ d = Z.of_nat (pos k (axes p))).
  { induction m as [|[k d] m IH]; intros Im Nm; cbn [flat_map]; [split; [constructor|intros d []]|].
    cbn in Nm. inversion Nm as [|? ? N1 N2]; subst. destruct (IH (fun x Hx => Im x (or_intror Hx)) N2) as [G1 G2].
    assert (Gd : od_get (p_dims p) k = Some d) by (apply od_in_get; auto; apply Im; left; reflexivity).
    assert (Kp : In k (p_keylist p)) by (apply Ik; eapply od_get_some_key; eauto).
    pose proof (vp_dim p (axes p) (V p I) k Kp) as VD. unfold od_getR in VD. rewrite Gd in VD. injection VD as VD.
    cbn [snd]. destruct d as [d|].
    - destruct (mem_str k (axes p)) eqn:MK; [|discriminate]. injection VD as ->. apply mem_str_iff in MK.
      cbn [app]. split.
      + constructor; [|exact G1]. intros C'. apply G2 in C'. destruct C' as (k' & K1 & K2 & K3).
        apply Nat2Z.inj in K3. apply pos_inj in K3; auto. subst k'. exact (N1 K1).
      + intros d [<-|Hd]; [exists k; cbn; auto|]. destruct (G2 d Hd) as (k' & K1 & K2 & K3). exists k'. cbn. auto.
    - cbn [app]. split; [exact G1|]. intros d Hd. destruct (G2 d Hd) as (k' & K1 & K2 & K3). exists k'. cbn. auto. }
  apply (G (p_dims p) (incl_refl _) ND).
Qed.

Lemma Ls_nodup : NoDup Ls.
Proof.
  unfold Ls, ks. rewrite filter_app. apply nodup_app_iff. split; [apply filter_nodup, Hm|]. split; [exact Hcol|].
  intros k K1 K2. apply filter_In in K1. apply filter_In in K2. destruct K1 as [K1 _], K2 as [K2 _].
  apply in_free in K2. tauto.
Qed.

Lemma last_cumsum (f : string -> bool) l n : l <> [] -> last (cumsum_from n (map f l)) 0 = n + length (filter f l).
Proof.
  revert n. induction l as [|k l IH]; intros n NE; [congruence|]. cbn [map cumsum_from filter].
  destruct l as [|k' l'].
  - cbn. destruct (f k); cbn; lia.
  - assert (E : forall x m, m <> [] -> last (x :: m) 0 = last m 0) by (intros x [|y m] H; [congruence|reflexivity]).
    rewrite E by (cbn; destruct (f k'); discriminate). rewrite IH by discriminate. destruct (f k); cbn [length]; lia.
Qed.


(** *** Axes *)
Lemma col_array (k : string) (v : value R) : var_of v = X k -> col k = true ->
  exists a, v = VArr a /\ shape a <> [] /\ tsize a = csz k.
Proof.
  intros E C. unfold col, csz in *. destruct (X k) as [|l]; [discriminate|].
  destruct v as [x|s|m|a|]; try discriminate. cbn in E. exists a. split; [reflexivity|].
  destruct (shape a) eqn:Sh; [discriminate|]. split; [discriminate|]. injection E as <-. rewrite to_list_length. reflexivity.
Qed.

Lemma csz_pos k : In k Ls -> 0 < csz k.
Proof.
  intros K. apply filter_In in K. destruct K as [K C]. apply held_ks in K. destruct K as (p & I & K).
  assert (A : In k (axes p)) by (apply held_axis; auto).
  destruct (held_value p k I K) as (v & G & E). destruct (col_array k v E C) as (a & -> & _ & <-).
  destruct (vp_tsize p (axes p) (V p I) k a A G) as (_ & _ & _ & Q). exact Q.
Qed.

Lemma size_csz p k : In p args -> In k (axes p) -> size_of p k = csz k.
Proof.
  intros I A. unfold size_of. rewrite (Hv p k I) by (apply axes_key; auto). reflexivity.
Qed.

(** The values after placing the columns of pre. *)
Definition placed (pre : list string) (st : odict (value R) * odict Z * list nat) : Prop :=
  let '(pv, dims, psh) := st in
  hold ks pv /\ od_keys dims = filter col pre /\
  (forall k, In k (filter col pre) -> od_get dims k = Some (Z.of_nat (pos k Ls)) /\
     exists a, od_get pv k = Some (VArr a) /\ shape a = axis_shape (length Ls) (pos k Ls) (csz k)) /\
  psh = mask csz (filter col pre) Ls.

Lemma place_ok pv0 : hold ks pv0 -> exists st,
  place_vals (length Ls) ks (map (fun k => negb (col k)) ks) (cumsum (map col ks)) pv0 = Ok st /\ placed ks st.
Proof.
  intros H0. unfold place_vals, cumsum.
  set (f := fun (st : odict (value R) * odict Z * list nat) (e : string * (bool * nat)) =>
              let '(pv, dims, psh) := st in
              let '(key, (s, c)) := e in
              if (s : bool) then Ok st
              else
                let! v := od_getR pv key in
                match v with
                | VArr a =>
                    let dim := (Z.of_nat c - 1)%Z in
                    let! j := py_indexR (length Ls) dim in
                    let rsh := set_nth j (tsize a) (repeat 1 (length Ls)) in
                    let! a' := reshape rsh a in
                    Ok (od_set pv key (VArr a'), od_set dims key dim,
                        set_nth j (tsize a) psh)
                | _ => Err AttributeError
                end).
  assert (G : forall post pre st, ks = pre ++ post -> placed pre st ->
    exists st', fold_res f (combine post (combine (map (fun k => negb (col k)) post) (cumsum_from (length (filter col pre)) (map col post)))) st = Ok st' /\
      placed ks st').
  { induction post as [|k post IH]; intros pre st E P.
    - exists st. split; [reflexivity|]. rewrite E, app_nil_r in *. exact P.
    - cbn [map combine cumsum_from fold_res].
      assert (E' : ks = (pre ++ [k]) ++ post) by (rewrite <- app_assoc; exact E).
      destruct (col k) eqn:C; cbn [negb].
      2:{ assert (Ec : filter col (pre ++ [k]) = filter col pre) by (rewrite filter_app; cbn; rewrite C, app_nil_r; reflexivity).
          unfold f at 2. destruct st as [[pv dims] psh]. cbn [bind].
          destruct (IH (pre ++ [k]) (pv, dims, psh) E') as (st' & R1 & R2); [unfold placed in *; rewrite Ec; exact P|].
          rewrite Ec in R1. exists st'. auto. }
      assert (Ec : filter col (pre ++ [k]) = filter col pre ++ [k]) by (rewrite filter_app; cbn; rewrite C; reflexivity).
      assert (LL : Ls = filter col pre ++ k :: filter col post) by (unfold Ls; rewrite E, filter_app; cbn; rewrite C; reflexivity).
      assert (KL : In k Ls) by (rewrite LL; apply in_elt).
      assert (NL := Ls_nodup).
      assert (NP : ~ In k (filter col pre)).
      { rewrite LL in NL. apply NoDup_remove_2 in NL. intros Q. apply NL. apply in_or_app. auto. }
      assert (PK : pos k Ls = length (filter col pre)).
      { apply nth_pos; [exact NL|]. rewrite LL, nth_error_app2, Nat.sub_diag by lia. reflexivity. }
      assert (LT : length (filter col pre) < length Ls) by (rewrite LL, app_length; cbn; lia).
      destruct st as [[pv dims] psh]. destruct P as ((H0' & H1 & H2 & H3) & Pk & Pd & Ps).
      assert (Kk : In k ks) by (rewrite E; apply in_elt).
      assert (Kv := Kk). apply H2 in Kv. apply od_key_get in Kv. destruct Kv as (v & Gv).
      destruct (H3 k v Gv) as [EX _]. destruct (col_array k v EX C) as (a & -> & Sa & Ta).
      destruct (reshape_ok (set_nth (length (filter col pre)) (tsize a) (repeat 1 (length Ls))) a) as (a' & Er & Sr & Tr).
      { apply (prod_axis_shape (length Ls)). exact LT. }
      assert (Step : f (pv, dims, psh) (k, (false, S (length (filter col pre)))) =
        Ok (od_set pv k (VArr a'), od_set dims k (Z.of_nat (length (filter col pre))), set_nth (length (filter col pre)) (tsize a) psh)).
      { unfold f. rewrite (proj2 (od_getR_ok _ _ _) Gv). cbn [bind].
        replace (Z.of_nat (S (length (filter col pre))) - 1)%Z with (Z.of_nat (length (filter col pre))) by lia.
        cbv zeta. rewrite py_indexR_nat by exact LT. cbn [bind]. rewrite Er. reflexivity. }
      rewrite Step. cbn [bind].
      destruct (IH (pre ++ [k]) (od_set pv k (VArr a'), od_set dims k (Z.of_nat (length (filter col pre))), set_nth (length (filter col pre)) (tsize a) psh) E') as (st' & R1 & R2).
      { unfold placed. split; [|split; [|split]].
        - split; [rewrite <- H0'; apply od_keys_set_old, H2, Kk|]. split; [apply od_keys_set_nodup, H1|]. split.
          + intros k'. rewrite od_keys_set_in, H2. intuition congruence.
          + intros k' v' G'. rewrite od_get_set in G'. destruct (String.eqb_spec k' k) as [->|]; [|eauto].
            injection G' as <-. split; [|congruence]. rewrite <- EX. cbn. rewrite Sr.
            destruct (shape a); [congruence|]. rewrite Tr. rewrite set_nth_repeat by exact LT.
            destruct (length (filter col pre)); reflexivity.
        - rewrite od_keys_set_new by (rewrite Pk; exact NP). rewrite Pk, Ec. reflexivity.
        - rewrite Ec. intros k' K'. apply in_app_iff in K'. destruct K' as [K'|[<-|[]]].
          + assert (k' <> k) by congruence. rewrite !od_get_set_ne by auto. apply Pd, K'.
          + rewrite !od_get_set_eq, PK. split; [reflexivity|]. exists a'. split; [reflexivity|]. rewrite Sr, Ta. reflexivity.
        - rewrite Ec, Ps, <- PK, Ta. rewrite <- (set_nth_mask csz (filter col pre) Ls k KL NL). f_equal.
          assert (Q : nth_error (map csz Ls) (pos k Ls) = Some (csz k)) by (rewrite nth_error_map, pos_nth by exact KL; reflexivity).
          symmetry. apply nth_error_nth. exact Q. }
      exists st'. split; [|exact R2]. rewrite Ec, app_length in R1. cbn [length] in R1. rewrite Nat.add_1_r in R1. exact R1. }
  apply (G ks [] (pv0, [], repeat 1 (length Ls)) eq_refl).
  unfold placed. cbn [filter]. split; [exact H0|]. split; [reflexivity|]. split; [intros k []|]. symmetry. apply mask_none.
Qed.

Lemma axes_Ls p : In p args -> incl (axes p) Ls.
Proof.
  intros I k K. apply filter_In. assert (Kk := axes_key p k I K). split; [apply held_ks; eauto|]. apply (held_axis p k I Kk). exact K.
Qed.

Lemma Ls_axes : incl Ls (concat (map axes args)).
Proof.
  intros k K. apply filter_In in K. destruct K as [K C]. apply held_ks in K. destruct K as (p & I & K).
  apply in_concat. exists (axes p). split; [apply in_map, I|]. apply held_axis; auto.
Qed.

Lemma tens_ok p : In p args -> p_probR p = Ok (tens p) /\ shape (tens p) = map csz (axes p) /\ p_prob p = Some (tens p).
Proof.
  intros I. destruct (vp_prob_get p (axes p) (V p I)) as (t & E1 & E2 & E3). unfold tens. rewrite E1. split; [exact E2|]. split; [|reflexivity].
  rewrite E3. apply map_ext_in. intros k K. apply size_csz; auto.
Qed.

Lemma align_all dims : (forall k, In k Ls -> od_get dims k = Some (Z.of_nat (pos k Ls))) ->
  exists ts, map_res (fun ap => align_prob (length Ls) dims (map csz Ls) (fst ap) (snd ap)) (combine args (map tens args)) = Ok ts /\
  Forall2 (fun p t' => shape t' = fshape csz Ls (axes p) /\
    forall a, (forall k, In k Ls -> a k < csz k) -> get t' (bcast_idx (shape t') (map a Ls)) = get (tens p) (map a (axes p))) args ts.
Proof.
  intros HD.
  assert (Q : forall l, incl l args -> exists ts, map_res (fun ap => align_prob (length Ls) dims (map csz Ls) (fst ap) (snd ap)) (combine l (map tens l)) = Ok ts /\
  Forall2 (fun p t' => shape t' = fshape csz Ls (axes p) /\
    forall a, (forall k, In k Ls -> a k < csz k) -> get t' (bcast_idx (shape t') (map a Ls)) = get (tens p) (map a (axes p))) l ts).
  { induction l as [|p l IH]; intros Il.
    - exists []. split; [reflexivity|constructor].
    - destruct IH as (ts & E & FA); [intros x Hx; apply Il; right; exact Hx|].
      assert (I : In p args) by (apply Il; left; reflexivity). destruct (tens_ok p I) as (_ & St & _).
      cbn [map combine map_res fst snd].
      assert (A : exists t', align_prob (length Ls) dims (map csz Ls) p (tens p) = Ok t' /\ shape t' = fshape csz Ls (axes p) /\
         forall a, (forall k, In k Ls -> a k < csz k) -> get t' (bcast_idx (shape t') (map a Ls)) = get (tens p) (map a (axes p))).
      { assert (Iax := axes_Ls p I). assert (Vp := V p I).
        destruct (axes p) as [|k0 ax] eqn:EA.
        - exists (tens p). unfold align_prob, ndim. rewrite St. cbn [map length Nat.eqb]. split; [reflexivity|]. split; [reflexivity|].
          intros a _. f_equal.
        - destruct (align_ok csz Ls (k0 :: ax) p (tens p) dims) as (t' & E1 & E2 & E3); auto.
          1: discriminate. 1: apply Ls_nodup.
          exists t'. split; [exact E1|]. split; [exact E2|]. rewrite E2. exact E3. }
      destruct A as (t' & -> & S' & G'). cbn [bind]. rewrite E. cbn [bind]. exists (t' :: ts). split; [reflexivity|].
      constructor; auto. }
  apply (Q args), incl_refl.
Qed.

Hypothesis Hne : args <> [].
Hypothesis Hscale : scales_fit (map (fun a => spec_of (p_pscale a)) args).

Definition all_single : bool := forallb (fun b : bool => b) (map (fun a => match p_issing a with Some true => true | _ => false end) args).

(** The short cut for factors of scalars all held plainly. *)
Definition short_cut (ps : pspec R) : bool :=
  all_single && forallb (fun s => num_eq ps s) (map (fun a => spec_of (p_pscale a)) args) && is_plain ps.

Lemma not_fast : (exists p, In p args /\ axes p <> []) -> all_single = false.
Proof.
  intros (p & I & NE). apply not_true_is_false. unfold all_single. intros C. rewrite forallb_forall in C.
  assert (Q : (match p_issing p with Some true => true | _ => false end) = true) by (apply C; apply in_map_iff; exists p; auto).
  unfold p_issing in Q. rewrite (vp_issing _ _ (V p I)) in Q.
  destruct (forallb (fun kv : string * value R => issingleton (snd kv)) (p_vals p)) eqn:E; [|discriminate].
  destruct (axes p) as [|k l] eqn:EA; [congruence|].
  assert (KA : In k (axes p)) by (rewrite EA; left; reflexivity).
  destruct (vp_axis p (axes p) (V p I) k KA) as (a & G & _). pose proof G as G'. apply od_get_in in G.
  rewrite forallb_forall in E. apply E in G. cbn [snd] in G.
  destruct (vp_tsize p (axes p) (V p I) k a KA G') as (_ & S & _). rewrite arr_not_singleton in G by exact S. discriminate.
Qed.

Lemma single_axes : all_single = true -> forall p, In p args -> axes p = [].
Proof.
  intros A p I. destruct (axes p) as [|k l] eqn:E; [reflexivity|]. rewrite not_fast in A; [discriminate|]. exists p. split; [exact I|]. congruence.
Qed.

Lemma single_Ls : all_single = true -> Ls = [].
Proof.
  intros A. destruct Ls as [|k l] eqn:E; [reflexivity|].
  assert (I : In k (concat (map axes args))) by (apply Ls_axes; rewrite E; left; reflexivity).
  apply in_concat in I. destruct I as (m & I & K). apply in_map_iff in I. destruct I as (p & <- & I). rewrite (single_axes A p I) in K. destruct K.
Qed.

Lemma args_some : args <> [].
Proof. exact Hne. Qed.

Lemma ks_some : ks <> [].
Proof.
  intros C. destruct args as [|p l] eqn:EA; [congruence|]. rewrite <- EA in *. assert (I : In p args) by (rewrite EA; left; reflexivity).
  destruct (p_keylist p) as [|k m] eqn:EK; [exact (vp_some _ _ (V p I) EK)|].
  assert (Q : In k ks) by (apply held_ks; exists p; split; [exact I|]; rewrite EK; left; reflexivity). rewrite C in Q. exact Q.
Qed.

Definition kent (k : string) : string * string := (k, ent k).

Lemma name_same : str_margcond (margcond_str (map ent allM) (map ent Fr))
  = str_margcond (margcond_str (od_vals (map kent allM)) (od_vals (map kent (dedup_str Fr)))).
Proof.
  assert (GE : forall l, incl l ks -> Forall good_entry (map ent l)).
  { intros l I. apply Forall_forall. intros e He. apply in_map_iff in He. destruct He as (k & <- & K). apply ks_ent, I, K. }
  assert (OV : forall l, od_vals (map kent l) = map ent l) by (intros l; unfold od_vals; rewrite map_map; reflexivity).
  assert (IM : incl allM ks) by (intros k; apply M_ks).
  assert (IF : incl Fr ks) by (intros k; apply Fr_ks).
  assert (ID : incl (dedup_str Fr) ks) by (intros k K; apply IF, dedup_in, K).
  rewrite !OV, !name_keyed by auto. do 2 f_equal.
  rewrite !keyed_map by (intros k K; apply ks_ent; auto).
  rewrite (dedup_nodup_id (dedup_str Fr)) by apply dedup_nodup. reflexivity.
Qed.

Lemma factors_eq ts a : Forall2 (fun p t' => shape t' = fshape csz Ls (axes p) /\
    forall a, (forall k, In k Ls -> a k < csz k) -> get t' (bcast_idx (shape t') (map a Ls)) = get (tens p) (map a (axes p))) args ts ->
  (forall k, In k Ls -> a k < csz k) ->
  factors_at ts (map (fun a => spec_of (p_pscale a)) args) (map a Ls) = map (fun p => prob_at p (axes p) a) args.
Proof.
  intros FA Ha. rewrite (factors_gen (map a Ls) (fun p => map a (axes p)) args ts).
  - apply map_ext_in. intros p I. unfold prob_at. destruct (tens_ok p I) as (_ & _ & ->). reflexivity.
  - eapply Forall2_weaken; [|exact FA]. intros p t' (_ & G). apply G, Ha.
Qed.

Lemma product_ok : (forall ps, product_pscale PSNone (map (fun a => spec_of (p_pscale a)) args) = Ok ps -> short_cut ps = false) ->
  exists q, product args PSNone = Ok (Some q) /\ valid_pd q Ls /\
  p_marg q = map kent allM /\ p_cond q = map kent (dedup_str Fr) /\
  p_keylist q = dedup_str ks /\
  (forall k, In k (p_keylist q) <-> In k ks) /\
  (forall k, In k ks -> variable q k = Some (X k)) /\
  (scales_fit [spec_of (p_pscale q)] /\
   factor (spec_of (p_pscale q)) = Rprod (map factor (map (fun a => spec_of (p_pscale a)) args)) /\
   log_kind (spec_of (p_pscale q)) = existsb log_kind (map (fun a => spec_of (p_pscale a)) args)) /\
  forall a, (forall k, In k Ls -> a k < csz k) ->
    ((exists p, In p args /\ log_scaled p) -> forall p, In p args -> ~ log_scaled p -> (npz <= prob_at p (axes p) a)%R) ->
    prob_at q Ls a = Rprod (map (fun p => prob_at p (axes p) a) args).
Proof.
  intros Hslow. destruct collect_ok as (pv00 & Ec & H00). destruct (sum_counts pv00 H00) as (pv0 & Es & H0). destruct (place_ok pv0 H0) as ([[pv dims] psh] & Epl & P).
  destruct P as (H1 & Pk & Pd & Ps). fold Ls in Pk, Pd, Ps.
  rewrite mask_all in Ps by apply incl_refl.
  destruct (align_all dims) as (ts & Eal & FA); [intros k K; apply Pd, K|].
  set (scales := map (fun a => spec_of (p_pscale a)) args) in *.
  assert (Lts : length ts = length args) by (symmetry; eapply Forall2_length; exact FA).
  assert (Bc : bcast_all (map shape ts) = Ok (map csz Ls)).
  { assert (Sh : map shape ts = map (fshape csz Ls) (map axes args)).
    { clear -FA. induction FA as [|p t' l ts (S & _) FA IH]; [reflexivity|]. cbn [map]. rewrite IH, S. reflexivity. }
    rewrite Sh, bcast_all_fshape by (intros C; apply map_eq_nil in C; apply args_some; exact C).
    f_equal. destruct Ls as [|k0 l0] eqn:EL.
    - destruct (concat (map axes args)) as [|k1 l1] eqn:E1; [reflexivity|]. exfalso.
      assert (Q : In k1 (concat (map axes args))) by (rewrite E1; left; reflexivity). apply in_concat in Q. destruct Q as (m & Q & K).
      apply in_map_iff in Q. destruct Q as (p & <- & I). apply (axes_Ls p I) in K. rewrite EL in K. exact K.
    - rewrite <- EL. apply fshape_all; [congruence|apply Ls_axes]. }
  destruct (prod_rule_scaled ts scales (map csz Ls)) as (t & ps & psc & Eps & Epr & St & Ev & Ei & Sf & Sf2 & G); auto.
  { intros C. rewrite C in Lts. apply args_some. destruct args; [reflexivity|discriminate]. }
  { unfold scales. rewrite map_length. auto. }
  destruct H1 as (K0 & N1 & K1 & W1).
  assert (Ren : forall l, incl l ks -> map (render pv Ls) (map kent l) = map kent l).
  { intros l I. rewrite map_map. apply map_ext_in. intros k K. apply I in K. unfold render, kent. cbn [fst snd]. f_equal.
    destruct (mem_str k Ls) eqn:M; [reflexivity|]. apply mem_str_false in M.
    assert (Kv := K). apply K1 in Kv. apply od_key_get in Kv. destruct Kv as (v & Gv). rewrite Gv.
    destruct (W1 k v Gv) as [EX _]. unfold ent. rewrite <- EX.
    assert (C : col k = false) by (apply not_true_is_false; intros C; apply M, filter_In; auto).
    unfold col in C. rewrite <- EX in C. destruct v as [x|s|m|a|]; try reflexivity. cbn in *. destruct (shape a); [reflexivity|discriminate]. }
  assert (IM : incl allM ks) by (intros k; apply M_ks).
  assert (IF : incl (dedup_str Fr) ks) by (intros k K; apply Fr_ks, dedup_in, K).
  assert (GE : forall l, incl l ks -> Forall (fun ke => good_entry (snd ke) /\ key_of (snd ke) (fst ke)) (map kent l)).
  { intros l I. apply Forall_forall. intros ke He. apply in_map_iff in He. destruct He as (k & <- & K). apply ks_ent, I, K. }
  assert (DK : od_keys (map (fun kd : string * Z => (fst kd, Some (snd kd))) dims) = od_keys dims) by (unfold od_keys; rewrite map_map; reflexivity).
  assert (OK : forall l, od_keys (map kent l) = l) by (intros l; unfold od_keys; rewrite map_map; apply map_id).
  destruct (make_pd_ok pv (map (fun kd => (fst kd, Some (snd kd))) dims) Ls (map kent allM) (map kent (dedup_str Fr)) t ps psc)
    as (q & Eq & Vq & Kq & Mq & Cq & Pq & Sq & Vr).
  - exact N1.
  - intros C. destruct ks as [|k l] eqn:EK; [exact (ks_some EK)|].
    assert (Q : In k (k :: l)) by (left; reflexivity). apply K1 in Q. rewrite C in Q. exact Q.
  - intros k K. apply K1, held_ks in K. destruct K as (p & I & K). apply (vp_reserved _ _ (V p I)). exact K.
  - apply Ls_nodup.
  - intros k K. apply K1. apply filter_In in K. tauto.
  - intros k v Gv NK. destruct (W1 k v Gv) as [EX S]. split.
    + apply S. apply not_true_is_false. intros C. apply NK, filter_In. split; [apply K1; eapply od_get_some_key; eauto|exact C].
    + left. apply od_get_none. rewrite DK, Pk. exact NK.
  - intros j k Hj. assert (K : In k Ls) by (eapply nth_error_In; eauto). destruct (Pd k K) as (D1 & a & A1 & A2).
    assert (PJ : pos k Ls = j) by (apply nth_pos; [apply Ls_nodup|exact Hj]). rewrite PJ in *.
    assert (LJ : j < length Ls) by (apply nth_error_Some; congruence).
    assert (TA : tsize a = csz k) by (unfold tsize; rewrite A2; apply prod_axis_shape; exact LJ).
    assert (CP := csz_pos k K).
    exists a. split; [exact A1|]. unfold axis_shape in A2. rewrite set_nth_repeat in A2 by exact LJ.
    split; [rewrite A2; destruct j; discriminate|]. split; [rewrite TA, A2; symmetry; apply list_max_axis; exact CP|].
    split; [lia|]. split.
    + rewrite (od_get_map (fun _ d => Some d) dims k), D1. reflexivity.
    + rewrite St, nth_error_map, Hj, TA. reflexivity.
  - intros k K. rewrite DK, Pk in K.
    apply K1. apply filter_In in K. tauto.
  - rewrite DK, Pk. apply Ls_nodup.
  - rewrite St, map_length. reflexivity.
  - rewrite <- map_app. apply GE. intros k K. apply in_app_iff in K. destruct K; auto.
  - rewrite map_app, !Ren by auto. rewrite <- map_app. apply GE. intros k K. apply in_app_iff in K. destruct K; auto.
  - rewrite !OK. apply NoDup_Permutation; [|exact N1|].
    + apply nodup_app_iff. split; [exact Hm|]. split; [apply dedup_nodup|]. intros k Ka Kb. apply dedup_in, in_free in Kb. tauto.
    + intros k. rewrite K1. unfold ks. rewrite !in_app_iff, dedup_in. reflexivity.
  - exact Ev.
  - exact Ei.
  - exists q. split.
    { subst scales. unfold product. pose proof args_some as NA. destruct args as [|a0 rest] eqn:EA; [congruence|]. rewrite <- EA in *. clear NA.
      rewrite Eps. cbn [bind].
      rewrite (map_res_all _ tens) by (intros p I; apply tens_ok, I). cbn [bind].
      fold allM. rewrite (proj2 (nodup_str_iff _) Hm). cbn [bind]. assert (HS := Hslow ps Eps). unfold short_cut, all_single in HS. rewrite HS. cbn [andb orb].
      rewrite prod_marg_eq, flat_cond_eq, cond2marg_eq, free_eq by apply incl_refl. fold Fr.
      destruct check_conds_succeeds as (seen & ->). cbn [bind]. rewrite prod_keys_eq, Ec. cbn [bind].
      rewrite Es. cbn [bind]. rewrite dims_unshared. rewrite !map_map. cbn [fst bind].
      rewrite (map_ext _ col) by (intros k; apply negb_involutive).
      assert (NK : ks <> []) by apply ks_some.
      assert (LC : last (cumsum (map col ks)) 0 = length Ls) by (apply last_cumsum; exact NK).
      destruct (cumsum (map col ks)) as [|c0 cs] eqn:ECS.
      { destruct ks as [|k0 kk]; [congruence|]. unfold cumsum in ECS. cbn in ECS. discriminate. }
      rewrite LC, Epl. cbn [bind]. subst psh. rewrite Eal. cbn [bind]. rewrite Epr. cbn [bind].
      change (if String.eqb (join "," (map ent Fr)) "" then join "," (map ent allM) else join "|" [join "," (map ent allM); join "," (map ent Fr)])
        with (margcond_str (map ent allM) (map ent Fr)).
      rewrite (make_pd_name _ _ pv _ (Some t) ps name_same).
      match goal with |- bind ?x _ = _ => replace x with (@Ok (pd R) q) by (symmetry; exact Eq) end. reflexivity. }
    split; [exact Vq|]. rewrite Mq, Cq, !Ren by auto. split; [reflexivity|]. split; [reflexivity|].
    split; [rewrite Kq; exact K0|]. split; [intros k; rewrite Kq; apply K1|].
    split.
    { intros k K. rewrite Vr. apply K1 in K. apply od_key_get in K. destruct K as (v & Gv). rewrite Gv. f_equal. apply (W1 k v Gv). }
    split; [rewrite Sq; split; [exact Sf|exact Sf2]|].
    intros a Ha Hn. rewrite <- (factors_eq ts a FA Ha). unfold prob_at. rewrite Pq, Sq. apply G.
    + clear -Ha. revert Ha. generalize Ls. intros l. induction l as [|k l IH]; cbn; intros Ha; [constructor|].
      constructor; [apply Ha; left; reflexivity|]. apply IH. intros k' K'. apply Ha. right. exact K'.
    + intros C. destruct Hscale as [HL|[HP _]].
      { exfalso. apply existsb_exists in C. destruct C as (sc & Isc & C). rewrite Forall_forall in HL. apply HL in Isc.
        destruct Isc as [_ Q]. destruct sc; discriminate. }
      assert (LG : exists p, In p args /\ log_scaled p).
      { apply existsb_exists in C. destruct C as (sc & Isc & C). apply in_map_iff in Isc. destruct Isc as (p & <- & I).
        exists p. split; [exact I|]. unfold log_scaled. destruct (spec_of (p_pscale p)); [discriminate..|reflexivity|discriminate|discriminate]. }
      apply (floor_gen (map a Ls) (fun p => map a (axes p))); [|exact HP|].
      * eapply Forall2_weaken; [|exact FA]. intros p t' (_ & Gt). apply Gt, Ha.
      * intros p I NLg. specialize (Hn LG p I NLg). unfold prob_at in Hn. destruct (tens_ok p I) as (_ & _ & Q). rewrite Q in Hn. exact Hn.
Qed.

(** *** The short cut *)
Lemma plain_scales ps : product_pscale PSNone (map (fun a => spec_of (p_pscale a)) args) = Ok ps -> short_cut ps = true ->
  (iscomplex ps = false /\ forall p, In p args -> p_pscale p = Lin 1%R) \/
  (iscomplex ps = true /\ forall p, In p args -> p_pscale p = Log 0%R 0%R).
Proof.
  set (scales := map (fun a => spec_of (p_pscale a)) args). intros Ep SC. unfold short_cut in SC. fold scales in SC.
  apply andb_true_iff in SC. destruct SC as [SC PL]. apply andb_true_iff in SC. destruct SC as [_ EQ]. rewrite forallb_forall in EQ.
  assert (NEs : scales <> []) by (intros C; apply map_eq_nil in C; exact (Hne C)).
  unfold product_pscale in Ep. cbn [truthy] in Ep. rewrite prod_pscale_default in Ep.
  assert (HV : Forall valid_scale scales /\ Forall (fun s => ~ unit_log s) scales).
  { destruct Hscale as [H|[H _]]; fold scales in H; split; eapply Forall_impl; try exact H; cbn beta.
    - intros s [Q _]. exact Q.
    - intros s [_ Q] U. rewrite U in Q. discriminate.
    - intros s Q. apply plain_valid. exact Q.
    - intros s [-> | ->] U; unfold unit_log in U; [discriminate|]. injection U as U. lra. }
  destruct HV as [HV HU].
  assert (EQ' : forall p, In p args -> num_eq ps (spec_of (p_pscale p)) = true) by (intros p I; apply EQ; apply in_map_iff; eauto).
  destruct (existsb iscomplex scales) eqn:C.
  - right. rewrite prod_pscale_log in Ep by auto. cbn [bind] in Ep.
    destruct Hscale as [H|[H _]]; fold scales in H.
    { exfalso. apply existsb_exists in C. destruct C as (s & I & C). rewrite Forall_forall in H. apply H in I. destruct I as [_ Q]. destruct s; discriminate. }
    assert (Z : Rsum (map (fun s => ln (factor s)) scales) = 0%R).
    { clear -H. induction H as [|s l H _ IH]; [reflexivity|]. cbn [map]. unfold Rsum in *. cbn [fold_right]. rewrite IH. assert (factor s = 1%R) as ->; [|rewrite ln_1; lra].
      destruct H as [-> | ->]; [apply factor_one|]. cbn. rewrite log_offset_0. apply exp_0. }
    rewrite Z in Ep. unfold log_result in Ep.
    assert (B : n_ltb (n_abs 0%R) npz = true).
    { apply Rltb_iff. rewrite n_abs_R, Rabs_R0. apply npz_pos. }
    rewrite B in Ep. injection Ep as <-. split; [reflexivity|].
    intros p I. specialize (EQ' p I). destruct (p_pscale p) as [c|re im] eqn:PS; cbn in EQ'; apply andb_true_iff in EQ'; destruct EQ' as [E1 E2].
    + exfalso. apply Reqb_iff in E1. assert (I' : In (spec_of (p_pscale p)) scales) by (apply in_map_iff; eauto). rewrite Forall_forall in H. apply H in I'. rewrite PS in I'. cbn in I'.
      destruct I' as [I'|I']; [injection I' as ->; change (n0 = 1%R) in E1; unfold n0 in E1; cbn in E1; lra|discriminate].
    + apply Reqb_iff in E1, E2. rewrite <- E1, <- E2. reflexivity.
  - left. rewrite prod_pscale_lin in Ep by auto. cbn [bind] in Ep. injection Ep as <-. split; [reflexivity|]. cbn [spec_of] in *.
    assert (P : (0 < Rprod (map factor scales))%R).
    { apply Rprod_pos. apply Forall_map. eapply Forall_impl; [|exact HV]. intros; apply factor_pos; auto. }
    assert (E1 : Rprod (map factor scales) = 1%R).
    { unfold is_plain in PL. apply orb_true_iff in PL. destruct PL as [PL|PL]; cbn in PL; apply andb_true_iff in PL; destruct PL as [PL _]; apply Reqb_iff in PL; [|exact PL].
      change (n_ofZ 0) with 0%R in PL. lra. }
    intros p I. specialize (EQ' p I). rewrite E1 in EQ'. destruct (p_pscale p) as [c|re im] eqn:PS; cbn in EQ'; apply andb_true_iff in EQ'; destruct EQ' as [E2 _].
    + apply Reqb_iff in E2. rewrite E2. reflexivity.
    + exfalso. assert (Q : existsb iscomplex scales = true); [|congruence]. apply existsb_exists. exists (spec_of (p_pscale p)).
      split; [apply in_map_iff; eauto|]. rewrite PS. reflexivity.
Qed.

Lemma not_same : 2 <= length args -> (forall p, In p args -> p_marg p <> []) ->
  all_same (map (fun a => od_vals (p_marg a)) args) = false.
Proof.
  intros LE MN. destruct args as [|p [|q l]] eqn:EA; cbn in LE; try lia. rewrite <- EA in *. rewrite EA. cbn [map all_same forallb].
  assert (Ip : In p args) by (rewrite EA; left; reflexivity). assert (Iq : In q args) by (rewrite EA; right; left; reflexivity).
  apply andb_false_iff. left. apply not_true_is_false. intros C. apply list_eqb_str in C.
  destruct (p_marg p) as [|[k e] m] eqn:Mp; [exact (MN p Ip Mp)|].
  destruct (p_marg q) as [|[k' e'] m'] eqn:Mq; [exact (MN q Iq Mq)|]. cbn in C. injection C as C _. subst e'.
  pose proof (vp_entries _ _ (V p Ip)) as E1. pose proof (vp_entries _ _ (V q Iq)) as E2. rewrite Mp in E1. rewrite Mq in E2. cbn [app] in E1, E2.
  apply Forall_inv in E1. apply Forall_inv in E2. cbn in E1, E2.
  assert (k = k') by (eapply key_of_fun; [apply E1|apply E2]). subst k'.
  pose proof Hm as H. unfold allM in H. rewrite EA in H. cbn [flat_map] in H. rewrite Mp, Mq in H. cbn in H. inversion H as [|? ? H1 _]. apply H1.
  rewrite !in_app_iff. right. left. reflexivity.
Qed.

Lemma Rsum_fold (l : list R) c : fold_left n_add l c = (c + Rsum l)%R.
Proof.
  revert c. induction l as [|x l IH]; intros c; cbn [fold_left]; [unfold Rsum; cbn; lra|].
  rewrite IH. change (n_add c x) with (c + x)%R. unfold Rsum. cbn [fold_right]. lra.
Qed.
Lemma Rprod_fold (l : list R) c : fold_left n_mul l c = (c * Rprod l)%R.
Proof.
  revert c. induction l as [|x l IH]; intros c; cbn [fold_left]; [unfold Rprod; cbn; lra|].
  rewrite IH. change (n_mul c x) with (c * x)%R. unfold Rprod. cbn [fold_right]. lra.
Qed.

Lemma product_fast ps : product_pscale PSNone (map (fun a => spec_of (p_pscale a)) args) = Ok ps -> short_cut ps = true ->
  2 <= length args -> (forall p, In p args -> p_marg p <> []) ->
  exists q, product args PSNone = Ok (Some q) /\ valid_pd q Ls /\
  p_marg q = map kent allM /\ p_cond q = map kent (dedup_str Fr) /\
  p_keylist q = dedup_str ks /\
  (forall k, In k (p_keylist q) <-> In k ks) /\
  (forall k, In k ks -> variable q k = Some (X k)) /\
  (scales_fit [spec_of (p_pscale q)] /\
   factor (spec_of (p_pscale q)) = Rprod (map factor (map (fun a => spec_of (p_pscale a)) args)) /\
   log_kind (spec_of (p_pscale q)) = existsb log_kind (map (fun a => spec_of (p_pscale a)) args)) /\
  forall a, prob_at q Ls a = Rprod (map (fun p => prob_at p (axes p) a) args).
Proof.
  intros Ep SC L2 MN. assert (AS : all_single = true).
  { unfold short_cut in SC. apply andb_true_iff in SC. destruct SC as [SC _]. apply andb_true_iff in SC. tauto. }
  assert (AX := single_axes AS). assert (EL := single_Ls AS).
  assert (CL : forall k, In k ks -> col k = false).
  { intros k K. apply not_true_is_false. intros C. assert (Q : In k Ls) by (apply filter_In; auto). rewrite EL in Q. exact Q. }
  destruct collect_ok as (pv00 & Ec & H00). destruct (sum_counts pv00 H00) as (pv0 & Es & H0).
  set (scales := map (fun a => spec_of (p_pscale a)) args) in *.
  assert (Bc : bcast_all (map shape (map tens args)) = Ok []).
  { assert (Q : Forall (fun s => s = @nil nat) (map shape (map tens args))).
    { apply Forall_map, Forall_map, Forall_forall. intros p I. destruct (tens_ok p I) as (_ & -> & _). rewrite (AX p I). reflexivity. }
    clear -Q. unfold bcast_all. destruct Q as [|s l -> Q]; [reflexivity|].
    assert (E : fold_res bcast_shape l [] = Ok []) by (induction Q as [|s l -> _ IH]; [reflexivity|exact IH]). destruct l; [reflexivity|exact E]. }
  destruct (prod_rule_scaled (map tens args) scales []) as (t & ps' & psc & Eps & _ & _ & Ev & Ei & Sf & Sf2 & _); auto.
  { intros C. apply map_eq_nil in C. exact (Hne C). }
  { unfold scales. rewrite !map_length. reflexivity. }
  assert (ps' = ps) by congruence. subst ps'. clear Eps.
  destruct H0 as (K0 & N1 & K1 & W1).
  assert (SG : Forall (fun kv => issingleton (snd kv) = true) pv0).
  { apply Forall_forall. intros [k v] I. apply od_in_get in I; [|exact N1]. destruct (W1 k v I) as [_ S]. apply S, CL, K1. eapply od_get_some_key; eauto. }
  assert (IM : incl allM ks) by (intros k; apply M_ks).
  assert (IF : incl (dedup_str Fr) ks) by (intros k K; apply Fr_ks, dedup_in, K).
  assert (Ren : forall l, incl l ks -> map (render pv0 []) (map kent l) = map kent l).
  { intros l I. rewrite map_map. apply map_ext_in. intros k K. apply I in K. unfold render, kent. cbn [fst snd mem_str existsb]. f_equal.
    assert (Kv := K). apply K1 in Kv. apply od_key_get in Kv. destruct Kv as (v & Gv). rewrite Gv.
    destruct (W1 k v Gv) as [EX _]. unfold ent. rewrite <- EX.
    assert (C := CL k K). unfold col in C. rewrite <- EX in C. destruct v as [x|s|m|a|]; try reflexivity. cbn in *. destruct (shape a); [reflexivity|discriminate]. }
  assert (GE : forall l, incl l ks -> Forall (fun ke => good_entry (snd ke) /\ key_of (snd ke) (fst ke)) (map kent l)).
  { intros l I. apply Forall_forall. intros ke He. apply in_map_iff in He. destruct He as (k & <- & K). apply ks_ent, I, K. }
  assert (OK : forall l, od_keys (map kent l) = l) by (intros l; unfold od_keys; rewrite map_map; apply map_id).
  destruct (make_pd_ok pv0 [] [] (map kent allM) (map kent (dedup_str Fr)) (scalar_prod ps (map tens args)) ps psc)
    as (q & Eq & Vq & Kq & Mq & Cq & Pq & Sq & Vr).
  - exact N1.
  - intros C. destruct ks as [|k l] eqn:EK; [exact (ks_some EK)|].
    assert (Q : In k (k :: l)) by (left; reflexivity). apply K1 in Q. rewrite C in Q. exact Q.
  - intros k K. apply K1, held_ks in K. destruct K as (p & I & K). apply (vp_reserved _ _ (V p I)). exact K.
  - constructor.
  - intros k [].
  - intros k v Gv _. split; [|left; reflexivity]. rewrite Forall_forall in SG. apply (SG (k, v)). apply od_get_in. exact Gv.
  - intros j k Hj. destruct j; discriminate.
  - intros k [].
  - constructor.
  - reflexivity.
  - rewrite <- map_app. apply GE. intros k K. apply in_app_iff in K. destruct K; auto.
  - rewrite map_app, !Ren by auto. rewrite <- map_app. apply GE. intros k K. apply in_app_iff in K. destruct K; auto.
  - rewrite !OK. apply NoDup_Permutation; [|exact N1|].
    + apply nodup_app_iff. split; [exact Hm|]. split; [apply dedup_nodup|]. intros k Ka Kb. apply dedup_in, in_free in Kb. tauto.
    + intros k. rewrite K1. unfold ks. rewrite !in_app_iff, dedup_in. reflexivity.
  - exact Ev.
  - exact Ei.
  - exists q. split.
    { subst scales. assert (NK : ks <> []) by apply ks_some. assert (Ep' := Ep). assert (SC' := SC). unfold short_cut, all_single in SC'.
      assert (NS := not_same L2 MN). assert (PE := prod_marg_eq). assert (FE := flat_cond_eq). assert (CE := cond2marg_eq).
      unfold product. destruct args as [|a0 rest] eqn:EA; [congruence|]. rewrite <- EA in *.
      rewrite Ep'. cbn [bind].
      rewrite (map_res_all _ tens) by (intros p I; apply tens_ok, I). cbn [bind].
      fold allM. rewrite (proj2 (nodup_str_iff _) Hm). cbn [bind]. rewrite SC', NS. cbn [andb orb].
      rewrite prod_marg_eq, flat_cond_eq, cond2marg_eq, free_eq by apply incl_refl. fold Fr.
      destruct check_conds_succeeds as (seen & ->). cbn [bind]. rewrite prod_keys_eq, Ec. cbn [bind].
      rewrite Es. cbn [bind]. rewrite dims_unshared. rewrite !map_map. cbn [fst bind].
      rewrite (map_ext _ col) by (intros k; apply negb_involutive).
      assert (LC : last (cumsum (map col ks)) 0 = length Ls) by (apply last_cumsum; exact NK).
      destruct (cumsum (map col ks)) as [|c0 cs] eqn:ECS.
      { destruct ks as [|k0 kk]; [congruence|]. unfold cumsum in ECS. cbn in ECS. discriminate. }
      rewrite LC, EL. cbn [length Nat.eqb].
      change (if String.eqb (join "," (map ent Fr)) "" then join "," (map ent allM) else join "|" [join "," (map ent allM); join "," (map ent Fr)])
        with (margcond_str (map ent allM) (map ent Fr)).
      rewrite make_pd_single by auto.
      rewrite (make_pd_name _ _ pv0 _ (Some (scalar_prod ps (map tens args))) ps name_same).
      match goal with |- bind ?x _ = _ => replace x with (@Ok (pd R) q) by (symmetry; exact Eq) end. reflexivity. }
    rewrite EL. split; [exact Vq|]. rewrite Mq, Cq, !Ren by auto. split; [reflexivity|]. split; [reflexivity|].
    split; [rewrite Kq; exact K0|]. split; [intros k; rewrite Kq; apply K1|].
    split.
    { intros k K. rewrite Vr. apply K1 in K. apply od_key_get in K. destruct K as (v & Gv). rewrite Gv. f_equal. apply (W1 k v Gv). }
    split; [rewrite Sq; split; [exact Sf|exact Sf2]|].
    intros a. unfold prob_at at 1. rewrite Pq, Sq. unfold denote. destruct Sf2 as [-> ->]. cbn [map]. unfold scalar_prod, tscalar. cbn [get].
    assert (PA : forall p, In p args -> prob_at p (axes p) a = denote (spec_of (p_pscale p)) (PDUtils.scalar_of (tens p))).
    { intros p I. unfold prob_at, PDUtils.scalar_of. destruct (tens_ok p I) as (_ & _ & ->). rewrite (AX p I). reflexivity. }
    rewrite (map_ext_in _ _ _ PA). destruct (plain_scales ps Ep SC) as [[-> PL]|[-> PL]].
    + assert (Forall (fun s => s = PSFloat 1%R) scales) by (apply Forall_map, Forall_forall; intros p I; rewrite (PL p I); reflexivity).
      assert (existsb log_kind scales = false) as ->.
      { apply not_true_is_false. intros C. apply existsb_exists in C. destruct C as (s & I & C). rewrite Forall_forall in H. rewrite (H s I) in C. cbn in C. destruct (Req_EM_T 1 0); [lra|discriminate C]. }
      rewrite Rprod_fold. unfold n1. cbn [n_ofZ RNum]. unfold scales.
      clear -PL. induction args as [|p l IH]; cbn [map].
      * unfold Rprod. cbn. lra.
      * unfold Rprod in *. cbn [fold_right]. rewrite <- IH by (intros p' I; apply PL; right; exact I). rewrite (PL p) by (left; reflexivity).
        unfold denote. cbn [spec_of log_kind]. destruct (Req_EM_T 1 0); [lra|]. ring.
    + assert (existsb log_kind scales = true) as ->.
      { apply existsb_exists. destruct args as [|p l] eqn:EA; [congruence|]. exists (spec_of (p_pscale p)). split; [left; reflexivity|].
        rewrite (PL p) by (left; reflexivity). reflexivity. }
      rewrite Rsum_fold. unfold n0. cbn [n_ofZ RNum]. rewrite Rplus_0_l. unfold scales.
      clear -PL. induction args as [|p l IH]; cbn [map].
      * unfold Rprod, Rsum. cbn. rewrite exp_0. lra.
      * unfold Rprod, Rsum in *. cbn [fold_right]. rewrite <- IH by (intros p' I; apply PL; right; exact I). rewrite (PL p) by (left; reflexivity).
        unfold denote. cbn [spec_of log_kind]. rewrite exp_plus. ring.
Qed.

End Product.

(** *** With the factors' own variables *)
Section Pointwise.
Context {F : Fmt R}.

Lemma product_pointwise (args : list (pd R)) (axes : pd R -> list string) :
  (forall p, In p args -> valid_pd p (axes p)) ->
  (exists p, In p args /\ axes p <> []) \/ (2 <= length args /\ forall p, In p args -> p_marg p <> []) ->
  (forall p q k, In p args -> In q args -> In k (axes p) -> In k (axes q) -> entry p k = entry q k) ->
  (forall p q k, In p args -> In q args -> In k (p_keylist p) -> In k (p_keylist q) -> variable p k = variable q k) ->
  (forall l1 p l2 q l3 k, args = l1 ++ p :: l2 ++ q :: l3 -> counted p k -> ~ In k (p_keylist q)) ->
  NoDup (marginals args) ->
  (forall p q k k', In p args -> In q args -> unbound args p k -> unbound args q k' -> In k (od_keys (p_cond q))) ->
  (forall l1 p l2 q l3 k, args = l1 ++ p :: l2 ++ q :: l3 -> unbound args p k -> unbound args q k -> ~ In k (axes p)) ->
  (forall p, In p args -> linear_scale (spec_of (p_pscale p))) \/ (forall p, In p args -> plain_scale (spec_of (p_pscale p))) ->
  exists q L, product args PSNone = Ok (Some q) /\ valid_pd q L /\
    (p_keylist q = od_keys (p_marg q) ++ od_keys (p_cond q) /\ key_ordered q L) /\
    od_keys (p_marg q) = marginals args /\
    (forall k, In k (od_keys (p_cond q)) <-> In k (conditionals args) /\ ~ In k (marginals args)) /\
    (forall p k, In p args -> In k (p_keylist p) -> variable q k = variable p k) /\
    (forall p k, In p args -> In k (p_keylist p) -> entry q k = entry p k) /\
    (linear_scale (spec_of (p_pscale q)) \/ plain_scale (spec_of (p_pscale q))) /\
    factor (spec_of (p_pscale q)) = Rprod (map (fun p => factor (spec_of (p_pscale p))) args) /\
    (log_scaled q <-> exists p, In p args /\ log_scaled p) /\
    forall a, in_bounds q L a ->
      ((exists p, In p args /\ log_scaled p) -> forall p, In p args -> ~ log_scaled p -> (npz <= prob_at p (axes p) a)%R) ->
      prob_at q L a = Rprod (map (fun p => prob_at p (axes p) a) args).
Proof.
  intros V Hs Hp Hv Hu Hm Hf Hc Hsc.
  set (X := fun k => match find_values (map (fun a => p_vals a) args) k with Some v => var_of v | None => Scal VOther end).
  assert (HX : forall p k, In p args -> In k (p_keylist p) -> variable p k = Some (X k)).
  { intros p k I K. unfold X.
    assert (Q : forall l, incl l args -> In p l -> exists q v, In q args /\ od_get (p_vals q) k = Some v /\ find_values (map (fun a => p_vals a) l) k = Some v).
    { induction l as [|q l IH]; intros Il Ip; [destruct Ip|]. cbn [map find_values].
      destruct (od_get (p_vals q) k) as [v|] eqn:G.
      - exists q, v. split; [apply Il; left; reflexivity|]. auto.
      - destruct Ip as [->|Ip]; [apply od_key_get in K; destruct K as (w & K); unfold p_vals in *; congruence|].
        apply IH; auto. intros x Hx. apply Il. right. exact Hx. }
    destruct (Q args (incl_refl _) I) as (q & v & Iq & G & ->).
    assert (Kq : In k (p_keylist q)) by (eapply od_get_some_key; eauto).
    rewrite (Hv p q k I Iq K Kq). unfold variable. rewrite G. reflexivity. }
  set (N := fun k => match find (fun p => mem_str k (axes p)) args with
                     | Some p => match entry p k with Some e => e | None => k end | None => k end).
  assert (HN : forall p k, In p args -> In k (axes p) -> od_get (p_marg p ++ p_cond p) k = Some (N k)).
  { intros p k I K. change (entry p k = Some (N k)). unfold N.
    destruct (find (fun p => mem_str k (axes p)) args) as [q|] eqn:Ef.
    - apply find_some in Ef. destruct Ef as [Iq Kq]. apply mem_str_iff in Kq. rewrite (Hp p q k I Iq K Kq).
      assert (Q : In k (p_keylist q)) by (apply (vp_incl _ _ (V q Iq)); exact Kq).
      destruct (entry q k) as [e|] eqn:Ee; [reflexivity|]. exfalso. unfold entry in Ee. apply od_get_none in Ee. apply Ee.
      unfold od_keys. rewrite map_app. apply in_or_app. apply (vp_key_iff q (axes q) (V q Iq) k) in Q. exact Q.
    - exfalso. apply (find_none _ _ Ef) in I. apply mem_str_iff in K. congruence. }
  change (NoDup (allM args)) in Hm.
  assert (Hne : args <> []).
  { intros ->. destruct Hs as [(p & [] & _)|[L _]]. cbn in L. lia. }
  assert (Hu' : forall l1 p l2 q l3 k, args = l1 ++ p :: l2 ++ q :: l3 -> uns X k = true -> In k (p_keylist p) -> ~ In k (p_keylist q)).
  { intros l1 p l2 q l3 k Ea U K. assert (I : In p args) by (rewrite Ea; apply in_elt). apply (Hu l1 p l2 q l3 k Ea).
    destruct (held_value args X HX p k I K) as (v & G & E). unfold counted. rewrite G.
    rewrite <- (var_uns X v k E) in U. destruct v as [x|s|l|a|]; try discriminate. destruct l as [|[z| | | |] [|? ?]]; try discriminate. eauto. }
  assert (Hf' : forall p, In p args -> free args (od_keys (p_cond p)) = [] \/ incl (Fr args) (od_keys (p_cond p))).
  { intros p I. destruct (free args (od_keys (p_cond p))) as [|k0 l] eqn:E; [auto|right].
    assert (K0 : unbound args p k0).
    { assert (Q : In k0 (free args (od_keys (p_cond p)))) by (rewrite E; left; reflexivity). apply in_free in Q. exact Q. }
    intros k K. apply in_free in K. destruct K as [K1 K2]. apply in_allC in K1. destruct K1 as (r & Ir & Kr).
    apply (Hf r p k k0 Ir I); [split; [exact Kr|exact K2]|exact K0]. }
  assert (Hc' : NoDup (filter (col X) (Fr args))).
  { unfold Fr, free, allC. set (g := fun k => negb (mem_str k (allM args))).
    assert (Q : forall l l0, args = l0 ++ l -> NoDup (filter (col X) (filter g (flat_map (fun p => od_keys (p_cond p)) l)))).
    { induction l as [|p l IH]; intros l0 E; [constructor|]. cbn [flat_map]. rewrite !filter_app. apply nodup_app_iff. split.
      - apply filter_nodup, filter_nodup. assert (I : In p args) by (rewrite E; apply in_elt).
        apply (vp_marg_cond p (axes p) (V p I)).
      - split; [apply (IH (l0 ++ [p])); rewrite <- app_assoc; exact E|].
        intros k K1 K2. apply filter_In in K1. destruct K1 as [K1 C1]. apply filter_In in K1. destruct K1 as [K1 G1].
        apply filter_In in K2. destruct K2 as [K2 _]. apply filter_In in K2. destruct K2 as [K2 _].
        apply in_flat_map in K2. destruct K2 as (r & Ir & Kr). apply in_split in Ir. destruct Ir as (l2 & l3 & El). subst l.
        apply negb_true_iff, mem_str_false in G1.
        apply (Hc l0 p l2 r l3 k E); [split; [exact K1|exact G1]|split; [exact Kr|exact G1]|].
        assert (I : In p args) by (rewrite E; apply in_elt).
        apply (held_axis args axes X V HX p k I); [|exact C1]. apply (vp_key_iff p (axes p) (V p I)). auto. }
    apply (Q args []). reflexivity. }
  assert (Hsc' : scales_fit (map (fun a => spec_of (p_pscale a)) args)).
  { destruct Hsc as [HL|HP].
    + left. apply Forall_forall. intros s I. apply in_map_iff in I. destruct I as (p & <- & I). auto.
    + assert (FP : Forall plain_scale (map (fun a => spec_of (p_pscale a)) args)).
      { apply Forall_forall. intros s I. apply in_map_iff in I. destruct I as (p & <- & I). auto. }
      destruct (existsb iscomplex (map (fun a => spec_of (p_pscale a)) args)) eqn:E; [right; auto|left].
      apply Forall_forall. intros s I. rewrite Forall_forall in FP. destruct (FP s I) as [-> | ->].
      * split; [split; cbn; [exact Logic.I|lra]|]. unfold log_kind. destruct (Req_EM_T 1 0); [lra|reflexivity].
      * exfalso. assert (Q : existsb iscomplex (map (fun a => spec_of (p_pscale a)) args) = true); [|congruence].
        apply existsb_exists. exists (PSCplx 0%R 0%R). auto. }
  assert (MAIN : exists q, product args PSNone = Ok (Some q) /\ valid_pd q (Ls args X) /\
    p_marg q = map (kent X N) (allM args) /\ p_cond q = map (kent X N) (dedup_str (Fr args)) /\
    p_keylist q = dedup_str (ks args) /\
    (forall k, In k (p_keylist q) <-> In k (ks args)) /\
    (forall k, In k (ks args) -> variable q k = Some (X k)) /\
    (scales_fit [spec_of (p_pscale q)] /\
     factor (spec_of (p_pscale q)) = Rprod (map factor (map (fun a => spec_of (p_pscale a)) args)) /\
     log_kind (spec_of (p_pscale q)) = existsb log_kind (map (fun a => spec_of (p_pscale a)) args)) /\
    forall a, (forall k, In k (Ls args X) -> a k < csz X k) ->
      ((exists p, In p args /\ log_scaled p) -> forall p, In p args -> ~ log_scaled p -> (npz <= prob_at p (axes p) a)%R) ->
      prob_at q (Ls args X) a = Rprod (map (fun p => prob_at p (axes p) a) args)).
  { destruct Hs as [Hs|[L2 MN]].
    - apply product_ok; auto. intros ps _. unfold short_cut. rewrite (not_fast args axes V Hs). reflexivity.
    - destruct (product_pscale PSNone (map (fun a => spec_of (p_pscale a)) args)) as [ps|] eqn:Ep; [|apply product_ok; auto; intros ps E; congruence].
      destruct (short_cut args ps) eqn:SC.
      + destruct (product_fast args axes X N) with (ps := ps) as (q & Q1 & Q2 & Q3 & Q4 & Q5 & Q6 & Q7 & Q8 & Q9); auto 20.
        exists q. auto 20.
      + apply product_ok; auto. intros ps' E. congruence. }
  destruct MAIN as (q & Eq & Vq & Mq & Cq & KLq & Kq & Vr & (Sf & Sfa & Slk) & G).
  exists q, (Ls args X). split; [exact Eq|]. split; [exact Vq|].
    split.
    { assert (OKk : forall l, od_keys (map (kent X N) l) = l) by (intros l; unfold od_keys; rewrite map_map; apply map_id).
      rewrite Mq, Cq, !OKk. unfold key_ordered. rewrite KLq. split.
      - unfold ks. apply dedup_disjoint; [exact Hm|]. intros k K1 K2. apply in_free in K2. tauto.
      - rewrite <- dedup_filter. rewrite <- (dedup_nodup_id (Ls args X)) at 1 by apply (vp_axes _ _ Vq). f_equal.
        unfold Ls at 1. apply filter_ext_in. intros k K. destruct (col X k) eqn:C; symmetry.
        + apply mem_str_iff. apply filter_In. auto.
        + apply mem_str_false. intros Q. apply filter_In in Q. destruct Q. congruence. }
    split; [rewrite Mq; unfold od_keys; rewrite map_map; apply map_id|].
    split. { intros k. rewrite Cq. unfold od_keys. rewrite map_map. cbn [kent fst]. rewrite map_id, dedup_in. apply in_free. }
    split. { intros p k I K. rewrite (HX p k I K). apply Vr. apply (held_ks args axes V). eauto. }
    split. { intros p k I K. change (entry p k) with (od_get (p_marg p ++ p_cond p) k).
      rewrite (held_entry args axes X N V HX HN p k I K). unfold entry. rewrite Mq, Cq, <- map_app.
      apply od_in_get.
      - unfold od_keys. rewrite map_map. cbn [kent fst]. rewrite map_id. apply nodup_app_iff. split; [exact Hm|].
        split; [apply dedup_nodup|]. intros k' Ka Kb. apply dedup_in, in_free in Kb. tauto.
      - apply in_map_iff. exists k. split; [reflexivity|]. assert (Q : In k (ks args)) by (apply (held_ks args axes V); eauto).
        unfold ks in Q. rewrite in_app_iff in *. rewrite dedup_in. exact Q. }
    split. { destruct Sf as [Q|[Q _]]; inversion Q; auto. }
    split. { rewrite Sfa, map_map. reflexivity. }
    split. { unfold log_scaled. rewrite Slk, existsb_exists. split.
      - intros (sc & Isc & Hk). apply in_map_iff in Isc. destruct Isc as (p & <- & Ip). eauto.
      - intros (p & Ip & Hk). exists (spec_of (p_pscale p)). split; [|exact Hk]. apply in_map_iff. eauto. }
    intros a Ha Hn. apply G; [|exact Hn]. intros k K. specialize (Ha k K). unfold size_of in Ha.
    rewrite Vr in Ha by (apply filter_In in K; tauto). exact Ha.
Qed.

Lemma product_multipliable (args : list (pd R)) (axes : pd R -> list string) :
  multipliable args axes ->
  exists q L, product args PSNone = Ok (Some q) /\ valid_pd q L /\
    (p_keylist q = od_keys (p_marg q) ++ od_keys (p_cond q) /\ key_ordered q L) /\
    od_keys (p_marg q) = marginals args /\
    (forall k, In k (od_keys (p_cond q)) <-> In k (conditionals args) /\ ~ In k (marginals args)) /\
    (forall p k, In p args -> In k (p_keylist p) -> variable q k = variable p k) /\
    (forall p k, In p args -> In k (p_keylist p) -> entry q k = entry p k) /\
    (linear_scale (spec_of (p_pscale q)) \/ plain_scale (spec_of (p_pscale q))) /\
    factor (spec_of (p_pscale q)) = Rprod (map (fun p => factor (spec_of (p_pscale p))) args) /\
    (log_scaled q <-> exists p, In p args /\ log_scaled p) /\
    forall a, in_bounds q L a -> log_safe args axes a ->
      prob_at q L a = Rprod (map (fun p => prob_at p (axes p) a) args).
Proof. intros [H1 H2 H3 H4 H5 H6 H7 H8 H9]. apply product_pointwise; auto. Qed.

End Pointwise.
