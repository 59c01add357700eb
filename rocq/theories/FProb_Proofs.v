(** Proofs about probabilities of fields. *)
From Coq Require Import String ZArith Bool Arith Lia List Reals Lra.
From Verif Require Import Base Num Tensor RNumLemmas TensorLemmas TensorBcast OdLemmas PScales PScales_Spec PScales_Proofs PScales_Prod PScales_Request
  Names PDModel PDUtils PD_Product2 RVModel SymModel ProbModel ProbO_Spec ProbO_Proofs FProbModel FProb_Spec.
Import ListNotations.
Set Implicit Arguments.

(** ** Scales *)

Lemma bcast_scalars (xs : list R) : xs <> [] -> bcast_all (map shape (map (fun x => tscalar x) xs)) = Ok [].
Proof.
  destruct xs as [|x xs]; [congruence|intros _]. unfold bcast_all. cbn [map]. change (shape (tscalar x)) with (@nil nat).
  induction xs as [|u l IH]; [reflexivity|]. cbn [map fold_res]. change (shape (tscalar u)) with (@nil nat).
  destruct l; [reflexivity|]. exact IH.
Qed.

Lemma natural_specs (ss : list (pspec R)) (xs : list R) : ss <> [] -> scales_fit ss -> length ss = length xs ->
  exists q t, product_pscale PSNone ss = Ok (spec_of q) /\ eval_pscale (spec_of q) = Ok q /\
    prod_rule (map (fun x => tscalar x) xs) (Some ss) None (Some (spec_of q)) = Ok (t, spec_of q) /\
    factor (spec_of q) = Rprod (map factor ss) /\ log_kind (spec_of q) = existsb log_kind ss /\
    ((existsb iscomplex ss = true -> Forall2 (fun x s => log_kind s = false -> (npz <= x)%R) xs ss) ->
     denote (spec_of q) (Tensor.get t []) = Rprod (zip_with (fun x s => denote s x) xs ss)).
Proof.
  intros NS FT L. assert (NX : xs <> []) by (intros ->; destruct ss; [congruence|discriminate]).
  set (ts := map (fun x => tscalar x) xs).
  destruct (prod_rule_scaled ts ss []) as (t & ps & psc & E1 & E2 & _ & E3 & E4 & _ & (E5 & E6) & E7).
  - unfold ts. destruct xs; [congruence|discriminate].
  - unfold ts. rewrite map_length. exact L.
  - exact FT.
  - apply bcast_scalars. exact NX.
  - assert (Q : spec_of psc = ps).
    { destruct FT as [FL|[FP C]].
      + assert (Cx : existsb iscomplex ss = false).
        { apply not_true_is_false. intros C. apply existsb_exists in C. destruct C as (sc & Isc & C). rewrite Forall_forall in FL.
          apply FL in Isc. destruct Isc as [_ Q]. destruct sc; discriminate. }
        unfold product_pscale in E1. cbn [truthy] in E1. rewrite prod_pscale_default, Cx, prod_pscale_lin in E1; auto.
        2:{ eapply Forall_impl; [|exact FL]. intros sc [Q _]. exact Q. }
        2:{ eapply Forall_impl; [|exact FL]. intros sc [_ Q] U'. rewrite U' in Q. discriminate. }
        cbn [bind] in E1. assert (Ps : spec_of (Lin (Rprod (map factor ss))) = ps) by congruence. rewrite <- Ps in E3 |- *.
        rewrite eval_spec_of in E3; [congruence|].
        cbn [p_ok]. assert (0 < Rprod (map factor ss))%R; [|lra].
        clear -FL. induction FL as [|x l [Vx _] FL IH]; cbn; [lra|]. apply Rmult_lt_0_compat; [apply factor_pos; exact Vx|exact IH].
      + destruct (prod_rule_plain_log ts ss []) as (t' & E & _); auto.
        * unfold ts. destruct xs; [congruence|discriminate].
        * unfold ts. rewrite map_length. exact L.
        * apply bcast_scalars. exact NX.
        * apply natural_scale in E; auto. assert (ps = PSCplx 0%R 0%R) by congruence. subst ps.
          rewrite eval_log_spellings in E3 by (cbn; auto 6). injection E3 as <-. reflexivity. }
    exists psc, t. rewrite Q. split; [exact E1|]. split; [exact E3|]. split; [exact E2|]. rewrite <- Q. split; [exact E5|]. split; [exact E6|].
    intros F. rewrite E7.
    + f_equal. unfold factors_at, ts. clear. revert ss. induction xs as [|x xs IH]; intros [|s ss]; try reflexivity.
      cbn [map zip_with]. rewrite IH. reflexivity.
    + constructor.
    + intros C. specialize (F C). unfold ts. clear -F. induction F; cbn [map]; constructor; auto.
Qed.

Lemma prod_rule_none (args : list (tensor R)) ss ps : product_pscale PSNone ss = Ok ps ->
  prod_rule args (Some ss) None None = prod_rule args (Some ss) None (Some ps).
Proof.
  unfold product_pscale. cbn [truthy]. rewrite prod_pscale_default. intros H. unfold prod_rule.
  destruct (prod_pscale ss (Some (existsb iscomplex ss))) as [p|e]; cbn [bind] in *; [|reflexivity]. injection H as <-. reflexivity.
Qed.

Section Fields.
Context {E X : Type} (repr : E -> string) (log_of : E -> E) (ev : E -> list (string * X) -> result R) (emul : E -> E -> E).
Notation fpvar := (fpvar R E X).
Notation ffield := (ffield R E X).
Notation fresh := (fresh repr log_of).
Notation gives := (gives ev).
Notation own_symbol := (own_symbol ev).
Notation times := (times ev emul).
Notation make_ff := (make_ff repr log_of emul).
Notation field_set := (field_set repr log_of emul).
Notation default_prob := (default_prob repr log_of emul).
Notation ff_change := (ff_change repr log_of emul).
Notation ff_run := (ff_run repr log_of emul).
Notation ff_call := (ff_call ev).

Implicit Types (v : fpvar) (vs : list fpvar) (f : ffield).

(** ** Variables *)

Lemma fresh_expr v : fresh v -> iconic v -> exists e, fp_prob v = Some (EExpr e) /\ forall a, eval_prob ev (fp_obj v) a = ev e a.
Proof.
  intros (v0 & g & q & H) IC. unfold var_set in H.
  destruct (set_prob repr log_of (fp_obj v0) g q) as [o [x|]] eqn:S; [discriminate|]. injection H as <-.
  unfold iconic in IC. cbn [fp_icon fp_prob fp_obj] in *.
  assert (Z : forall a, exists e, shown o = Some (EExpr e) /\ eval_prob ev o a = ev e a).
  2:{ unfold eval_prob, get, shown in *. destruct (lookup _ _) as [[e| | |]|] eqn:LL.
      - exists e. split; [reflexivity|]. intros a. reflexivity.
      - exfalso. destruct g as [f|e|d'|r]; cbn in IC; try discriminate.
        + unfold set_prob in S. destruct (new_pscale q _); [|discriminate]. injection S as <-. cbn in LL. discriminate.
        + destruct (Z []) as (e & C & _). discriminate.
      - exfalso. destruct (Z []) as (e & C & _). discriminate.
      - exfalso. destruct (Z []) as (e & C & _). discriminate.
      - exfalso. destruct (Z []) as (e & C & _). discriminate. }
  intros a. assert (AC : snd (ProbModel.change repr log_of (fp_obj v0) (SetProb g q)) = None) by (cbn; rewrite S; reflexivity).
  pose proof AC as AC'. apply accepted_iff in AC' as [[sc Q] F].
  destruct g as [f|e|d|r]; cbn in IC; try discriminate.
  - unfold set_prob in S. rewrite Q in S. injection S as <-. exists e. split; reflexivity.
  - destruct (set_sympy repr log_of (fp_obj v0) q F Q) as (oo & _ & S'). rewrite S' in S. injection S as <-.
    unfold shown, eval_prob, get. cbn [po_partials po_kind po_scale]. rewrite lookup_put.
    replace (okey_eqb (Some (if is_log sc then "logp" else "prob")%string) (Some "sfun"%string)) with false by (destruct (is_log sc); reflexivity).
    destruct F as (_ & _ & P). destruct (@dist_lookup E (list (string * X)) R repr log_of r (is_log sc) P) as (e & Pe & ->).
    eexists. split; reflexivity.
Qed.

(** Made with a probability at once, a variable is iconic if that is a number or an
    expression; given a distribution later it stays what it was. *)
Lemma icon_made name g q v : var_set repr log_of (new_var name) g q = Ok v -> (iconic v <-> exists e, g = GNum e).
Proof.
  unfold var_set. destruct (set_prob _ _ _ g q) as [o [x|]]; [discriminate|]. intros H. injection H as <-. unfold iconic. cbn.
  destruct g as [f|e|d|r]; cbn; split; try discriminate; try (intros (e' & C); discriminate); eauto.
Qed.
Lemma icon_sympy v0 r q v : var_set repr log_of v0 (GSympy r) q = Ok v -> (iconic v <-> iconic v0).
Proof.
  unfold var_set. destruct (set_prob _ _ _ _ q) as [o [x|]]; [discriminate|]. intros H. injection H as <-. reflexivity.
Qed.

(** ** The product of expressions *)

Lemma icon_forallb vs : forallb (fun v => match fp_icon v with Some b => b | None => false end) vs = true <-> Forall iconic vs.
Proof.
  rewrite forallb_forall, Forall_forall. unfold iconic. split; intros H v I; specialize (H v I).
  - destruct (fp_icon v) as [[]|]; congruence.
  - rewrite H. reflexivity.
Qed.

Lemma icon_prod_ok vs : vs <> [] -> Forall fresh vs -> Forall iconic vs ->
  exists e, icon_prod emul vs = Ok (Some e) /\
    (times -> forall values xs, gives vs values xs -> Forall own_symbol vs -> ev e values = Ok (Rprod xs)).
Proof.
  intros NE F IC.
  assert (ONE : forall v, fresh v -> iconic v -> exists e, fp_prob v = Some (EExpr e) /\
    forall values x, own_symbol v -> var_call ev v values = Ok x -> ev e values = Ok x).
  { intros v Fv Iv. destruct (fresh_expr Fv Iv) as (e & P & C). exists e. split; [exact P|]. intros values x O V.
    unfold var_call in V. destruct (find _ values) as [kx|] eqn:FD; [|discriminate].
    rewrite (O e values kx P FD). rewrite <- C. exact V. }
  assert (GEN : forall vs, Forall fresh vs -> Forall iconic vs -> forall p, exists e,
    fold_res (fun acc v => match fp_prob v with Some (EExpr e) => Ok (Some (match acc with Some p => emul p e | None => e end)) | _ => Err TypeError end) vs (Some p) = Ok (Some e) /\
    (times -> forall values xs y, gives vs values xs -> Forall own_symbol vs -> ev p values = Ok y -> ev e values = Ok (y * Rprod xs)%R)).
  { clear vs NE F IC. induction vs as [|v vs IH]; intros F IC p.
    - exists p. split; [reflexivity|]. intros _ values xs y G _ P. inversion G. subst. cbn. rewrite Rmult_1_r. exact P.
    - inversion F as [|? ? F1 F2]; subst. inversion IC as [|? ? I1 I2]; subst. destruct (ONE v F1 I1) as (e & P & C).
      destruct (IH F2 I2 (emul p e)) as (e' & R1 & R2). exists e'. split.
      + cbn [fold_res]. rewrite P. cbn [bind]. exact R1.
      + intros TM values xs y G O Py. inversion G as [|? x ? xs' G1 G2]; subst. inversion O as [|? ? O1 O2]; subst.
        rewrite (R2 TM values xs' (y * x)%R G2 O2 (TM _ _ _ _ _ Py (C _ _ O1 G1))). f_equal. unfold Rprod. cbn [fold_right]. ring. }
  destruct vs as [|v vs]; [congruence|]. inversion F as [|? ? F1 F2]; subst. inversion IC as [|? ? I1 I2]; subst.
  destruct (ONE v F1 I1) as (e & P & C). destruct (GEN vs F2 I2 e) as (e' & R1 & R2). exists e'. split.
  - unfold icon_prod. cbn [fold_res]. rewrite P. cbn [bind]. exact R1.
  - intros TM values xs G O. inversion G as [|? x ? xs' G1 G2]; subst. inversion O as [|? ? O1 O2]; subst.
    rewrite (R2 TM values xs' x G2 O2 (C _ _ O1 G1)). reflexivity.
Qed.

(** ** Making fields *)

Lemma good_fit vs : scales_good vs -> scales_fit (map fp_scale vs).
Proof. exact (fun H => H). Qed.

Lemma joint_ok vs : vs <> [] -> scales_good vs -> exists q, joint_scale vs = Ok (spec_of q) /\ eval_pscale (spec_of q) = Ok q.
Proof.
  intros NE G. destruct (@natural_specs (map fp_scale vs) (map (fun _ => 1%R) vs)) as (q & t & E1 & E2 & _).
  - destruct vs; [congruence|discriminate].
  - exact G.
  - rewrite !map_length. reflexivity.
  - exists q. auto.
Qed.

Lemma new_same (q : pscale R) : eval_pscale (spec_of q) = Ok q -> new_pscale (spec_of q) (spec_of q) = Ok q.
Proof. intros Q. unfold new_pscale. destruct (ps_true (spec_of q)); exact Q. Qed.

(** What set_prob() leaves. *)
Lemma default_shape f f' : ff_prob f = None -> default_prob f = Ok f' ->
  ff_vars f' = ff_vars f /\ (ff_prob f' = None \/ ff_def f' = true) /\ (ff_prob f' <> None <-> Forall iconic (ff_vars f)) /\
  new_pscale (ff_scale f) (ff_scale f) = Ok (po_scale (ff_obj f')) \/
  ff_vars f' = ff_vars f /\ ff_prob f' = None /\ ~ Forall iconic (ff_vars f) /\ f' = f.
Proof.
  intros N0 H. unfold default_prob in H. destruct (forallb _ (ff_vars f)) eqn:FI.
  - apply icon_forallb in FI. left. destruct (icon_prod emul (ff_vars f)) as [[e|]|x]; cbn [bind] in H; try discriminate.
    unfold set_prob in H. change (spec_of (po_scale (ff_obj f))) with (ff_scale f) in H.
    destruct (new_pscale (ff_scale f) (ff_scale f)) as [s|x] eqn:Q; [|discriminate]. injection H as <-. cbn.
    repeat split; auto; try discriminate.
  - right. injection H as <-. repeat split; auto. intros C. apply icon_forallb in C. congruence.
Qed.

Lemma default_vars f f' : ff_prob f = None -> default_prob f = Ok f' ->
  ff_vars f' = ff_vars f /\ (ff_prob f' = None \/ ff_def f' = true) /\ (ff_prob f' <> None <-> Forall iconic (ff_vars f)).
Proof.
  intros N0 H. destruct (default_shape _ N0 H) as [(A & B & C & _)|(A & B & C & ->)]; [auto|].
  split; [exact A|]. split; [left; exact B|]. split; [intros D; contradiction|intros D; contradiction].
Qed.

Lemma set_none_shape f q f' : field_set f None q = Ok f' ->
  ff_vars f' = ff_vars f /\ (ff_prob f' = None \/ ff_def f' = true) /\ (ff_prob f' <> None <-> Forall iconic (ff_vars f)).
Proof.
  unfold field_set. destruct (match q with Some q => Ok q | None => joint_scale (ff_vars f) end) as [q'|x]; cbn [bind]; [|discriminate].
  destruct (new_pscale q' (ff_scale f)) as [s|x]; cbn [bind]; [|discriminate]. intros H. apply default_vars in H; [|reflexivity]. exact H.
Qed.

Lemma make_shape vs f : make_ff vs = Ok f -> vs <> [] /\ ff_vars f = vs /\ (ff_prob f = None \/ ff_def f = true) /\
  (ff_prob f <> None <-> Forall iconic vs).
Proof.
  unfold make_ff. destruct vs as [|v vs]; [discriminate|]. unfold refresh. cbn [ff_vars].
  destruct (joint_scale (v :: vs)) as [q|x]; cbn [bind]; [|discriminate]. destruct (eval_pscale q) as [s|x]; cbn [bind]; [|discriminate].
  intros H. apply set_none_shape in H as (A & B & C). cbn [ff_vars] in *. split; [discriminate|]. auto.
Qed.

Lemma make_ok vs : vs <> [] -> scales_good vs -> Forall fresh vs -> exists f q, make_ff vs = Ok f /\ ff_vars f = vs /\
  joint_scale vs = Ok (spec_of q) /\ eval_pscale (spec_of q) = Ok q /\ po_scale (ff_obj f) = q /\ (ff_prob f = None \/ ff_def f = true) /\
  (Forall iconic vs -> exists e, ff_prob f = Some (EExpr e) /\
     (times -> forall values xs, gives vs values xs -> Forall own_symbol vs -> ev e values = Ok (Rprod xs))).
Proof.
  intros NE G F. destruct (joint_ok NE G) as (q & J & Q).
  assert (M : make_ff vs = default_prob (mkFF vs (with_exprs (with_partials (with_scale (with_scale blank q) q) KFun []) (Some [])) None false)).
  { destruct vs as [|v vs]; [congruence|]. unfold make_ff, refresh. cbn [ff_vars]. rewrite J. cbn [bind]. rewrite Q. cbn [bind].
    unfold field_set. cbn [ff_vars]. rewrite J. cbn [bind]. unfold ff_scale. cbn [ff_obj]. change (po_scale (with_scale blank q)) with q.
    rewrite new_same by exact Q. reflexivity. }
  unfold default_prob in M. destruct (forallb _ _) eqn:FI in M.
  - apply icon_forallb in FI. cbn [ff_vars] in *. destruct (icon_prod_ok NE F FI) as (e & P & V). rewrite P in M. cbn [bind] in M.
    unfold set_prob in M. cbn [ff_obj] in M. unfold ff_scale in M. cbn [ff_obj with_exprs with_partials with_scale po_scale] in M.
    rewrite new_same in M by exact Q. eexists. exists q. split; [exact M|]. repeat split; auto. intros _. exists e. split; [reflexivity|exact V].
  - eexists. exists q. split; [exact M|]. cbn [ff_vars ff_prob]. repeat split; auto. intros I. exfalso. cbn [ff_vars] in FI. apply icon_forallb in I. congruence.
Qed.

(** set_prob() makes the product anew. *)
Lemma set_none_ok f q f' : field_set f None q = Ok f' -> ff_vars f <> [] -> Forall fresh (ff_vars f) -> Forall iconic (ff_vars f) ->
  exists e, ff_prob f' = Some (EExpr e) /\
    (times -> forall values xs, gives (ff_vars f) values xs -> Forall own_symbol (ff_vars f) -> ev e values = Ok (Rprod xs)).
Proof.
  unfold field_set. destruct (match q with Some q => Ok q | None => joint_scale (ff_vars f) end) as [q'|x]; cbn [bind]; [|discriminate].
  destruct (new_pscale q' (ff_scale f)) as [s|x]; cbn [bind]; [|discriminate]. intros H NE F I. unfold default_prob in H. cbn [ff_vars] in H.
  rewrite (proj2 (icon_forallb (ff_vars f)) I) in H. destruct (icon_prod_ok NE F I) as (e & P & V). rewrite P in H. cbn [bind] in H.
  unfold set_prob in H. destruct (new_pscale _ _); [|discriminate]. injection H as <-. exists e. split; [reflexivity|exact V].
Qed.

(** ** Calls *)

Lemma told_seteq vs values : told vs values -> seteq_str (map fst values) (map (@fp_name R E X) vs) = true.
Proof. intros H. apply seteq_str_iff. split; intros k I; apply H; exact I. Qed.

Lemma gives_res vs values xs : gives vs values xs -> map_res (fun v => var_call ev v values) vs = Ok xs.
Proof. intros G. induction G as [|v x vs xs G1 G IH]; [reflexivity|]. cbn. rewrite G1. cbn [bind]. cbn in IH. rewrite IH. reflexivity. Qed.

Definition plain f : Prop := ff_prob f = None \/ ff_def f = true.

Lemma plain_call f values : plain f -> told (ff_vars f) values ->
  ff_call f values = match ff_vars f with
    | [v] => var_call ev v values
    | vs =>
        let scales := map fp_scale vs in
        let! ps := product_pscale (ff_scale f) scales in
        let! probs := map_res (fun v => var_call ev v values) vs in
        let! (t, _) := prod_rule (map (fun x => tscalar x) probs) (Some scales) None (Some ps) in
        Ok (Tensor.get t [])
    end.
Proof.
  intros P Td. unfold ff_call. rewrite (told_seteq Td). cbn [assert_ bind].
  destruct P as [->| ->]; [reflexivity|]. destruct (ff_prob f); reflexivity.
Qed.

Lemma zip_gives vs xs (l : list (pspec R)) : zip_with (fun x s => denote s x) xs (map fp_scale vs) =
  zip_with (fun v x => denote (fp_scale v) x) vs xs.
Proof. revert xs. induction vs as [|v vs IH]; intros [|x xs]; try reflexivity. cbn. rewrite IH. reflexivity. Qed.

Lemma joint_product vs q : vs <> [] -> joint_scale vs = Ok q -> product_pscale PSNone (map fp_scale vs) = Ok q.
Proof. intros _ H. exact H. Qed.

(** A field without probability of its own, whose scale is the product of its variables'
    scales, multiplies what the variables give. *)
Lemma current_call f values xs : plain f -> ff_vars f <> [] -> scales_good (ff_vars f) ->
  joint_scale (ff_vars f) = Ok (ff_scale f) -> told (ff_vars f) values -> gives (ff_vars f) values xs -> loggable (ff_vars f) xs ->
  exists y, ff_call f values = Ok y /\ denote (ff_scale f) y = Rprod (zip_with (fun v x => denote (fp_scale v) x) (ff_vars f) xs).
Proof.
  intros P NE G J Td Gv LG. rewrite (plain_call P Td).
  assert (LN : length (map fp_scale (ff_vars f)) = length xs) by (rewrite map_length; exact (Forall2_length Gv)).
  destruct (@natural_specs (map fp_scale (ff_vars f)) xs) as (q & t & E1 & E2 & E3 & E4 & E5 & E6); auto.
  { destruct (ff_vars f); [congruence|discriminate]. }
  assert (SQ : spec_of q = ff_scale f) by (unfold joint_scale in J; unfold product_pscale in E1; cbn [truthy] in E1; congruence).
  assert (D : denote (ff_scale f) (Tensor.get t []) = Rprod (zip_with (fun v x => denote (fp_scale v) x) (ff_vars f) xs)).
  { rewrite <- SQ, E6; [rewrite zip_gives by exact []; reflexivity|]. intros C. specialize (LG C). clear -LG.
    induction LG; cbn [map]; constructor; auto. }
  assert (MULTI : (let! ps := product_pscale (ff_scale f) (map fp_scale (ff_vars f)) in
        let! probs := map_res (fun v => var_call ev v values) (ff_vars f) in
        let! (t, _) := prod_rule (map (fun x => tscalar x) probs) (Some (map fp_scale (ff_vars f))) None (Some ps) in
        Ok (Tensor.get t [])) = Ok (Tensor.get t [])).
  { assert (PP : product_pscale (ff_scale f) (map fp_scale (ff_vars f)) = Ok (ff_scale f)).
    { unfold product_pscale. destruct (truthy (ff_scale f)); [reflexivity|]. rewrite SQ in E1. exact E1. }
    rewrite PP. cbn [bind]. rewrite (gives_res Gv). cbn [bind]. rewrite <- SQ, E3. reflexivity. }
  destruct (ff_vars f) as [|v [|w vs]] eqn:EV; [congruence| |exists (Tensor.get t []); split; [exact MULTI|exact D]].
  inversion Gv as [|? x ? xs' G1 G2]; subst. inversion G2. subst. exists x. split; [exact G1|].
  rewrite <- SQ. unfold denote. rewrite E4, E5. cbn. rewrite !Rmult_1_r, orb_false_r. reflexivity.
Qed.

(** Linear scales: the number is the product of the numbers. *)
Lemma linear_call f values xs : plain f -> ff_vars f <> [] -> Forall linear_scale (map fp_scale (ff_vars f)) ->
  joint_scale (ff_vars f) = Ok (ff_scale f) -> told (ff_vars f) values -> gives (ff_vars f) values xs -> ff_call f values = Ok (Rprod xs).
Proof.
  intros P NE FL J Td Gv.
  assert (NC : existsb iscomplex (map fp_scale (ff_vars f)) = false).
  { apply not_true_is_false. intros C. apply existsb_exists in C as (s & I & C). rewrite Forall_forall in FL. destruct (FL s I) as [_ K]. destruct s; discriminate. }
  destruct (@current_call f values xs P NE (or_introl FL) J Td Gv) as (y & Y & D).
  { intros C. congruence. }
  rewrite Y. f_equal.
  destruct (@natural_specs (map fp_scale (ff_vars f)) xs) as (q & t & E1 & _ & _ & E4 & E5 & _).
  { destruct (ff_vars f); [congruence|discriminate]. } { left. exact FL. } { rewrite map_length. exact (Forall2_length Gv). }
  assert (SQ : spec_of q = ff_scale f) by (unfold joint_scale in J; unfold product_pscale in E1; cbn [truthy] in E1; congruence).
  rewrite <- SQ in D. unfold denote at 1 in D. rewrite E4, E5 in D.
  assert (NL : existsb log_kind (map fp_scale (ff_vars f)) = false).
  { apply not_true_is_false. intros C. apply existsb_exists in C as (s & I & C). rewrite Forall_forall in FL. destruct (FL s I) as [_ K]. congruence. }
  rewrite NL in D. clear -D FL Gv. unfold Rprod in *.
  assert (PS : (0 < fold_right Rmult 1 (map factor (map fp_scale (ff_vars f))))%R /\
    fold_right Rmult 1%R (zip_with (fun v x => denote (fp_scale v) x) (ff_vars f) xs) =
    (fold_right Rmult 1 (map factor (map fp_scale (ff_vars f))) * fold_right Rmult 1 xs)%R).
  { clear D. induction Gv as [|v x vs xs G1 Gv IH]; cbn; [lra|]. inversion FL as [|? ? [V K] FL']; subst. destruct (IH FL') as [A B].
    pose proof (factor_pos _ V) as FP. split; [apply Rmult_lt_0_compat; assumption|]. rewrite B. unfold denote. rewrite K. lra. }
  destruct PS as [PS1 PS2]. rewrite PS2 in D. apply Rmult_eq_reg_l in D; lra.
Qed.

(** Plain scales of logarithms: the number is the sum of the numbers. *)
Lemma log_call f values xs : plain f -> ff_vars f <> [] -> Forall (fun s => s = PSCplx 0%R 0%R) (map fp_scale (ff_vars f)) ->
  joint_scale (ff_vars f) = Ok (ff_scale f) -> told (ff_vars f) values -> gives (ff_vars f) values xs -> ff_call f values = Ok (Rsum xs).
Proof.
  intros P NE FL J Td Gv.
  assert (G : scales_good (ff_vars f)).
  { right. split; [eapply Forall_impl; [|exact FL]; intros s ->; right; reflexivity|].
    destruct (ff_vars f) as [|v vs]; [congruence|]. cbn [map] in *. inversion FL as [|? ? E0 _]; subst. cbn. rewrite E0. reflexivity. }
  destruct (@current_call f values xs P NE G J Td Gv) as (y & Y & D).
  { intros _. clear -FL Gv. induction Gv as [|v x vs xs G1 Gv IH]; constructor.
    - inversion FL as [|? ? E0 _]; subst. rewrite E0. discriminate.
    - apply IH. inversion FL; assumption. }
  rewrite Y. f_equal.
  destruct (@natural_specs (map fp_scale (ff_vars f)) xs) as (q & t & E1 & _ & _ & E4 & E5 & _).
  { destruct (ff_vars f); [congruence|discriminate]. } { exact G. } { rewrite map_length. exact (Forall2_length Gv). }
  assert (SQ : spec_of q = ff_scale f) by (unfold joint_scale in J; unfold product_pscale in E1; cbn [truthy] in E1; congruence).
  rewrite <- SQ in D. unfold denote at 1 in D. rewrite E4, E5 in D.
  assert (KL : existsb log_kind (map fp_scale (ff_vars f)) = true).
  { destruct (ff_vars f) as [|v vs]; [congruence|]. cbn [map] in *. inversion FL as [|? ? E0 _]; subst. cbn. rewrite E0. reflexivity. }
  rewrite KL in D. unfold Rprod, Rsum in *.
  assert (PS : fold_right Rmult 1%R (map factor (map fp_scale (ff_vars f))) = 1%R /\
    fold_right Rmult 1%R (zip_with (fun v x => denote (fp_scale v) x) (ff_vars f) xs) = exp (fold_right Rplus 0%R xs)).
  { clear -FL Gv. induction Gv as [|v x vs xs G1 Gv IH]; cbn [map fold_right zip_with]; [rewrite exp_0; auto|].
    inversion FL as [|? ? E0 FL']; subst. destruct (IH FL') as [A B].
    assert (F1 : factor (PSCplx 0%R 0%R) = 1%R) by (cbn; rewrite log_offset_0; apply exp_0).
    split; [rewrite A, E0, F1; lra|]. rewrite B, exp_plus. unfold denote. rewrite E0, F1. cbn [log_kind]. lra. }
  destruct PS as [PS1 PS2]. rewrite PS1, PS2 in D. apply exp_inv. lra.
Qed.

(** ** Histories *)

Lemma change_plain f c f' : plain f -> ~ gives_own c -> ff_change f c = Ok f' -> plain f'.
Proof.
  intros P NO H. destruct c as [i g q|i q|g q|q|v]; cbn in H.
  - destruct (upd _ _ _) as [vs|x]; cbn [bind] in H; [|discriminate]. injection H as <-. exact P.
  - destruct (upd _ _ _) as [vs|x]; cbn [bind] in H; [|discriminate]. injection H as <-. exact P.
  - destruct g as [g|]; [exfalso; apply NO; exists g, q; reflexivity|]. apply set_none_shape in H. destruct H as (_ & H & _). exact H.
  - destruct (set_pscale (ff_obj f) q) as [o [x|]]; [discriminate|]. injection H as <-. exact P.
  - unfold refresh in H. destruct (joint_scale _) as [q|x]; cbn [bind] in H; [|discriminate].
    destruct (eval_pscale q) as [s|x]; cbn [bind] in H; [|discriminate]. injection H as <-. exact P.
Qed.

Lemma run_plain h : forall f f', plain f -> (forall c, In c h -> ~ gives_own c) -> ff_run f h = Ok f' -> plain f'.
Proof.
  induction h as [|c h IH]; intros f f' P NO H.
  - injection H as <-. exact P.
  - unfold ff_run in H. cbn [fold_res] in H. destruct (ff_change f c) as [f1|x] eqn:C; cbn [bind] in H; [|discriminate].
    apply (IH f1 f'); [|intros d I; apply NO; right; exact I|exact H].
    eapply change_plain; [exact P| |exact C]. apply NO. left. reflexivity.
Qed.

Lemma change_stale f c f' : ~ sets_field c -> ff_change f c = Ok f' -> ff_prob f' = ff_prob f.
Proof.
  intros NO H. destruct c as [i g q|i q|g q|q|v]; cbn in H.
  - destruct (upd _ _ _) as [vs|x]; cbn [bind] in H; [|discriminate]. injection H as <-. reflexivity.
  - destruct (upd _ _ _) as [vs|x]; cbn [bind] in H; [|discriminate]. injection H as <-. reflexivity.
  - exfalso. apply NO. exists g, q. reflexivity.
  - destruct (set_pscale (ff_obj f) q) as [o [x|]]; [discriminate|]. injection H as <-. reflexivity.
  - unfold refresh in H. destruct (joint_scale _) as [q|x]; cbn [bind] in H; [|discriminate].
    destruct (eval_pscale q) as [s|x]; cbn [bind] in H; [|discriminate]. injection H as <-. reflexivity.
Qed.

Lemma run_stale h : forall f f', (forall c, In c h -> ~ sets_field c) -> ff_run f h = Ok f' -> ff_prob f' = ff_prob f.
Proof.
  induction h as [|c h IH]; intros f f' NO H.
  - injection H as <-. reflexivity.
  - unfold ff_run in H. cbn [fold_res] in H. destruct (ff_change f c) as [f1|x] eqn:C; cbn [bind] in H; [|discriminate].
    rewrite (IH f1 f'); [|intros d I; apply NO; right; exact I|exact H]. eapply change_stale; [|exact C]. apply NO. left. reflexivity.
Qed.

(** ** Scales of their own *)

Lemma scale_change f q f' : ff_change f (ChScale q) = Ok f' ->
  ff_vars f' = ff_vars f /\ ff_prob f' = ff_prob f /\ ff_def f' = ff_def f /\ eval_pscale q = Ok (po_scale (ff_obj f')).
Proof.
  cbn. unfold set_pscale. destruct (eval_pscale q) as [s|x]; [|discriminate]. intros H. injection H as <-. repeat split; reflexivity.
Qed.

(** The number a field gives never depends on the scale it is given; with more than one
    variable, a scale of the other kind that is not plain is refused. *)
Lemma scale_ignored f q f' values xs : plain f -> ff_vars f <> [] -> scales_good (ff_vars f) -> joint_scale (ff_vars f) = Ok (ff_scale f) ->
  told (ff_vars f) values -> gives (ff_vars f) values xs -> ff_change f (ChScale q) = Ok f' ->
  ff_call f' values =
    if (2 <=? length (ff_vars f)) && truthy (ff_scale f') && negb (Bool.eqb (iscomplex (ff_scale f')) (iscomplex (ff_scale f)))
    then Err ValueError else ff_call f values.
Proof.
  intros P NE G J Td Gv H. apply scale_change in H as (A & B & C & _).
  assert (P' : plain f') by (unfold plain; rewrite B, C; exact P).
  assert (Td' : told (ff_vars f') values) by (rewrite A; exact Td).
  rewrite (plain_call P Td), (plain_call P' Td'), A.
  assert (LN : length (map fp_scale (ff_vars f)) = length xs) by (rewrite map_length; exact (Forall2_length Gv)).
  destruct (@natural_specs (map fp_scale (ff_vars f)) xs) as (p & t & E1 & E2 & E3 & _); auto.
  { destruct (ff_vars f); [congruence|discriminate]. }
  assert (SQ : spec_of p = ff_scale f) by (unfold joint_scale in J; unfold product_pscale in E1; cbn [truthy] in E1; congruence).
  rewrite <- SQ.
  assert (NX : map (fun x => tscalar x) xs <> []).
  { intros Z. apply (f_equal (@length _)) in Z. rewrite map_length, <- LN, map_length in Z. destruct (ff_vars f); [congruence|discriminate]. }
  pose proof E3 as E3'. rewrite <- (prod_rule_none _ _ E1) in E3'.
  assert (PP : product_pscale (spec_of p) (map fp_scale (ff_vars f)) = Ok (spec_of p)).
  { unfold product_pscale. destruct (truthy (spec_of p)); [reflexivity|]. exact E1. }
  destruct (ff_vars f) as [|v [|w vs]] eqn:EV; [congruence| |].
  - cbn [length Nat.leb andb]. reflexivity.
  - cbn zeta. cbn [length Nat.leb andb]. rewrite (gives_res Gv). rewrite PP. cbn [bind]. rewrite E3. cbn [bind].
    unfold product_pscale at 1. unfold product_pscale in E1. cbn [truthy] in E1.
    destruct (truthy (ff_scale f')); cbn [andb].
    + cbn [bind]. rewrite (prod_rule_request _ _ _ _ (ff_scale f') E3' NX).
      destruct (Bool.eqb (iscomplex (ff_scale f')) (iscomplex (spec_of p))); reflexivity.
    + rewrite E1. cbn [bind]. rewrite E3. reflexivity.
Qed.

(** ** Theorems put together *)

Lemma numbers_multiplied vs : vs <> [] -> Forall fresh vs -> Forall iconic vs ->
  Forall linear_scale (map fp_scale vs) -> times -> Forall own_symbol vs ->
  exists f e, make_ff vs = Ok f /\ ff_prob f = Some (EExpr e) /\
    forall values xs, told vs values -> gives vs values xs -> ev e values = Ok (Rprod xs) /\ ff_call f values = Ok (Rprod xs).
Proof.
  intros NE F IC L TM O.
  destruct (make_ok NE (or_introl L) F) as (f & q & M & V & J & Q & S & P & H). destruct (H IC) as (e & Pe & Ge).
  exists f, e. split; [exact M|]. split; [exact Pe|]. intros values xs Td Gv. split; [apply Ge; assumption|].
  subst vs. apply linear_call; auto. unfold ff_scale. rewrite S. exact J.
Qed.

Lemma logs_multiplied vs : vs <> [] -> Forall fresh vs -> Forall iconic vs ->
  Forall (fun s => s = PSCplx 0%R 0%R) (map fp_scale vs) -> times -> Forall own_symbol vs ->
  exists f e, make_ff vs = Ok f /\ ff_prob f = Some (EExpr e) /\
    forall values xs, told vs values -> gives vs values xs -> ev e values = Ok (Rprod xs) /\ ff_call f values = Ok (Rsum xs).
Proof.
  intros NE F IC L TM O.
  assert (G : scales_good vs).
  { right. split; [eapply Forall_impl; [|exact L]; intros s ->; right; reflexivity|].
    destruct vs as [|v l]; [congruence|]. cbn [map] in L. inversion L as [|? ? E0 _]; subst. cbn. rewrite E0. reflexivity. }
  destruct (make_ok NE G F) as (f & q & M & V & J & Q & S & P & H). destruct (H IC) as (e & Pe & Ge).
  exists f, e. split; [exact M|]. split; [exact Pe|]. intros values xs Td Gv. split; [apply Ge; assumption|].
  subst vs. apply log_call; auto. unfold ff_scale. rewrite S. exact J.
Qed.

Lemma sympy_first name (r : rsym E) q v : var_set repr log_of (new_var name) (GSympy r) q = Ok v ->
  (exists e, fp_prob v = Some (EExpr e)) /\ ~ iconic v /\
  (forall vs f, In v vs -> make_ff vs = Ok f -> ff_prob f = None) /\
  (forall e q0 v0, var_set repr log_of (new_var name) (GNum e) q0 = Ok v0 ->
     forall v', var_set repr log_of v0 (GSympy r) q = Ok v' -> iconic v').
Proof.
  intros H. assert (NI : ~ iconic v). { intros C. apply (icon_made _ _ _ H) in C as (e & C). discriminate. }
  split; [|split; [exact NI|split]].
  - set (v1 := mkFP name (@blank R _ E (list (string * X)) R) (Some true) None).
    assert (H1 : exists v', var_set repr log_of v1 (GSympy r) q = Ok v' /\ fp_prob v' = fp_prob v /\ iconic v').
    { unfold var_set in *. change (fp_obj v1) with (fp_obj (@new_var R _ E X name)). destruct (set_prob _ _ _ _ q) as [o [x|]]; [discriminate|].
      injection H as <-. eexists. split; [reflexivity|]. split; reflexivity. }
    destruct H1 as (v' & H1 & H2 & H3). destruct (fresh_expr (ex_intro _ v1 (ex_intro _ (GSympy r) (ex_intro _ q H1))) H3) as (e & P & _).
    exists e. congruence.
  - intros vs f I M. apply make_shape in M as (_ & _ & _ & M). destruct (ff_prob f) eqn:EP; [|reflexivity]. exfalso. apply NI.
    assert (A : Forall iconic vs) by (apply M; discriminate). rewrite Forall_forall in A. apply A. exact I.
  - intros e q0 v0 H0 v' H'. apply (icon_sympy _ _ _ H'). apply (icon_made _ _ _ H0). eauto.
Qed.

(** ** Probabilities of their own *)

Lemma shown_some p (g : given E (list (string * X)) R) q o : set_prob repr log_of p g q = (o, None) -> shown o <> None.
Proof.
  unfold set_prob. destruct (new_pscale q _) as [s|x]; [|intros H; congruence].
  destruct g as [f|e|d|r].
  - intros H. injection H as <-. discriminate.
  - intros H. injection H as <-. discriminate.
  - destruct (scipy_partials d) as [t [x|]]; [intros H; congruence|].
    destruct (lookup t (Some (if is_log s then "logp" else "prob")%string)) eqn:L; [|intros H; congruence].
    intros H. assert (K : po_partials o = t /\ po_kind o = KScipy /\ po_scale o = s).
    { destruct (lookup t (Some "cdf"%string)), (lookup t (Some "ppf"%string)), (lookup t (Some "rvs"%string)); injection H as <-; repeat split; reflexivity. }
    destruct K as (K1 & K2 & K3). unfold shown. rewrite K1, K2, K3, L. discriminate.
  - destruct (set_distr _ _) as [p1 [x|]] eqn:SD; [intros H; congruence|].
    generalize (dist_exprs repr log_of r : table E (list (string * X)) R). intros t.
    destruct (lookup t (Some (if is_log s then "logp" else "prob")%string)) eqn:L; [|intros H; congruence].
    intros H. assert (SC : po_scale p1 = s).
    { clear -SD. revert SD. unfold set_distr. repeat match goal with |- context [match ?x with _ => _ end] => destruct x end; cbn;
        intros SD; try congruence; injection SD as <-; reflexivity. }
    assert (K : po_partials o = put t (Some "sfun"%string) (ESamp r true) /\ po_kind o = KSympy /\ po_scale o = s).
    { destruct (lookup t (Some "cdf"%string)), (lookup t (Some "icdf"%string)); injection H as <-;
        cbn; rewrite ?SC; repeat split; reflexivity. }
    destruct K as (K1 & K2 & K3). unfold shown. rewrite K1, K2, K3, lookup_put.
    destruct (is_log s); cbn; rewrite L; discriminate.
Qed.

Lemma scale_of_change f c f' : ~ sets_field c -> ff_change f c = Ok f' ->
  ff_def f' = ff_def f /\ exists hs, Forall (fun c => exists q, c = SetPscale q) hs /\ ff_obj f' = history repr log_of (ff_obj f) hs.
Proof.
  intros NO H. destruct c as [i g q|i q|g q|q|v]; cbn in H.
  - destruct (upd _ _ _) as [vs|x]; cbn [bind] in H; [|discriminate]. injection H as <-. split; [reflexivity|]. exists []. split; [constructor|reflexivity].
  - destruct (upd _ _ _) as [vs|x]; cbn [bind] in H; [|discriminate]. injection H as <-. split; [reflexivity|]. exists []. split; [constructor|reflexivity].
  - exfalso. apply NO. exists g, q. reflexivity.
  - destruct (set_pscale (ff_obj f) q) as [o [x|]] eqn:S; [discriminate|]. injection H as <-. split; [reflexivity|].
    exists [SetPscale q]. split; [repeat constructor; eauto|]. cbn. rewrite S. reflexivity.
  - unfold refresh in H. destruct (joint_scale _) as [q|x]; cbn [bind] in H; [|discriminate].
    destruct (eval_pscale q) as [s|x] eqn:Q; cbn [bind] in H; [|discriminate]. injection H as <-. split; [reflexivity|].
    exists [SetPscale q]. split; [repeat constructor; eauto|]. cbn. unfold set_pscale. rewrite Q. reflexivity.
Qed.

Lemma scale_of_run h : forall f f', (forall c, In c h -> ~ sets_field c) -> ff_run f h = Ok f' ->
  ff_def f' = ff_def f /\ exists hs, Forall (fun c => exists q, c = SetPscale q) hs /\ ff_obj f' = history repr log_of (ff_obj f) hs.
Proof.
  induction h as [|c h IH]; intros f f' NO H.
  - injection H as <-. split; [reflexivity|]. exists []. split; [constructor|reflexivity].
  - unfold ff_run in H. cbn [fold_res] in H. destruct (ff_change f c) as [f1|x] eqn:C; cbn [bind] in H; [|discriminate].
    destruct (IH f1 f') as (D & hs & F & O); [intros d I; apply NO; right; exact I|exact H|].
    destruct (@scale_of_change f c f1) as (D1 & hs1 & F1 & O1); [apply NO; left; reflexivity|exact C|].
    split; [congruence|]. exists (hs1 ++ hs)%list. split; [apply Forall_app; split; assumption|].
    rewrite O, O1. unfold history. rewrite fold_left_app. reflexivity.
Qed.

(** A field's own probability is what calls give, whatever happens to the variables. *)
Lemma own_call f g q f1 h f' values : field_set f (Some g) q = Ok f1 -> (forall c, In c h -> ~ sets_field c) -> ff_run f1 h = Ok f' ->
  told (ff_vars f') values ->
  stands_for log_of ev g (is_log (po_scale (ff_obj f'))) values (ff_call f' values).
Proof.
  intros H NO HR Td. unfold FProbModel.field_set in H.
  destruct (match q with Some q => Ok q | None => joint_scale (ff_vars f) end) as [q'|x]; cbn [bind] in H; [|discriminate].
  destruct (set_prob repr log_of (ff_obj f) g q') as [o [x|]] eqn:S; [discriminate|]. injection H as <-.
  pose proof (shown_some _ _ _ S) as NZ.
  destruct (@scale_of_run h _ _ NO HR) as (D & hs & F & O). pose proof (@run_stale h _ _ NO HR) as P. cbn [ff_prob ff_def ff_obj] in D, O, P.
  unfold ff_call. rewrite (told_seteq Td), P, D. cbn [assert_ bind]. destruct (shown o); [|congruence].
  assert (HH : ff_obj f' = history repr log_of (ff_obj f) (SetProb g q' :: hs)).
  { rewrite O. unfold history. cbn [fold_left change]. rewrite S. reflexivity. }
  rewrite HH. apply (value repr log_of ev).
  - cbn [change]. rewrite S. reflexivity.
  - intros c I (g' & q'' & ->). rewrite Forall_forall in F. destruct (F _ I) as (q1 & C). discriminate.
Qed.

(** ** What changes concern *)

Lemma upd_others l : forall i h l', upd l i h = Ok l' ->
  (exists v v', nth_error l i = Some v /\ h v = Ok v' /\ nth_error l' i = Some v') /\
  length l' = length l /\ forall j, j <> i -> nth_error l' j = nth_error l j.
Proof.
  induction l as [|v l IH]; intros i h l' H; [discriminate|]. destruct i as [|i]; cbn in H.
  - destruct (h v) as [v'|x] eqn:HV; cbn [bind] in H; [|discriminate]. injection H as <-. split; [exists v, v'; auto|].
    split; [reflexivity|]. intros [|j] NJ; [congruence|reflexivity].
  - destruct (upd l i h) as [l1|x] eqn:U; cbn [bind] in H; [|discriminate]. injection H as <-.
    destruct (IH _ _ _ U) as (A & B & C). split; [exact A|]. split; [cbn; congruence|].
    intros [|j] NJ; [reflexivity|]. apply C. congruence.
Qed.

Lemma change_vars f c f' : ff_change f c = Ok f' ->
  match c with
  | ChVar i g q => changed_at (ff_vars f) i (fun v => var_set repr log_of v g q) (ff_vars f')
  | ChVarScale i q => changed_at (ff_vars f) i (fun v => var_scale v q) (ff_vars f')
  | ChAdd v => ff_vars f' = (ff_vars f ++ [v])%list
  | _ => ff_vars f' = ff_vars f
  end.
Proof.
  intros H. destruct c as [i g q|i q|g q|q|v]; cbn in H.
  - destruct (upd _ _ _) as [vs|x] eqn:U; cbn [bind] in H; [|discriminate]. injection H as <-. exact (@upd_others _ _ _ _ U).
  - destruct (upd _ _ _) as [vs|x] eqn:U; cbn [bind] in H; [|discriminate]. injection H as <-. exact (@upd_others _ _ _ _ U).
  - destruct g as [g|].
    + unfold FProbModel.field_set in H. destruct (match q with Some q => Ok q | None => joint_scale (ff_vars f) end) as [q'|x]; cbn [bind] in H; [|discriminate].
      destruct (set_prob repr log_of (ff_obj f) g q') as [o [x|]]; [discriminate|]. injection H as <-. reflexivity.
    + apply set_none_shape in H. apply H.
  - destruct (set_pscale (ff_obj f) q) as [o [x|]]; [discriminate|]. injection H as <-. reflexivity.
  - unfold refresh in H. destruct (joint_scale _) as [q|x]; cbn [bind] in H; [|discriminate].
    destruct (eval_pscale q) as [s|x]; cbn [bind] in H; [|discriminate]. injection H as <-. reflexivity.
Qed.

(** A variable whose scale is changed: its name, prob and isiconic stay. *)
Lemma var_scale_kept (v : fpvar) q v' : var_scale v q = Ok v' ->
  fp_name v' = fp_name v /\ fp_prob v' = fp_prob v /\ fp_icon v' = fp_icon v /\ eval_pscale q = Ok (po_scale (fp_obj v')).
Proof.
  unfold var_scale, set_pscale. destruct (eval_pscale q) as [s|x]; [|discriminate]. intros H. injection H as <-. repeat split; reflexivity.
Qed.

End Fields.
