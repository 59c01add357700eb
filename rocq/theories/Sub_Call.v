(** Proofs about calls of fields. *)
From Coq Require Import String Ascii ZArith Bool Arith Lia List.
From Verif Require Import Base OdLemmas TensorLemmas Num Tensor Names Distr Distr_Spec Distr_Proofs VariableModel RVModel FieldModel Field_Spec
  Field_Proofs Field_Dims RFModel SubModel Sub_Spec.
Import ListNotations.
Local Open Scope nat_scope.
Local Open Scope list_scope.

Section P.
Context {T : Type} {N : Num T} {F : Fmt T} {TR : Trunc T}.

Lemma last_in {A} (l : list A) d : l <> [] -> In (last l d) l.
Proof. induction l as [|a [|b l] IH]; intros H; [congruence|left; reflexivity|]. right. apply IH. discriminate. Qed.

Lemma parse_covers (f : field T) values : covers values (fd_keys f) -> f_parse_args f values = Ok values.
Proof.
  intros (C1 & C2 & C3 & C4 & C5). unfold f_parse_args.
  assert (E : map_res (parse_entry f) values = Ok values).
  { apply map_res_ok.
    assert (X : forall l, incl l values -> Forall2 (fun a b => parse_entry f a = Ok b) l l).
    { induction l as [|[o e] l IH]; intros I; constructor; [|apply IH; intros y J; apply I; right; exact J].
      specialize (I (o, e) (or_introl eq_refl)). pose proof (C5 o e I) as W.
      assert (IL : mem_str (last (subkeys o) ""%string) (fd_keys f) = true).
      { apply mem_str_iff, C4, in_flat_map. exists o. split; [unfold od_keys; apply in_map_iff; exists (o, e); auto|].
        apply last_in. apply subkeys_nonempty. }
      unfold parse_entry. cbn [fst snd]. destruct e as [x|xs].
      - rewrite W. cbn [bind]. rewrite IL. reflexivity.
      - destruct W as (S & L). rewrite S, L, Nat.eqb_refl. cbn [assert_ bind]. rewrite IL. reflexivity. }
    apply X. apply incl_refl. }
  rewrite E. cbn [bind]. f_equal.
  assert (Y : forall l, incl l (fd_keys f) -> fold_left (fun d k => if mem_str k (flat_map subkeys (od_keys values)) then d
      else od_set d k (One (default_val f values))) l values = values).
  { induction l as [|k l IH]; intros I; [reflexivity|]. cbn [fold_left].
    assert (M : mem_str k (flat_map subkeys (od_keys values)) = true) by (apply mem_str_iff, C4, I; left; reflexivity).
    rewrite M. apply IH. intros j J. apply I. right. exact J. }
  apply Y. apply incl_refl.
Qed.

Lemma get_out (vals : odict (tensor (pyval T))) k : od_get (out_vals vals) k = match od_get vals k with Some a => Some (to_value a) | None => None end.
Proof. apply (od_get_map (fun _ (a : tensor (pyval T)) => to_value a)). Qed.
Lemma get_outd (dims : odict (option nat)) k : od_get (out_dims dims) k =
  match od_get dims k with Some d => Some (match d with Some d => Some (Z.of_nat d) | None => None end) | None => None end.
Proof. apply (od_get_map (fun _ (d : option nat) => match d with Some d => Some (Z.of_nat d) | None => None end)). Qed.

Lemma to_list_map {A B} (g : A -> B) (a : tensor A) : to_list (tmap g a) = map g (to_list a).
Proof. unfold to_list, tmap. cbn. rewrite map_map. reflexivity. Qed.

Lemma call_numbers (f : field T) values r : nonempty f = true -> covers values (fd_keys f) -> fd_keys f <> [] ->
  (forall k, In k (fd_keys f) -> ~ In k ["attrs"; "prob"; "pscale"]%string) ->
  forallb (@entry_scalar T) (od_vals values) = true ->
  exists d, f_call f values r = Ok (Some d) /\ d_keylist d = od_keys values /\
    forall k y, In (k, One (FNum y)) values -> od_get (d_vals d) k = Some (VNum (as_num y)) /\ od_get (d_dims d) k = Some None.
Proof.
  intros NE C NK RES SC. unfold f_call. rewrite NE, (parse_covers f values C). cbn [bind].
  destruct (@evaluate_scalars T N f values 0 r SC) as (vals & E & KV & H). rewrite E. cbn [bind].
  pose proof (covers_nodup C) as ND.
  assert (KO : od_keys (out_vals vals) = od_keys values) by (unfold out_vals, od_keys; rewrite map_map; exact KV).
  assert (NO : NoDup (od_keys (out_vals vals))) by (rewrite KO; exact ND).
  assert (VN : out_vals vals <> []).
  { intros Q. rewrite Q in KO. destruct C as (_ & _ & _ & C4 & _). destruct (fd_keys f) as [|k ks]; [congruence|].
    assert (I : In k (flat_map subkeys (od_keys values))) by (apply C4; left; reflexivity). rewrite <- KO in I. destruct I. }
  assert (NX : naxes (out_dims []) 0) by (split; [intros k d []|left; reflexivity]).
  assert (SCA : forall k v, od_get (out_vals vals) k = Some v -> exists y, v = VNum (as_num y) /\ In (k, One (FNum y)) values).
  { intros k v G. rewrite get_out in G. destruct (od_get vals k) as [a|] eqn:GA; [|discriminate]. injection G as <-.
    destruct (H k a (od_get_in _ _ GA)) as (y & I & ->). exists y. split; [reflexivity|exact I]. }
  assert (DE : describes (out_vals vals) (out_dims []) 0).
  { split; [|split; [|intros j J; lia]].
    - intros k I. rewrite KO in I. apply RES. destruct C as (_ & _ & _ & C4 & C5).
      unfold od_keys in I. apply in_map_iff in I. destruct I as ([k' e] & <- & I). cbn [fst].
      assert (SH : shared k' = false).
      { specialize (C5 _ _ I). destruct e as [x|l]; [exact C5|]. rewrite forallb_forall in SC.
        assert (Q : entry_scalar (Many l) = true) by (apply SC; unfold od_vals; apply in_map_iff; exists (k', Many l); auto). discriminate. }
      apply C4, in_flat_map. exists k'. split; [unfold od_keys; apply in_map_iff; exists (k', e); auto|].
      rewrite subkeys_unshared by exact SH. left. reflexivity.
    - intros k v G. left. destruct (SCA k v G) as (y & -> & _). split; [left; reflexivity|left; reflexivity]. }
  destruct (proj2 (make_dist_iff (join "," (od_keys vals)) _ _ _ NO VN NX) DE) as (d & ED). rewrite ED. cbn [bind].
  exists d. split; [reflexivity|].
  destruct (make_dist_result _ _ _ _ _ NO VN NX ED) as (_ & K & _ & _ & _ & SV & _).
  split; [congruence|]. intros k y I.
  assert (G : od_get (out_vals vals) k = Some (VNum (as_num y))).
  { assert (IK : In k (od_keys (out_vals vals))) by (rewrite KO; unfold od_keys; apply in_map_iff; exists (k, One (FNum y)); auto).
    apply od_key_get in IK. destruct IK as (v & G). rewrite G. destruct (SCA k v G) as (y' & -> & I').
    pose proof (od_in_get _ _ _ ND I) as G1. pose proof (od_in_get _ _ _ ND I') as G2. congruence. }
  destruct (SV k _ G (or_introl eq_refl)) as (V1 & V2). auto.
Qed.

Lemma call_axes (f : field T) values r (A : string -> tensor (pyval T)) : nonempty f = true ->
  map (@fv_name T) (fd_varlist f) = fd_keys f -> covers values (fd_keys f) -> arrays_shared values -> fd_keys f <> [] ->
  (forall k, In k (fd_keys f) -> ~ In k ["attrs"; "prob"; "pscale"]%string) ->
  forallb (@entry_scalar T) (od_vals values) = false ->
  (forall i v, nth_error (fd_varlist f) i = Some v ->
     exists o x, gives values o (fv_name v) x /\ eval_val v x (r i) = Ok (A (fv_name v)) /\
       (shape (A (fv_name v)) = [] <-> dimensionless x = true)) ->
  (forall k, In k (fd_keys f) -> shape (A k) <> [] -> 0 < tsize (A k)) ->
  exists d, f_call f values r = Ok (Some d) /\ d_keylist d = fd_keys f /\ d_ndim d = Some (length (axes values (fd_keys f))) /\
    forall k, In k (fd_keys f) -> shows d values (fd_keys f) A k.
Proof.
  intros NE NM C AS NK RES SC EV PZ. unfold f_call. rewrite NE, (parse_covers f values C). cbn [bind].
  destruct (@evaluate_axes T N f values 0 r A NM C AS SC EV) as (vals & dims & E & KV & KD & H). rewrite E. cbn [bind].
  set (keys := fd_keys f) in *. set (ax := axes values keys) in *. set (n := length ax).
  pose proof C as (C1 & _).
  assert (KO : od_keys (out_vals vals) = keys) by (unfold out_vals, od_keys; rewrite map_map; exact KV).
  assert (NO : NoDup (od_keys (out_vals vals))) by (rewrite KO; exact C1).
  assert (VN : out_vals vals <> []) by (intros Q; rewrite Q in KO; apply NK; symmetry; exact KO).
  assert (AXI : forall i s, i < n -> set_nth i s (repeat 1 n) = along n i s).
  { intros i s. unfold along. generalize n. clear. induction i as [|i IH]; intros n L; destruct n as [|n]; try lia; cbn [repeat set_nth app].
    - cbn [Nat.sub]. rewrite ?Nat.sub_0_r. reflexivity.
    - f_equal. rewrite IH by lia. reflexivity. }
  assert (PX : forall i s, i < n -> prod_list (along n i s) = s) by (intros i s L; rewrite <- AXI by exact L; apply prod_axis_gen; exact L).
  assert (LX : forall i s, i < n -> 0 < s -> list_max (along n i s) = s).
  { intros i s L P. unfold along. rewrite list_max_app.
    assert (RP : forall m, List.list_max (repeat 1 m) <= 1) by (induction m as [|m IHm]; [cbn; lia|change (Nat.max 1 (List.list_max (repeat 1 m)) <= 1); lia]).
    change (List.list_max (s :: repeat 1 (n - S i))) with (Nat.max s (List.list_max (repeat 1 (n - S i)))).
    pose proof (RP i). pose proof (RP (n - S i)). lia. }
  (* a column *)
  assert (COL : forall k, In k keys -> shape (A k) <> [] -> exists o i a, owner values k = Some o /\ nth_error ax i = Some o /\ i < n /\
     od_get vals k = Some a /\ shape a = along n i (tsize (A k)) /\ to_list a = to_list (A k) /\
     od_get (out_dims dims) k = Some (Some (Z.of_nat i)) /\
     Distr_Spec.column (out_vals vals) k (tmap as_num a) /\ on_axis n (out_dims dims) k i).
  { intros k I S. destruct (H k I) as (a & d & G1 & G2 & TL & [(Q & _)|(_ & o & i & O & NA & -> & SA)]); [congruence|].
    cbn [Nat.add] in *. assert (LT : i < n) by (apply nth_error_Some; fold ax in NA; congruence).
    fold ax in SA. change (length ax) with n in SA. rewrite AXI in SA by exact LT.
    assert (SN : shape a <> []) by (rewrite SA; unfold along; destruct (repeat 1 i); discriminate).
    assert (GD : od_get (out_dims dims) k = Some (Some (Z.of_nat i))) by (rewrite get_outd, G2; reflexivity).
    exists o, i, a. repeat (split; [assumption|]). split.
    - split.
      + rewrite get_out, G1. f_equal. unfold to_value. destruct (shape a) eqn:Q; [congruence|reflexivity].
      + split; [exact SN|]. unfold tsize, tmap. cbn [shape]. rewrite SA, PX, LX by (try exact LT; apply PZ; assumption). reflexivity.
    - exists (Z.of_nat i). split; [exact GD|]. split; [left; lia|exact LT]. }
  assert (SCA : forall k, In k keys -> shape (A k) = [] -> od_get (out_vals vals) k = Some (VNum (as_num (get (A k) []))) /\ od_get (out_dims dims) k = Some None).
  { intros k I S. destruct (H k I) as (a & d & G1 & G2 & TL & [(_ & -> & ->)|(Q & _)]); [|congruence].
    rewrite get_out, G1, get_outd, G2. split; [|reflexivity]. unfold to_value. rewrite S. reflexivity. }
  assert (SHD : forall k : string, {shape (A k) = []} + {shape (A k) <> []}) by (intros k; destruct (shape (A k)); [left; reflexivity|right; discriminate]).
  (* every axis has a column *)
  assert (ALL : forall j, j < n -> exists k, In k keys /\ shape (A k) <> [] /\ exists o, owner values k = Some o /\ nth_error ax j = Some o).
  { intros j L. destruct (nth_error ax j) as [o|] eqn:NJ; [|apply nth_error_None in NJ; unfold n in L; lia].
    destruct (axes_from values keys o (nth_error_In _ _ NJ)) as (NA & k & I & O).
    exists k. split; [exact I|]. split; [|exists o; auto].
    pose proof I as I0. rewrite <- NM in I0. apply in_map_iff in I0. destruct I0 as (v & NV & IV). apply In_nth_error in IV.
    destruct IV as (i & IV). destruct (EV i v IV) as (o' & x & G & _ & IFF). rewrite NV in *.
    assert (o' = o). { pose proof (gives_owner C G) as Q. congruence. } subst o'.
    intros Q. apply IFF in Q. destruct (shared o) eqn:SO.
    - rewrite (AS o k x G SO) in Q. discriminate.
    - destruct G as [(-> & _ & IG)|(SO' & _)]; [|congruence].
      unfold needs_axis in NA. rewrite (od_in_get _ _ _ (covers_nodup C) IG) in NA. rewrite Q in NA. discriminate. }
  assert (NX : naxes (out_dims dims) n).
  { split.
    - intros k d I. assert (G : od_get (out_dims dims) k = Some (Some d)).
      { apply od_in_get; [|exact I]. unfold out_dims, od_keys. rewrite map_map. change (NoDup (od_keys dims)). rewrite KD. exact C1. }
      assert (IK : In k keys) by (rewrite <- KD; unfold out_dims in I; apply in_map_iff in I; destruct I as ([k' d'] & Q & I); injection Q as <- _; unfold od_keys; apply in_map_iff; exists (k', d'); auto).
      destruct (SHD k) as [S|S]; [destruct (SCA k IK S) as (_ & Q); congruence|].
      destruct (COL k IK S) as (o & i & a & _ & _ & LT & _ & _ & _ & GD & _). rewrite GD in G. injection G as <-. lia.
    - destruct (Nat.eq_dec n 0) as [Z|Z]; [left; exact Z|right]. destruct (ALL (n - 1)) as (k & I & S & o & O & NJ); [lia|].
      destruct (COL k I S) as (o' & i & a & O' & NI & LT & _ & _ & _ & GD & _). assert (o' = o) by congruence. subst o'.
      assert (i = n - 1) by (apply (proj1 (NoDup_nth_error ax) (axes_nodup values keys)); [exact LT|congruence]).
      exists k, (Z.of_nat i). split; [apply od_get_in; exact GD|lia]. }
  assert (DE : describes (out_vals vals) (out_dims dims) n).
  { split; [intros k I; rewrite KO in I; apply RES; exact I|]. split.
    - intros k v G. assert (I : In k keys) by (rewrite <- KO; eapply od_get_some_key; eauto). destruct (SHD k) as [S|S].
      + left. destruct (SCA k I S) as (Q1 & Q2). rewrite Q1 in G. injection G as <-. split; [left; reflexivity|right; exact Q2].
      + right. destruct (COL k I S) as (o & i & a & _ & _ & _ & _ & _ & _ & _ & CO & OA). exists (tmap as_num a), i. auto.
    - intros j L. destruct (ALL j L) as (k & I & S & o & O & NJ).
      destruct (COL k I S) as (o' & i & a & O' & NI & LT & _ & _ & _ & GD & CO & OA). assert (o' = o) by congruence. subst o'.
      assert (i = j) by (apply (proj1 (NoDup_nth_error ax) (axes_nodup values keys)); [exact LT|congruence]). subst i.
      exists k, (tmap as_num a). auto. }
  destruct (proj2 (make_dist_iff (join "," (od_keys vals)) _ _ _ NO VN NX) DE) as (d & ED). rewrite ED. cbn [bind].
  exists d. split; [reflexivity|].
  destruct (make_dist_result _ _ _ _ _ NO VN NX ED) as (_ & K & ND & _ & _ & SV & CV & _).
  split; [congruence|]. split; [exact ND|]. intros k I. destruct (SHD k) as [S|S].
  - left. split; [exact S|]. destruct (SCA k I S) as (Q1 & Q2). destruct (SV k _ Q1 (or_introl eq_refl)) as (V1 & V2). auto.
  - right. split; [exact S|]. destruct (COL k I S) as (o & i & a & O & NI & LT & GA & SA & TL & GD & CO & OA).
    destruct (CV k _ i CO OA) as (D1 & a' & V1 & S1 & T1). exists o, i, a'. split; [exact O|]. split; [exact NI|].
    split; [congruence|]. split; [exact V1|]. split.
    + rewrite S1. unfold tsize at 1, tmap. cbn [shape]. rewrite SA, PX by exact LT. reflexivity.
    + rewrite T1, to_list_map, TL. reflexivity.
Qed.

End P.
