(** Writing to files, all or in part, and reading back. *)
From Coq Require Import String Ascii ZArith Reals Bool Arith Lia List Permutation Sorted.
From Verif Require Import Base Num Tensor PScales Names Names_Spec Names_Proofs Distr PDModel PDUtils PDFile
  RNumLemmas OdLemmas TensorLemmas PD_Spec PD_Make PD_Valid PD_Simple_Spec PD_Simple PD_SimpleThm PD_File_Spec PD_File PD_FileThm
  DiskModel Disk_Spec.
Import ListNotations.
Local Open Scope nat_scope.

Section Any.
Context {T : Type} {N : Num T} {F : Fmt T}.

(** *** Objects *)
Lemma mark_marked (l : live T) : marked l (mark l).
Proof.
  unfold marked. do 5 (split; [reflexivity|]). split; [apply mark_keys|]. intros k. apply mark_get.
Qed.

Lemma mark_dims_twice d : mark_dims (mark_dims d) = mark_dims d.
Proof. unfold mark_dims. rewrite map_map. apply map_ext. intros [k [z| |s]]; reflexivity. Qed.

Lemma attrs_ok d : exists a, map_res (fun kd : string * pydim => let! h := hattr_of (snd kd) in Ok (fst kd, h)) (mark_dims d) = Ok a.
Proof.
  induction d as [|[k x] d [a IH]]; [exists []; reflexivity|]. cbn [mark_dims map map_res fst snd].
  fold (mark_dims d). destruct x; cbn [none_to_str hattr_of bind]; rewrite IH; cbn; eauto.
Qed.

Lemma set_shape_ok (l : list (setelem T)) : (exists sh, set_shape l = Ok sh) <-> ~ unwritable (VSet l).
Proof.
  unfold set_shape, unwritable. split.
  - intros (sh & E) (e & I & H). destruct (map_res _ l) as [sz|] eqn:M; [|discriminate]. clear E sh.
    revert sz M. induction l as [|x l IH]; intros sz M; [destruct I|]. cbn [map_res] in M.
    destruct I as [->|I].
    + destruct e; try discriminate. specialize (H z eq_refl). destruct (z <? 0)%Z eqn:Z0; [discriminate|]. apply Z.ltb_ge in Z0. lia.
    + destruct (match x with SEint z => _ | _ => _ end) as [y|] eqn:Ex in M; [|discriminate]. cbn [bind] in M.
      destruct (map_res _ l) as [sz'|] eqn:M'; [|discriminate]. eapply IH; eauto.
  - intros H. rewrite (map_res_all _ (fun e => match e with SEint z => Z.to_nat z | _ => 0 end)).
    + cbn [bind]. eauto.
    + intros e I. destruct e; try (exfalso; apply H; exists e; split; [exact I|intros z0 C; discriminate]).
      * destruct (z <? 0)%Z eqn:Z0; [|reflexivity]. exfalso. apply Z.ltb_lt in Z0. apply H. exists (SEint z). split; [exact I|].
        intros z0 C. injection C as <-. exact Z0.
      * exfalso. apply H. eexists. split; [exact I|]. intros z0 C; discriminate.
      * exfalso. apply H. eexists. split; [exact I|]. intros z0 C; discriminate.
      * exfalso. apply H. eexists. split; [exact I|]. intros z0 C; discriminate.
      * exfalso. apply H. eexists. split; [exact I|]. intros z0 C; discriminate.
Qed.

Lemma write_value_ok (v : value T) : (exists d, write_value v = Ok d) <-> ~ unwritable v.
Proof.
  destruct v as [x|s|l|a|]; cbn [write_value unwritable].
  - split; [tauto|]. eauto.
  - split; [intros (d & C); discriminate|tauto].
  - rewrite <- (set_shape_ok l). split; [intros (d & C)|intros (sh & C)].
    + destruct (set_shape l) as [sh|]; [eauto|discriminate].
    + rewrite C. cbn. eauto.
  - split; [tauto|]. eauto.
  - split; [intros (d & C); discriminate|tauto].
Qed.

Lemma unwritable_dec (v : value T) : unwritable v \/ ~ unwritable v.
Proof.
  pose proof (write_value_ok v) as Q. destruct (write_value v) as [d|e] eqn:E.
  - right. apply Q. eauto.
  - left. destruct v as [x|s|l|a|]; try discriminate; try exact I. cbn in E |- *.
    destruct (set_shape l) as [sh|] eqn:S; [discriminate|]. clear E e Q. unfold set_shape in S.
    destruct (map_res _ l) as [sz|] eqn:M; [discriminate|]. clear S. revert M. induction l as [|x l IH]; intros M; [discriminate|].
    cbn [map_res] in M. destruct x as [z|b|x| |].
    + destruct (z <? 0)%Z eqn:Z0.
      * apply Z.ltb_lt in Z0. exists (SEint z). split; [left; reflexivity|]. intros z0 C. injection C as <-. exact Z0.
      * cbn [bind] in M. destruct (map_res _ l) as [sz|] eqn:M'; [discriminate|].
        destruct (IH M) as (e9 & I & H). exists e9. split; [right; exact I|exact H].
    + eexists. split; [left; reflexivity|]. intros z0 C; discriminate.
    + eexists. split; [left; reflexivity|]. intros z0 C; discriminate.
    + eexists. split; [left; reflexivity|]. intros z0 C; discriminate.
    + eexists. split; [left; reflexivity|]. intros z0 C; discriminate.
Qed.

Definition wval (v : value T) : dset T := match write_value v with Ok d => d | Err _ => DSet [] end.
Definition items (vals : odict (value T)) : hgroup T := map (fun kv => (fst kv, IVal (wval (snd kv)))) vals.

Lemma wvals_ok (vals : odict (value T)) g : (forall k v, In (k, v) vals -> ~ unwritable v) ->
  write_vals vals g = ((g ++ items vals)%list, None).
Proof.
  revert g. induction vals as [|[k v] vals IH]; intros g H; [cbn; rewrite app_nil_r; reflexivity|].
  cbn [write_vals]. destruct (proj2 (write_value_ok v)) as (d & E); [apply (H k); left; reflexivity|].
  rewrite E, IH by (intros k' v' I; apply (H k'); right; exact I). rewrite <- app_assoc. cbn. unfold wval. rewrite E. reflexivity.
Qed.

Lemma wvals_fail (vals : odict (value T)) before k v after g : vals = (before ++ (k, v) :: after)%list ->
  (forall k v, In (k, v) before -> ~ unwritable v) -> unwritable v ->
  exists e, write_vals vals g = ((g ++ items before)%list, Some e).
Proof.
  intros -> H U. revert g. induction before as [|[k' v'] before IH]; intros g.
  - cbn [app write_vals items map]. rewrite app_nil_r. pose proof (write_value_ok v) as Q. destruct (write_value v) as [d|e]; [|eauto].
    exfalso. apply Q; eauto.
  - cbn [app write_vals]. destruct (proj2 (write_value_ok v')) as (d & E); [apply (H k'); left; reflexivity|]. rewrite E.
    destruct (IH (fun k v I => H k v (or_intror I)) (g ++ [(k', IVal d)])%list) as (e & Q). exists e. rewrite Q, <- app_assoc.
    cbn. unfold wval. rewrite E. reflexivity.
Qed.

Lemma first_bad (vals : odict (value T)) : (forall k v, In (k, v) vals -> ~ unwritable v) \/
  exists before k v after, vals = (before ++ (k, v) :: after)%list /\ (forall k v, In (k, v) before -> ~ unwritable v) /\ unwritable v.
Proof.
  induction vals as [|[k v] vals [IH|(b & k' & v' & a & -> & H & U)]]; [left; intros k v []| |];
    destruct (unwritable_dec v) as [U0|U0].
  - right. exists [], k, v, vals. split; [reflexivity|]. split; [intros ? ? []|exact U0].
  - left. intros k' v' [C|I]; [injection C as <- <-; exact U0|eauto].
  - right. exists [], k, v, (b ++ (k', v') :: a)%list. split; [reflexivity|]. split; [intros ? ? []|exact U0].
  - right. exists ((k, v) :: b), k', v', a. split; [reflexivity|]. split; [|exact U].
    intros k0 v0 [C|I]; [injection C as <- <-; exact U0|eauto].
Qed.

(** One object: refused at a value, or at its probabilities, or written. *)
Lemma obj_cases (l : live T) :
  (exists before k v after e, l_vals l = (before ++ (k, v) :: after)%list /\ unwritable v /\
     (forall k v, In (k, v) before -> ~ unwritable v) /\ write_obj l = (l, items before, Some e)) \/
  ((forall k v, In (k, v) (l_vals l) -> ~ unwritable v) /\ exists g e, write_obj l = (mark l, g, e) /\
     (e = None <-> l_prob l <> None)).
Proof.
  destruct (first_bad (l_vals l)) as [H|(b & k & v & a & E & H & U)].
  - right. split; [exact H|]. unfold write_obj. rewrite wvals_ok by exact H. cbn [app].
    destruct (attrs_ok (l_dims l)) as (at_ & ->). destruct (l_prob l) as [t|] eqn:P.
    + do 2 eexists. split; [unfold mark; rewrite P; reflexivity|]. split; [discriminate|reflexivity].
    + do 2 eexists. split; [unfold mark; rewrite P; reflexivity|]. split; [discriminate|tauto].
  - left. destruct (wvals_fail (l_vals l) b k v a [] E H U) as (e & W). exists b, k, v, a, e.
    split; [exact E|]. split; [exact U|]. split; [exact H|]. unfold write_obj. rewrite W. reflexivity.
Qed.

Lemma obj_raises (l l' : live T) g e : write_obj l = (l', g, e) -> (e = None <-> ~ broken l).
Proof.
  intros W. unfold broken. destruct (obj_cases l) as [(b & k & v & a & e' & E & U & H & Q)|(H & g' & e' & Q & P)]; rewrite Q in W; injection W as <- <- <-.
  - split; [discriminate|]. intros C. exfalso. apply C. left. exists k, v. split; [rewrite E; apply in_or_app; cbn; auto|exact U].
  - rewrite P. split; [intros NP [(k & v & I & U)|C]; [eapply H; eauto|contradiction]|]. intros C D. apply C. right. exact D.
Qed.

Lemma obj_again (l l' : live T) g e : write_obj l = (l', g, e) -> write_obj l' = (l', g, e).
Proof.
  intros W. destruct (obj_cases l) as [(b & k & v & a & e' & E & U & H & Q)|(H & g' & e' & Q & P)]; rewrite Q in W.
  - injection W as <- <- <-. exact Q.
  - injection W as <- <- <-. rewrite <- Q. unfold write_obj. cbn [mark l_vals l_dims l_prob l_name l_short l_pscale].
    rewrite !wvals_ok by exact H. rewrite mark_dims_twice. reflexivity.
Qed.

Lemma obj_short (l l' : live T) g e : write_obj l = (l', g, e) -> l_short l' = l_short l.
Proof.
  intros W. destruct (obj_cases l) as [(b & k & v & a & e' & E & U & H & Q)|(H & g' & e' & Q & P)]; rewrite Q in W;
    injection W as <- <- <-; reflexivity.
Qed.

(** *** Several objects *)
Lemma objs_untouched names : forall (heap : list (live T)) f h' f' e j, write_objs heap names f = (h', f', e) ->
  ~ In j (map snd names) -> nth_error h' j = nth_error heap j.
Proof.
  induction names as [|[n i] names IH]; intros heap f h' f' e j W J; cbn [write_objs] in W.
  - injection W as <- <- <-. reflexivity.
  - cbn in J. destruct (nth_error heap i) as [l|] eqn:G; [|injection W as <- <- <-; reflexivity].
    destruct (od_mem f n); [injection W as <- <- <-; reflexivity|].
    destruct (write_obj l) as [[l' g] e0] eqn:O. destruct e0 as [x|].
    + injection W as <- <- <-. apply nth_error_set_nth_ne; intros C9; apply J; left; congruence.
    + rewrite (IH _ _ _ _ _ j W) by tauto. apply nth_error_set_nth_ne; intros C9; apply J; left; congruence.
Qed.

Lemma set_nth_same {A} n (x : A) l : nth_error l n = Some x -> set_nth n x l = l.
Proof.
  revert n. induction l as [|y l IH]; intros [|n] H; cbn in *; try discriminate; [congruence|]. f_equal. apply IH, H.
Qed.

Lemma set_nth_again {A} n (x : A) l : set_nth n x (set_nth n x l) = set_nth n x l.
Proof. revert n. induction l as [|y l IH]; intros [|n]; cbn; try reflexivity. f_equal. apply IH. Qed.

Lemma objs_again names : NoDup (map snd names) -> forall (heap : list (live T)) f h' f' e,
  write_objs heap names f = (h', f', e) -> write_objs h' names f = (h', f', e).
Proof.
  induction names as [|[n i] names IH]; intros ND heap f h' f' e W; cbn [write_objs] in W |- *.
  - injection W as <- <- <-. reflexivity.
  - inversion ND as [|? ? NI ND']; subst. destruct (nth_error heap i) as [l|] eqn:G; [|injection W as <- <- <-; rewrite G; reflexivity].
    destruct (od_mem f n) eqn:M; [injection W as <- <- <-; rewrite G; reflexivity|].
    destruct (write_obj l) as [[l' g] e0] eqn:O.
    assert (Hi : i < length heap) by (apply nth_error_Some; congruence). destruct e0 as [x|].
    + injection W as <- <- <-. rewrite nth_error_set_nth_eq by exact Hi. rewrite (obj_again _ _ _ _ O), set_nth_again. reflexivity.
    + assert (G' : nth_error h' i = Some l').
      { rewrite (objs_untouched _ _ _ _ _ _ _ W NI). apply nth_error_set_nth_eq. exact Hi. }
      rewrite G', (obj_again _ _ _ _ O), (set_nth_same _ _ _ G'). eapply IH; eauto.
Qed.

Lemma objs_length names : forall (heap : list (live T)) f h' f' e,
  write_objs heap names f = (h', f', e) -> length h' = length heap.
Proof.
  induction names as [|[n i] names IH]; intros heap f h' f' e W; cbn [write_objs] in W.
  - injection W as <- <- <-. reflexivity.
  - destruct (nth_error heap i) as [l|] eqn:G; [|injection W as <- <- <-; reflexivity].
    destruct (od_mem f n); [injection W as <- <- <-; reflexivity|].
    destruct (write_obj l) as [[l' g] e0] eqn:O. destruct e0 as [x|].
    + injection W as <- <- <-. apply set_nth_length.
    + apply IH in W. rewrite W. apply set_nth_length.
Qed.

Lemma objs_short names : forall (heap : list (live T)) f h' f' e,
  write_objs heap names f = (h', f', e) -> map (@l_short T) h' = map (@l_short T) heap.
Proof.
  assert (SS : forall (heap : list (live T)) i l l', nth_error heap i = Some l -> l_short l' = l_short l ->
     map (@l_short T) (set_nth i l' heap) = map (@l_short T) heap).
  { induction heap as [|x heap IH]; intros [|i] l l' G E; cbn in *; try discriminate; [congruence|]. f_equal. eapply IH; eauto. }
  induction names as [|[n i] names IH]; intros heap f h' f' e W; cbn [write_objs] in W.
  - injection W as <- <- <-. reflexivity.
  - destruct (nth_error heap i) as [l|] eqn:G; [|injection W as <- <- <-; reflexivity].
    destruct (od_mem f n); [injection W as <- <- <-; reflexivity|].
    destruct (write_obj l) as [[l' g] e0] eqn:O. destruct e0 as [x|].
    + injection W as <- <- <-. eapply SS; [exact G|eapply obj_short; exact O].
    + apply IH in W. rewrite W. eapply SS; [exact G|eapply obj_short; exact O].
Qed.

(** The groups of a file are those of the first few names, all of them if nothing
    was raised. *)
Lemma objs_keys names : forall (heap : list (live T)) f h' f' e, write_objs heap names f = (h', f', e) ->
  exists n1 n2, names = (n1 ++ n2)%list /\ od_keys f' = (od_keys f ++ od_keys n1)%list /\ (e = None -> n2 = []).
Proof.
  induction names as [|[n i] names IH]; intros heap f h' f' e W; cbn [write_objs] in W.
  - injection W as <- <- <-. exists [], []. cbn. rewrite app_nil_r. auto.
  - destruct (nth_error heap i) as [l|] eqn:G.
    2:{ injection W as <- <- <-. exists [], ((n, i) :: names). cbn. rewrite app_nil_r. split; [reflexivity|]. split; [reflexivity|discriminate]. }
    destruct (od_mem f n).
    { injection W as <- <- <-. exists [], ((n, i) :: names). cbn. rewrite app_nil_r. split; [reflexivity|]. split; [reflexivity|discriminate]. }
    destruct (write_obj l) as [[l' g] e0] eqn:O. destruct e0 as [x|].
    + injection W as <- <- <-. exists [(n, i)], names. split; [reflexivity|]. split; [|discriminate].
      unfold od_keys. rewrite map_app. reflexivity.
    + destruct (IH _ _ _ _ _ W) as (n1 & n2 & -> & K & E). exists ((n, i) :: n1), n2. split; [reflexivity|]. split; [|exact E].
      rewrite K. unfold od_keys. rewrite map_app, <- app_assoc. reflexivity.
Qed.

Lemma objs_raise names : NoDup (map snd names) -> NoDup (od_keys names) -> forall (heap : list (live T)) f h' f' e,
  (forall n i, In (n, i) names -> i < length heap) -> (forall n, In n (od_keys names) -> ~ In n (od_keys f)) ->
  write_objs heap names f = (h', f', e) ->
  (e = None <-> forall n i l, In (n, i) names -> nth_error heap i = Some l -> ~ broken l).
Proof.
  induction names as [|[n i] names IH]; intros ND NK heap f h' f' e Hv Hf W; cbn [write_objs] in W.
  - injection W as <- <- <-. split; [intros _ ? ? ? []|reflexivity].
  - inversion ND as [|? ? NI ND']; subst. cbn in NK. inversion NK as [|? ? NN NK']; subst.
    destruct (nth_error heap i) as [l|] eqn:G.
    2:{ exfalso. apply nth_error_None in G. specialize (Hv n i (or_introl eq_refl)). lia. }
    destruct (od_mem f n) eqn:M; [exfalso; apply od_mem_iff in M; eapply Hf; [left; reflexivity|exact M]|].
    destruct (write_obj l) as [[l' g] e0] eqn:O. pose proof (obj_raises _ _ _ _ O) as Q. destruct e0 as [x|].
    + injection W as <- <- <-. split; [discriminate|]. intros H. exfalso.
      assert (Some x = None) by (apply Q; eapply H; [left; reflexivity|exact G]). discriminate.
    + apply IH in W; [| assumption | assumption | |].
      * rewrite W. clear W. split; intros H n0 i0 l0 I G0.
        -- destruct I as [C|I].
           ++ injection C as <- <-. assert (l0 = l) by congruence. subst. apply Q. reflexivity.
           ++ eapply H; [exact I|]. rewrite nth_error_set_nth_ne; [exact G0|]. intros <-. apply NI. apply (in_map snd) in I. exact I.
        -- eapply H; [right; exact I|]. rewrite nth_error_set_nth_ne in G0; [exact G0|]. intros <-. apply NI. apply (in_map snd) in I. exact I.
      * intros n0 i0 I. rewrite set_nth_length. apply (Hv n0). right. exact I.
      * intros n0 I J. unfold od_keys in J. rewrite map_app in J. apply in_app_iff in J. destruct J as [J|[J|[]]].
        -- eapply Hf; [right; exact I|exact J].
        -- cbn in J. subst n0. contradiction.
Qed.

(** *** Auxiliary data *)
Lemma check_sub_ok d : (forall k v, In (k, v) d -> (exists s, k = AStr s) /\ v <> @ANoArr T) ->
  exists sub, map_res check_sub d = Ok sub /\ ((exists k, In (k, None) sub) <-> exists k, In (k, AText) d).
Proof.
  induction d as [|[k v] d IH]; intros H.
  - exists []. split; [reflexivity|]. split; intros (k & []).
  - destruct IH as (sub & E & Q); [intros k' v' I; apply H; right; exact I|].
    destruct (H k v (or_introl eq_refl)) as [[s ->] NA]. cbn [map_res]. destruct v as [t| |]; [| |contradiction].
    + cbn [check_sub fst snd bind]. rewrite E. cbn [bind]. eexists. split; [reflexivity|]. split.
      * intros (k' & [C|I]); [discriminate|]. destruct Q as [Q _]. destruct Q as (k2 & I2); [eauto|]. exists k2. right. exact I2.
      * intros (k' & [C|I]); [discriminate|]. destruct Q as [_ Q]. destruct Q as (k2 & I2); [eauto|]. exists k2. right. exact I2.
    + cbn [check_sub fst snd bind]. rewrite E. cbn [bind]. eexists. split; [reflexivity|]. split; intros _; eexists; left; reflexivity.
Qed.

Lemma check_sub_bad d : (exists sub, map_res check_sub d = Ok sub) -> forall k v, In (k, v) d -> (exists s, k = AStr s) /\ v <> @ANoArr T.
Proof.
  induction d as [|[k v] d IH]; intros (sub & E) k' v' I; [destruct I|]. cbn [map_res] in E.
  destruct (check_sub (k, v)) as [y|] eqn:Ey; [|discriminate]. cbn [bind] in E.
  destruct (map_res check_sub d) as [sub'|] eqn:E'; [|discriminate]. destruct I as [C|I]; [|eapply IH; eauto].
  injection C as <- <-. destruct k as [s|]; [|discriminate]. split; [eauto|]. intros ->. discriminate.
Qed.

Lemma check_sub_err (d : list (akey * aelem T)) e : map_res check_sub d = Err e -> e = AssertionError.
Proof.
  revert e. induction d as [|[k v] d IH]; intros e E; [discriminate|]. cbn [map_res] in E.
  destruct (check_sub (k, v)) as [y|x] eqn:Ey.
  - cbn [bind] in E. destruct (map_res check_sub d); [discriminate|]. cbn in E. injection E as <-. apply IH. reflexivity.
  - cbn [bind] in E. injection E as <-. destruct k as [s|], v; cbn in Ey; congruence.
Qed.

Lemma check_aux_err (aux : list (akey * aval T)) e : check_aux aux = Err e -> e = AssertionError.
Proof.
  unfold check_aux. revert e. induction aux as [|[k v] aux IH]; intros e E; [discriminate|]. cbn [map_res fst snd] in E.
  match type of E with bind ?r _ = _ => destruct r as [y|x] eqn:Ey end.
  - cbn [bind] in E. destruct (map_res _ aux) as [l|x] eqn:E'; [discriminate|]. cbn in E. injection E as <-. apply IH. reflexivity.
  - cbn [bind] in E. injection E as <-. destruct k as [s|]; [|congruence]. destruct (has_char " " s); [|congruence].
    destruct v as [d|]; [|congruence]. destruct (map_res check_sub d) as [sub|x'] eqn:Es; [discriminate|]. cbn in Ey. injection Ey as <-.
    eapply check_sub_err; eauto.
Qed.

Lemma check_aux_ok (aux : list (akey * aval T)) : well_formed aux <-> exists ax, check_aux aux = Ok ax.
Proof.
  unfold check_aux. split.
  - intros H. induction aux as [|[k v] aux IH]; [exists []; reflexivity|].
    destruct IH as (ax & E); [intros k' v' I; apply H; right; exact I|].
    destruct (H k v (or_introl eq_refl)) as (s & d & -> & O & -> & Hd). cbn [map_res fst snd].
    apply has_char_true in O. rewrite O. destruct (check_sub_ok d Hd) as (sub & Es & _). rewrite Es. cbn [bind]. rewrite E. cbn. eauto.
  - intros (ax & E). revert ax E. induction aux as [|[k v] aux IH]; intros ax E k' v' I; [destruct I|]. cbn [map_res fst snd] in E.
    match type of E with bind ?r _ = _ => destruct r as [y|x] eqn:Ey; [|discriminate] end. cbn [bind] in E.
    destruct (map_res _ aux) as [l|x] eqn:E'; [|discriminate]. destruct I as [C|I]; [|eapply IH; eauto]. injection C as <- <-.
    destruct k as [s|]; [|discriminate]. destruct (has_char " " s) eqn:O; [|discriminate]. destruct v as [d|]; [|discriminate].
    exists s, d. split; [reflexivity|]. split; [apply has_char_true; exact O|]. split; [reflexivity|].
    destruct (map_res check_sub d) as [sub|] eqn:Es; [|discriminate]. apply check_sub_bad. eauto.
Qed.

Lemma check_aux_facts (aux : list (akey * aval T)) ax : check_aux aux = Ok ax -> od_keys ax = aux_names aux /\
  (has_text aux <-> exists n d k, In (n, d) ax /\ In (k, None) d).
Proof.
  unfold check_aux. revert ax. induction aux as [|[k v] aux IH]; intros ax E.
  - injection E as <-. split; [reflexivity|]. split; [intros (? & ? & ? & [] & _)|intros (? & ? & ? & [] & _)].
  - cbn [map_res fst snd] in E. match type of E with bind ?r _ = _ => destruct r as [y|x] eqn:Ey; [|discriminate] end. cbn [bind] in E.
    destruct (map_res _ aux) as [l|x] eqn:E'; [|discriminate]. cbn in E. injection E as <-.
    destruct (IH l eq_refl) as [K Q]. clear IH. destruct k as [s|]; [|discriminate]. destruct (has_char " " s); [|discriminate].
    destruct v as [d|]; [|discriminate]. destruct (map_res check_sub d) as [sub|] eqn:Es; [|discriminate]. cbn in Ey. injection Ey as <-.
    split; [cbn; unfold od_keys in K; rewrite K; reflexivity|].
    destruct (check_sub_ok d (check_sub_bad d (ex_intro _ sub Es))) as (sub' & Es' & Qs). rewrite Es in Es'. injection Es' as <-.
    unfold has_text in *. split.
    + intros (k0 & d0 & k1 & [C|I] & J).
      * injection C as <- <-. destruct Qs as [_ Qs]. destruct Qs as (k2 & J2); [eauto|]. exists s, sub, k2. split; [left; reflexivity|exact J2].
      * destruct Q as [Q _]. destruct Q as (n & dd & k2 & I2 & J2); [eauto 6|]. exists n, dd, k2. split; [right; exact I2|exact J2].
    + intros (n & dd & k2 & [C|I] & J).
      * injection C as <- <-. destruct Qs as [Qs _]. destruct Qs as (k3 & J3); [eauto|]. exists (AStr s), d, k3. split; [left; reflexivity|exact J3].
      * destruct Q as [_ Q]. destruct Q as (k0 & d0 & k1 & I1 & J1); [eauto 6|]. exists k0, d0, k1. split; [right; exact I1|exact J1].
Qed.

Lemma arrays_ok (d : odict (option (tensor T))) : forall g g' e, write_arrays d g = (g', e) ->
  (e = None <-> ~ exists k, In (k, None) d).
Proof.
  induction d as [|[k [t|]] d IH]; intros g g' e W; cbn [write_arrays] in W.
  - injection W as <- <-. split; [intros _ (k & [])|reflexivity].
  - apply IH in W. rewrite W. split; intros H (k' & I); apply H.
    + destruct I as [C|I]; [discriminate|]. eauto.
    + exists k'. right. exact I.
  - injection W as <- <-. split; [discriminate|]. intros H. exfalso. apply H. exists k. left. reflexivity.
Qed.

Lemma aux_raise (ax : adict T) : NoDup (od_keys ax) -> forall f f' e, write_aux ax f = (f', e) ->
  (e = None <-> (forall n, In n (od_keys ax) -> ~ In n (od_keys f)) /\ ~ exists n d k, In (n, d) ax /\ In (k, None) d) /\
  exists a1 a2, ax = (a1 ++ a2)%list /\ od_keys f' = (od_keys f ++ od_keys a1)%list /\ (e = None -> a2 = []).
Proof.
  induction ax as [|[n d] ax IH]; intros NK f f' e W; cbn [write_aux] in W.
  - injection W as <- <-. split; [split; [intros _; split; [intros n []|intros (n & d & k & [] & _)]|reflexivity]|].
    exists [], []. cbn. rewrite app_nil_r. auto.
  - cbn in NK. inversion NK as [|? ? NN NK']; subst. destruct (od_mem f n) eqn:M.
    + injection W as <- <-. apply od_mem_iff in M. split.
      * split; [discriminate|]. intros [H _]. exfalso. eapply H; [left; reflexivity|exact M].
      * exists [], ((n, d) :: ax). cbn. rewrite app_nil_r. split; [reflexivity|]. split; [reflexivity|discriminate].
    + apply od_mem_false in M. destruct (write_arrays d []) as [g e0] eqn:A. pose proof (arrays_ok _ _ _ _ A) as Q. destruct e0 as [x|].
      * injection W as <- <-. split.
        -- split; [discriminate|]. intros [_ H]. exfalso.
           assert (Some x = None); [|discriminate]. apply Q. intros (k & I). apply H. exists n, d, k. split; [left; reflexivity|exact I].
        -- exists [(n, d)], ax. split; [reflexivity|]. split; [|discriminate]. unfold od_keys. rewrite map_app. reflexivity.
      * apply IH in W; [|exact NK']. destruct W as [W (a1 & a2 & EE & K & E)]. split.
        -- rewrite W. unfold od_keys. rewrite map_app. cbn [map fst]. split; intros [H1 H2]; split.
           ++ intros n0 [<-|I]; [exact M|]. intros J. eapply H1; [exact I|]. apply in_or_app. auto.
           ++ intros (n0 & d0 & k & [C|I] & J).
              ** injection C as <- <-. apply (proj1 Q eq_refl). eauto.
              ** apply H2. eauto.
           ++ intros n0 I J. apply in_app_iff in J. destruct J as [J|[<-|[]]]; [eapply H1; [right; exact I|exact J]|contradiction].
           ++ intros (n0 & d0 & k & I & J). apply H2. exists n0, d0, k. split; [right; exact I|exact J].
        -- exists ((n, d) :: a1), a2. split; [rewrite EE; reflexivity|]. split; [|exact E]. rewrite K. unfold od_keys. rewrite map_app, <- app_assoc. reflexivity.
Qed.

(** *** The disk *)
Lemma refs_ok (heap : list (live T)) refs : present heap refs -> exists names, serial_refs heap refs = Ok names.
Proof.
  unfold serial_refs. generalize (@nil (string * nat)). induction refs as [|i refs IH]; intros d H; [cbn; eauto|].
  cbn [fold_res]. unfold nth_R at 1. destruct (nth_error heap i) as [l|] eqn:G.
  - cbn [bind]. apply IH. intros j J. apply H. right. exact J.
  - apply nth_error_None in G. specialize (H i (or_introl eq_refl)). lia.
Qed.

Lemma refs_short (h1 h2 : list (live T)) refs : map (@l_short T) h1 = map (@l_short T) h2 ->
  serial_refs h1 refs = serial_refs h2 refs.
Proof.
  intros E. unfold serial_refs. generalize (@nil (string * nat)). induction refs as [|i refs IH]; intros d; [reflexivity|].
  cbn [fold_res]. unfold nth_R at 1 3. assert (Q : option_map (@l_short T) (nth_error h1 i) = option_map (@l_short T) (nth_error h2 i))
    by (rewrite <- !nth_error_map, E; reflexivity).
  destruct (nth_error h1 i), (nth_error h2 i); cbn in Q |- *; try discriminate; [|reflexivity]. injection Q as ->. apply IH.
Qed.

(** What a call does, whatever is on the disk. *)
Lemma save_form (heap : list (live T)) refs aux path : present heap refs -> well_formed aux ->
  exists names ax h f1 e1, serial_refs heap refs = Ok names /\ check_aux aux = Ok ax /\ write_objs heap names [] = (h, f1, e1) /\
  forall k, save heap refs aux k path =
    match e1 with
    | Some _ => (h, od_set k path f1, e1)
    | None => (h, od_set k path (fst (write_aux ax f1)), snd (write_aux ax f1))
    end.
Proof.
  intros P W. destruct (refs_ok heap refs P) as (names & En). apply check_aux_ok in W. destruct W as (ax & Ea).
  destruct (write_objs heap names []) as [[h f1] e1] eqn:O. exists names, ax, h, f1, e1. do 2 (split; [assumption|]). split; [exact O|].
  intros k. unfold save, write_serialised. rewrite En, Ea, O. destruct e1; [reflexivity|]. destruct (write_aux ax f1); reflexivity.
Qed.

Lemma save_refused (heap : list (live T)) refs aux k path : present heap refs -> ~ well_formed aux ->
  save heap refs aux k path = (heap, k, Some AssertionError).
Proof.
  intros P W. destruct (refs_ok heap refs P) as (names & En). unfold save, write_serialised. rewrite En.
  destruct (check_aux aux) as [ax|e] eqn:E; [exfalso; apply W, check_aux_ok; eauto|]. apply check_aux_err in E. subst. reflexivity.
Qed.

Lemma well_formed_dec (aux : list (akey * aval T)) : well_formed aux \/ ~ well_formed aux.
Proof.
  destruct (check_aux aux) as [ax|e] eqn:E; [left; apply check_aux_ok; eauto|right]. intros W. apply check_aux_ok in W.
  destruct W as (ax & C). congruence.
Qed.

(** Other files are left alone. *)
Lemma save_others (heap : list (live T)) refs aux k path h k' e path' : present heap refs ->
  save heap refs aux k path = (h, k', e) -> path' <> path -> od_get k' path' = od_get k path'.
Proof.
  intros P S NP. destruct (well_formed_dec aux) as [W|W].
  - destruct (save_form heap refs aux path P W) as (names & ax & h0 & f1 & e1 & _ & _ & _ & Q). rewrite Q in S.
    destruct e1; injection S as _ <- _; apply od_get_set_ne; auto.
  - rewrite save_refused in S by assumption. injection S as _ <- _. reflexivity.
Qed.

(** The file is replaced as a whole, also when the call raises. *)
Lemma save_replaces (heap : list (live T)) refs aux path : present heap refs -> well_formed aux -> NoDup (aux_names aux) ->
  exists h f e, (forall k, save heap refs aux k path = (h, od_set k path f, e)) /\
  (forall n, In n (od_keys f) -> (exists i l, In i refs /\ nth_error heap i = Some l /\ l_short l = n) \/ In n (aux_names aux)) /\
  (e = None -> forall n, (exists i l, In i refs /\ nth_error heap i = Some l /\ l_short l = n) \/ In n (aux_names aux) -> In n (od_keys f)).
Proof.
  intros P W NA. destruct (save_form heap refs aux path P W) as (names & ax & h0 & f1 & e1 & En & Ea & O & Q).
  destruct (check_aux_facts aux ax Ea) as [Ka _]. rewrite <- Ka in *.
  destruct (serial_refs_ok heap refs names En) as (_ & _ & HL & HW).
  assert (KN : forall n, In n (od_keys names) <-> exists i l, In i refs /\ nth_error heap i = Some l /\ l_short l = n).
  { intros n. split.
    - intros I. apply in_map_iff in I. destruct I as ([n' i] & C & I). cbn in C. subst n'. destruct (HL n i I) as (l & G & S).
      exists i, l. split; [|auto]. apply (in_map snd) in I. apply HW in I. destruct I as (r1 & r2 & l' & -> & _). apply in_or_app. cbn. auto.
    - intros (i & l & I & G & S). clear - En I G S N F. revert names En. induction refs as [|j refs IH] using rev_ind; intros names En; [destruct I|].
      unfold serial_refs in En. rewrite fold_res_app in En. fold (serial_refs heap refs) in En.
      destruct (serial_refs heap refs) as [d|] eqn:E; [|discriminate]. cbn [bind fold_res] in En.
      destruct (nth_R heap j) as [lj|] eqn:Ej; [|discriminate]. cbn [bind] in En. injection En as <-. apply nth_R_ok in Ej.
      apply od_keys_set_in. apply in_app_iff in I. destruct I as [I|[->|[]]].
      + right. apply IH; auto.
      + left. congruence. }
  destruct (objs_keys names heap [] h0 f1 e1 O) as (n1 & n2 & Enn & Kf & E2). cbn in Kf.
  destruct e1 as [x|].
  - exists h0, f1, (Some x). split; [exact Q|]. split; [|discriminate]. intros n I. left. apply KN. rewrite Kf in I.
    rewrite Enn. unfold od_keys. rewrite map_app. apply in_or_app. auto.
  - destruct (write_aux ax f1) as [f2 e2] eqn:A. cbn [fst snd] in Q. exists h0, f2, e2. split; [exact Q|].
    destruct (aux_raise ax NA f1 f2 e2 A) as [_ (a1 & a2 & Eax & K2 & E3)]. rewrite (E2 eq_refl), app_nil_r in Enn. subst n1. split.
    + intros n I. rewrite K2 in I. apply in_app_iff in I. destruct I as [I|I].
      * left. apply KN. rewrite Kf in I. exact I.
      * right. rewrite Eax. unfold od_keys. rewrite map_app. apply in_or_app. auto.
    + intros E n H. rewrite (E3 E), app_nil_r in Eax. subst a1. rewrite K2. apply in_or_app. rewrite Kf. rewrite KN. exact H.
Qed.

(** When it raises. *)
Lemma save_raises (heap : list (live T)) refs aux k path h k' e : present heap refs -> well_formed aux -> NoDup (aux_names aux) ->
  save heap refs aux k path = (h, k', e) ->
  (e <> None <-> (exists i l, last_of_name heap refs i /\ nth_error heap i = Some l /\ broken l) \/
                 (exists i l, In i refs /\ nth_error heap i = Some l /\ In (l_short l) (aux_names aux)) \/ has_text aux).
Proof.
  intros P W NA S. destruct (save_form heap refs aux path P W) as (names & ax & h0 & f1 & e1 & En & Ea & O & Q).
  destruct (check_aux_facts aux ax Ea) as [Ka Ht]. rewrite <- Ka in *. rewrite Ht. clear Ht.
  destruct (serial_refs_ok heap refs names En) as (NK & NS & HL & HW).
  assert (R : e1 = None <-> forall n i l, In (n, i) names -> nth_error heap i = Some l -> ~ broken l).
  { eapply objs_raise; [exact NS|exact NK| | |exact O].
    - intros n i I. destruct (HL n i I) as (l & G & _). apply nth_error_Some. congruence.
    - intros n _ []. }
  destruct (objs_keys names heap [] h0 f1 e1 O) as (n1 & n2 & Enn & Kf & E2). cbn in Kf.
  rewrite Q in S. destruct e1 as [x|].
  - injection S as <- <- <-. split; [intros _|discriminate]. left.
    assert (NR : ~ forall n i l, In (n, i) names -> nth_error heap i = Some l -> ~ broken l) by (intros C; apply R in C; discriminate).
    clear - NR HW HL.
    assert (D : forall nm : odict nat, (forall n i, In (n, i) nm -> exists l, nth_error heap i = Some l) ->
       (forall n i l, In (n, i) nm -> nth_error heap i = Some l -> ~ broken l) \/
       exists n i l, In (n, i) nm /\ nth_error heap i = Some l /\ broken l).
    { induction nm as [|[n i] nm IH]; intros H; [left; intros ? ? ? []|]. destruct (H n i (or_introl eq_refl)) as (l & G).
      assert (B : broken l \/ ~ broken l).
      { destruct (write_obj l) as [[l' g] e] eqn:O. pose proof (obj_raises _ _ _ _ O) as B. destruct e as [x|]; [|right; apply B; reflexivity].
        left. destruct (obj_cases l) as [(b & k & v & a & e' & E & U & HH & QQ)|(HH & g' & e' & QQ & PP)].
        - left. exists k, v. split; [rewrite E; apply in_or_app; cbn; auto|exact U].
        - rewrite QQ in O. injection O as <- <- ->. right. destruct (l_prob l); [|reflexivity]. exfalso.
          assert (Some x = None); [apply PP; discriminate|discriminate]. }
      destruct B as [B|B].
      - right. exists n, i, l. split; [left; reflexivity|auto].
      - destruct IH as [IH|(n' & i' & l' & I & G' & B')]; [intros; eapply H; right; eauto| |].
        + left. intros n' i' l' [C|I] G'; [injection C as <- <-; assert (l' = l) by congruence; subst; exact B|eauto].
        + right. exists n', i', l'. split; [right; exact I|auto]. }
    destruct (D names) as [C|(n & i & l & I & G & B)]; [intros n i I; destruct (HL n i I) as (l & G & _); eauto|contradiction|].
    exists i, l. split; [apply HW; apply (in_map snd) in I; exact I|auto].
  - destruct (write_aux ax f1) as [f2 e2] eqn:A. cbn [fst snd] in S. injection S as <- <- <-.
    destruct (aux_raise ax NA f1 f2 e2 A) as [RA _]. rewrite (E2 eq_refl), app_nil_r in Enn. subst n1.
    assert (NB : ~ exists i l, last_of_name heap refs i /\ nth_error heap i = Some l /\ broken l).
    { intros (i & l & L & G & B). apply HW in L. apply in_map_iff in L. destruct L as ([n j] & C & I). cbn in C. subst j.
      eapply (proj1 R eq_refl); eauto. }
    assert (KN : forall n, In n (od_keys names) <-> exists i l, In i refs /\ nth_error heap i = Some l /\ l_short l = n).
    { destruct (save_replaces heap refs [] path P) as (h9 & f' & e' & QQ & KK1 & KK2).
      - intros ? ? [].
      - constructor.
      - specialize (QQ []). unfold save, write_serialised in QQ. rewrite En, O in QQ. cbn in QQ. injection QQ as <- <- <-.
        intros n. rewrite <- Kf. split; [intros I; destruct (KK1 n I) as [C|[]]; exact C|]. intros C. apply KK2; auto. }
    rewrite Kf in RA.
    split.
    + intros NE. right. destruct e2 as [x|]; [|contradiction].
      destruct (existsb (fun n => mem_str n (od_keys names)) (od_keys ax)) eqn:X.
      * left. apply existsb_exists in X. destruct X as (n & I & M). apply mem_str_iff in M. apply KN in M. destruct M as (i & l & I' & G & <-). eauto.
      * right. destruct (existsb (fun nd => existsb (fun kt => match snd kt with None => true | _ => false end) (snd nd)) ax) eqn:Y.
        -- apply existsb_exists in Y. destruct Y as ([n d] & I & M). apply existsb_exists in M. destruct M as ([kk [t|]] & I' & M); [discriminate|]. eauto.
        -- exfalso. assert (Some x = None); [|discriminate]. apply RA. split.
           ++ intros n I J. assert (existsb (fun n => mem_str n (od_keys names)) (od_keys ax) = true); [|congruence].
              apply existsb_exists. exists n. split; [exact I|apply mem_str_iff; exact J].
           ++ intros (n & d & kk & I & J). assert (C : existsb (fun nd => existsb (fun kt : string * option (tensor T) => match snd kt with None => true | _ => false end) (snd nd)) ax = true); [|congruence].
              apply existsb_exists. exists (n, d). split; [exact I|]. apply existsb_exists. exists (kk, None). auto.
    + intros [C|[(i & l & I & G & M)|C]] ->.
      * contradiction.
      * destruct RA as [RA _]. destruct (RA eq_refl) as [R1 _]. eapply R1; [exact M|]. apply KN. eauto.
      * destruct RA as [RA _]. destruct (RA eq_refl) as [_ R2]. contradiction.
Qed.

(** Writing once more gives the same file. *)
Lemma save_again (heap : list (live T)) refs aux k path h k' e : present heap refs ->
  save heap refs aux k path = (h, k', e) ->
  forall k2 path2, exists k2', save h refs aux k2 path2 = (h, k2', e) /\
    (well_formed aux -> od_get k2' path2 = od_get k' path /\ od_get k' path <> None).
Proof.
  intros P S k2 path2. destruct (well_formed_dec aux) as [W|W].
  - destruct (save_form heap refs aux path P W) as (names & ax & h0 & f1 & e1 & En & Ea & O & Q). rewrite Q in S.
    destruct (serial_refs_ok heap refs names En) as (NK & NS & HL & HW).
    pose proof (objs_again names NS heap [] h0 f1 e1 O) as O'.
    assert (h0 = h) by (destruct e1; injection S as <- _ _; reflexivity). subst h0.
    assert (En' : serial_refs h refs = Ok names) by (rewrite (refs_short h heap refs); [exact En|eapply objs_short; exact O]).
    unfold save, write_serialised. rewrite En', Ea, O'. destruct e1 as [x|].
    + injection S as <- <-. eexists. split; [reflexivity|]. intros _. rewrite !od_get_set_eq. split; [reflexivity|discriminate].
    + destruct (write_aux ax f1) as [f2 e2]. cbn [fst snd] in S. injection S as <- <-. eexists. split; [reflexivity|].
      intros _. rewrite !od_get_set_eq. split; [reflexivity|discriminate].
  - rewrite save_refused in S by assumption. injection S as <- <- <-. exists k2. rewrite save_refused by assumption. split; [reflexivity|contradiction].
Qed.

Lemma save_lost (heap : list (live T)) refs aux k path h k' e :
  present heap refs -> well_formed aux -> NoDup (aux_names aux) -> save heap refs aux k path = (h, k', Some e) ->
  exists f, od_get k' path = Some f /\
  forall n, In n (od_keys f) -> (exists i l, In i refs /\ nth_error heap i = Some l /\ l_short l = n) \/ In n (aux_names aux).
Proof.
  intros P W ND S. destruct (save_replaces heap refs aux path P W ND) as (h1 & f & e1 & Q & G & _). rewrite Q in S. injection S as _ <- _.
  exists f. split; [apply od_get_set_eq|exact G].
Qed.
End Any.
