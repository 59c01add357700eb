(** Conditioning: the loops of conditionalise. *)
From Coq Require Import String ZArith Reals Lra Bool Arith Lia Permutation List.
From Verif Require Import Base Num Tensor TensorBcast OdLemmas TensorLemmas RNumLemmas PScales PScales_Spec
  PScales_Proofs PScales_Prod Names Names_Spec Distr PDModel PDUtils PD_Spec PD_Make PD_Sums PD_Valid PD_Marg PD_Align
  PD_Move.
Import ListNotations.

Lemma Zmem_iff x l : Zmem x l = true <-> In x l.
Proof.
  unfold Zmem. rewrite existsb_exists. split.
  - intros (y & H & E). apply Z.eqb_eq in E. subst. auto.
  - intros H. exists x. split; auto. apply Z.eqb_refl.
Qed.

Lemma some_dims_app a b : some_dims (a ++ b) = some_dims a ++ some_dims b.
Proof. unfold some_dims. apply flat_map_app. Qed.

Lemma some_dims_map (f : string -> bool) (g : string -> Z) l :
  some_dims (map (fun k => (k, if f k then Some (g k) else None)) l) = map g (filter f l).
Proof.
  induction l as [|k l IH]; [reflexivity|]. cbn [map filter].
  change (some_dims ((k, if f k then Some (g k) else None) :: map (fun k => (k, if f k then Some (g k) else None)) l))
    with ((match (if f k then Some (g k) else None) with Some d => [d] | None => [] end) ++
          some_dims (map (fun k => (k, if f k then Some (g k) else None)) l)).
  rewrite IH. destruct (f k); reflexivity.
Qed.

Section Cond.
Context {F : Fmt R}.
Variable p : pd R.
Variable L : list string.
Hypothesis V : valid_pd p L.
Variable keys : list string.
Hypothesis NK : NoDup keys.
Hypothesis IM : incl keys (od_keys (p_marg p)).

Definition colkey (k : string) : bool := mem_str k keys && mem_str k L.

(** dims before and after the shift, and the final ones *)
Definition rawdim (k : string) : Z :=
  if od_mem (p_marg p) k then Z.of_nat (pos k L)
  else (Z.of_nat (pos k L) - Z.of_nat (length (filter colkey (before k (p_keylist p)))))%Z.

Definition stay : list string := filter (fun k => negb (colkey k)) (p_keylist p).
Definition staycols : list string := filter (fun k => mem_str k L) stay.
Definition rawmin : Z := match map rawdim staycols with [] => 0%Z | d0 :: ds => zmin_list ds d0 end.
Definition topdim : Z := fold_left Z.max (map (fun k => rawdim k - rawmin)%Z staycols) 0%Z.
Definition keymin : Z := zmin_list (map (fun k => Z.of_nat (pos k L)) (restrict L keys)) (Z.of_nat (length L)).

Definition newdim (k : string) : Z :=
  if mem_str k keys then (Z.of_nat (pos k L) - keymin + topdim + 1)%Z else (rawdim k - rawmin)%Z.

Definition newdims : odict (option Z) :=
  map (fun k => (k, if mem_str k L then Some (newdim k) else None)) stay ++
  map (fun k => (k, Some (newdim k))) (restrict L keys).

Definition mentry (k : string) : string :=
  match od_get (p_marg p) k with Some e => e | None => ""%string end.

Definition cmarg : odict string := filter (fun kv => negb (mem_str (fst kv) keys)) (p_marg p).
Definition ccond : odict string := p_cond p ++ map (fun k => (k, mentry k)) (restrict keys (p_keylist p)).

(** some scalar is among the keys *)
Definition cnorm : bool := existsb (fun k => mem_str k keys && negb (mem_str k L)) (p_keylist p).

Lemma cond_loop :
  exists delta, fold_res (cond_step p keys) (p_items p) (mkCS (p_marg p) (p_cond p) [] 0%Z false) =
    Ok (mkCS cmarg ccond (map (fun k => (k, if mem_str k L then Some (rawdim k) else None)) stay) delta cnorm).
Proof.
  destruct (vp_marg_cond p L V) as (NM & NC & DJ).
  destruct (@fold_res_ok _ _ (cond_step p keys) (fun pre st =>
    c_marg st = filter (fun kv => negb (mem_str (fst kv) (restrict keys (names pre)))) (p_marg p) /\
    c_cond st = p_cond p ++ map (fun k => (k, mentry k)) (restrict keys (names pre)) /\
    c_dims st = map (fun k => (k, if mem_str k L then Some (rawdim k) else None)) (filter (fun k => negb (colkey k)) (names pre)) /\
    c_delta st = Z.of_nat (length (filter colkey (names pre))) /\
    c_norm st = existsb (fun k => mem_str k keys && negb (mem_str k L)) (names pre))
    (p_items p) (mkCS (p_marg p) (p_cond p) [] 0%Z false)) as (st & E & Hm & Hc & Hd & Hl & Hn).
  { cbn. rewrite app_nil_r. repeat split; auto. clear. induction (p_marg p); cbn; congruence. }
  { intros pre [[k v] s] post st E (Hm & Hc & Hd & Hl & Hn).
    destruct (items_split _ _ V _ _ _ _ _ E) as (G & -> & Kpre & KL & Kk).
    assert (Nm : forall s, names (pre ++ [(k, v, s)]) = names pre ++ [k]) by (intros s; rewrite names_app; reflexivity).
    assert (Nd : ~ In k (od_keys (c_dims st))).
    { rewrite Hd. unfold od_keys. rewrite map_map. cbn. rewrite map_id. intros C. apply filter_In in C. tauto. }
    assert (First : exists mm cc,
      (if mem_str k keys then let! entry := od_getR (c_marg st) k in
         Ok (od_del (c_marg st) k, od_set (c_cond st) k entry) else Ok (c_marg st, c_cond st)) = Ok (mm, cc) /\
      mm = filter (fun kv => negb (mem_str (fst kv) (restrict keys (names pre ++ [k])))) (p_marg p) /\
      cc = p_cond p ++ map (fun k => (k, mentry k)) (restrict keys (names pre ++ [k]))).
    { destruct (mem_str k keys) eqn:Mk.
      - assert (R1 : restrict keys (names pre ++ [k]) = restrict keys (names pre) ++ [k]).
        { unfold restrict. rewrite filter_app. cbn. rewrite Mk. auto. }
        assert (Mkk : In k keys) by (apply mem_str_iff; auto).
        assert (Ge : od_get (c_marg st) k = Some (mentry k)).
        { rewrite Hm, (od_get_filter (fun x => negb (mem_str x (restrict keys (names pre))))).
          rewrite (proj2 (mem_str_false k (restrict keys (names pre)))) by (intros C; apply in_restrict in C; tauto).
          cbn [negb]. unfold mentry.
          destruct (od_key_get (p_marg p) k (IM _ Mkk)) as (e & Eg). rewrite Eg. reflexivity. }
        unfold od_getR. rewrite Ge. cbn [bind]. do 2 eexists. split; [reflexivity|]. rewrite R1. split.
        + rewrite Hm. apply od_del_remaining. auto.
        + rewrite od_set_new.
          * rewrite Hc, map_app. cbn. rewrite app_assoc. reflexivity.
          * rewrite Hc. unfold od_keys. rewrite map_app, map_map. cbn. rewrite map_id. intros C.
            apply in_app_or in C. destruct C as [C|C]; [|apply in_restrict in C; tauto].
            apply (DJ k); auto.
      - assert (R1 : restrict keys (names pre ++ [k]) = restrict keys (names pre)).
        { unfold restrict. rewrite filter_app. cbn. rewrite Mk, app_nil_r. auto. }
        do 2 eexists. split; [reflexivity|]. rewrite R1. auto. }
    destruct First as (mm & cc & E1 & Emm & Ecc).
    unfold cond_step. rewrite E1. cbn [bind]. rewrite Nm.
    assert (Fc : forall l, filter colkey (l ++ [k]) = filter colkey l ++ (if colkey k then [k] else [])).
    { intros l. rewrite filter_app. cbn. destruct (colkey k); auto. }
    assert (Fs : filter (fun x => negb (colkey x)) (names pre ++ [k]) =
                 filter (fun x => negb (colkey x)) (names pre) ++ (if colkey k then [] else [k])).
    { rewrite filter_app. cbn. destruct (colkey k); auto. }
    rewrite Fs, Fc, map_app, app_length, existsb_app. cbn [existsb]. rewrite orb_false_r.
    destruct (mem_str k L) eqn:ML; cbn [negb].
    - unfold od_getR. pose proof (vp_dim p L V k Kk) as VD. rewrite ML in VD. unfold od_getR in VD. rewrite VD. cbn [bind].
      assert (Ck : colkey k = mem_str k keys) by (unfold colkey; rewrite ML; apply andb_true_r).
      rewrite Ck, andb_false_r, orb_false_r.
      destruct (od_mem (p_marg p) k) eqn:Mm.
      + destruct (mem_str k keys) eqn:Mk; eexists; (split; [reflexivity|]); cbn [c_marg c_cond c_dims c_delta c_norm length map app];
          repeat split; auto; try lia.
        * rewrite app_nil_r. auto.
        * rewrite od_set_new by auto. rewrite Hd. f_equal. rewrite ML. unfold rawdim. rewrite Mm. reflexivity.
      + assert (Mk : mem_str k keys = false).
        { apply mem_str_false. intros C. apply IM in C. apply od_mem_iff in C. congruence. }
        rewrite Mk. eexists. split; [reflexivity|]. cbn [c_marg c_cond c_dims c_delta c_norm length map app].
        repeat split; auto; try lia. rewrite od_set_new by auto. rewrite Hd. f_equal. rewrite ML. unfold rawdim. rewrite Mm.
        rewrite KL, before_app by auto. rewrite Hl. reflexivity.
    - assert (Ck : colkey k = false) by (unfold colkey; rewrite ML; apply andb_false_r).
      rewrite Ck. eexists. split; [reflexivity|]. cbn [c_marg c_cond c_dims c_delta c_norm length map app].
      repeat split; auto; try lia.
      + rewrite od_set_new by auto. rewrite Hd. f_equal. rewrite ML. reflexivity.
      + rewrite Hn, andb_true_r. reflexivity. }
  rewrite (names_items p L V) in *.
  exists (c_delta st). rewrite E. f_equal. destruct st as [sm sc sd sl sn]. cbn [c_marg c_cond c_dims c_delta c_norm] in *.
  f_equal; auto. rewrite Hm. unfold cmarg. apply filter_ext_in. intros [k e] Hin. cbn. f_equal.
  apply eq_true_iff_eq. rewrite !mem_str_iff, in_restrict. split; [tauto|]. intros Hk. split; auto.
  apply (vp_key_iff p L V). left. apply IM. auto.
Qed.

Lemma in_staycols k : In k staycols <-> In k L /\ ~ In k keys.
Proof.
  unfold staycols, stay. rewrite filter_In, filter_In, mem_str_iff. unfold colkey. split.
  - intros [[H1 H2] H3]. split; auto. intros C. apply mem_str_iff in C. apply mem_str_iff in H3. rewrite C, H3 in H2. discriminate.
  - intros [H1 H2]. repeat split; auto. { apply (vp_incl _ _ V). auto. }
    apply mem_str_false in H2. rewrite H2. reflexivity.
Qed.

Lemma in_stay k : In k stay <-> In k (p_keylist p) /\ ~ (In k keys /\ In k L).
Proof.
  unfold stay. rewrite filter_In. unfold colkey. rewrite negb_true_iff, andb_false_iff, !mem_str_false.
  split; intros [H1 H2]; split; auto; try tauto.
Qed.

Lemma lower_dims_eq :
  lower_dims (map (fun k => (k, if mem_str k L then Some (rawdim k) else None)) stay) =
  (map (fun k => (k, if mem_str k L then Some (newdim k) else None)) stay, topdim).
Proof.
  assert (ND : forall k, In k stay -> mem_str k L = true -> newdim k = (rawdim k - rawmin)%Z).
  { intros k Hk ML. apply in_stay in Hk. unfold newdim.
    rewrite (proj2 (mem_str_false k keys)); auto. intros C. apply mem_str_iff in ML. tauto. }
  assert (NE : map (fun k => (k, if mem_str k L then Some (newdim k) else None)) stay =
               map (fun k => (k, if mem_str k L then Some (rawdim k - rawmin)%Z else None)) stay).
  { apply map_ext_in. intros k Hk. destruct (mem_str k L) eqn:ML; auto. rewrite ND; auto. }
  unfold lower_dims. rewrite some_dims_map. fold staycols. rewrite NE. unfold topdim, rawmin.
  destruct (map rawdim staycols) as [|d0 ds] eqn:E.
  - apply map_eq_nil in E. rewrite E. cbn [map fold_left]. f_equal.
    apply map_ext_in. intros k Hk. destruct (mem_str k L) eqn:ML; auto. exfalso.
    assert (In k staycols) by (apply filter_In; auto). rewrite E in H. destruct H.
  - rewrite map_map. cbn [fst snd].
    assert (EE : map (fun x => (x, match (if mem_str x L then Some (rawdim x) else None) with
                                   | Some d => Some (d - zmin_list ds d0)%Z | None => None end)) stay =
                 map (fun k => (k, if mem_str k L then Some (rawdim k - zmin_list ds d0)%Z else None)) stay).
    { apply map_ext. intros k. destruct (mem_str k L); reflexivity. }
    rewrite EE. rewrite some_dims_map. reflexivity.
Qed.

Lemma key_in_list k : In k keys -> In k (p_keylist p).
Proof. intros H. apply (vp_key_iff p L V). left. auto. Qed.

Lemma keys_newdims : od_keys newdims = stay ++ restrict L keys.
Proof. unfold newdims, od_keys. rewrite map_app, !map_map. cbn. rewrite !map_id. reflexivity. Qed.

Lemma nodup_newdims : NoDup (od_keys newdims).
Proof.
  rewrite keys_newdims. apply nodup_app_iff. split; [apply filter_nodup, (vp_keys _ _ V)|]. split; [apply filter_nodup; auto|].
  intros k H1 H2. apply in_stay in H1. apply in_restrict in H2. tauto.
Qed.

Lemma in_newdims k : In k (od_keys newdims) <-> In k (p_keylist p).
Proof.
  rewrite keys_newdims, in_app_iff, in_stay, in_restrict. split.
  - intros [H|[H1 H2]]; [tauto|]. apply key_in_list. tauto.
  - intros H. destruct (in_dec string_dec k keys), (in_dec string_dec k L); tauto.
Qed.

Lemma newdims_col k : In k L -> od_get newdims k = Some (Some (newdim k)).
Proof.
  intros Hk. apply od_in_get; [apply nodup_newdims|]. unfold newdims. apply in_or_app.
  destruct (in_dec string_dec k keys) as [Kk|Kk].
  - right. apply in_map_iff. exists k. split; auto. apply in_restrict. auto.
  - left. apply in_map_iff. exists k. rewrite (proj2 (mem_str_iff k L) Hk). split; auto.
    apply in_stay. split; [apply (vp_incl _ _ V)|]; tauto.
Qed.

Lemma newdims_scalar k : In k (p_keylist p) -> ~ In k L -> od_get newdims k = Some None.
Proof.
  intros Hk Hn. apply od_in_get; [apply nodup_newdims|]. unfold newdims. apply in_or_app. left.
  apply in_map_iff. exists k. rewrite (proj2 (mem_str_false k L) Hn). split; auto. apply in_stay. tauto.
Qed.

Lemma append_eq :
  append_key_dims p keys (map (fun k => (k, if mem_str k L then Some (newdim k) else None)) stay) topdim = Ok newdims.
Proof.
  unfold append_key_dims.
  assert (E : map_res (fun k => let! d := od_getR (p_dims p) k in Ok (k, d)) keys =
              Ok (map (fun k => (k, if mem_str k L then Some (Z.of_nat (pos k L)) else None)) keys)).
  { apply map_res_ok. pose proof key_in_list as KI. clear - V KI. induction keys as [|k l IH]; cbn [map]; constructor.
    - rewrite (vp_dim p L V k) by (apply KI; cbn; auto). destruct (mem_str k L); reflexivity.
    - apply IH. intros x Hx. apply KI. cbn. auto. }
  rewrite E. cbn [bind]. f_equal. rewrite some_dims_map.
  assert (EN : p_ndim p = length L).
  { unfold p_ndim. pose proof (vp_ndim _ _ V) as H. rewrite H. reflexivity. }
  rewrite EN. fold (restrict L keys). fold keymin.
  unfold newdims.
  assert (K : forall ks, NoDup ks -> (forall k, In k ks -> In k keys) -> forall acc : odict (option Z),
    (forall k, In k ks -> In k L -> ~ In k (od_keys acc)) ->
    fold_left (fun acc e => match snd e with
                              | Some d => od_set acc (fst e) (Some (d - keymin + topdim + 1)%Z)
                              | None => acc
                              end) (map (fun k => (k, if mem_str k L then Some (Z.of_nat (pos k L)) else None)) ks) acc =
    acc ++ map (fun k => (k, Some (newdim k))) (restrict L ks)).
  { clear E. induction ks as [|k ks IH]; intros N I acc A; cbn [map fold_left restrict filter].
    - rewrite app_nil_r. reflexivity.
    - inversion N as [|? ? N1 N2]; subst. cbn [fst snd]. destruct (mem_str k L) eqn:ML.
      + assert (Hk : In k L) by (apply mem_str_iff; auto).
        rewrite od_set_new by (apply A; cbn; auto). rewrite IH; auto.
        * rewrite <- app_assoc. cbn. f_equal. f_equal. f_equal. f_equal. unfold newdim.
          rewrite (proj2 (mem_str_iff k keys)) by (apply I; cbn; auto). reflexivity.
        * intros x Hx. apply I. cbn. auto.
        * intros x Hx HxL C. unfold od_keys in C. rewrite map_app in C. apply in_app_or in C. destruct C as [C|[C|[]]].
          -- apply (A x); cbn; auto.
          -- cbn in C. subst. auto.
      + apply IH; auto. { intros x Hx. apply I. cbn. auto. } intros x Hx HxL. apply A; cbn; auto. }
  apply K; auto. intros k Hk HL C. unfold od_keys in C. rewrite map_map in C. cbn in C. rewrite map_id in C.
  apply in_stay in C. tauto.
Qed.

(** the columns in key order *)
Definition kcols : list string := filter (fun k => mem_str k L) (p_keylist p).
Definition sumcols : list string := filter (fun k => negb (mem_str k keys) && od_mem (p_marg p) k) kcols.

Lemma in_kcols k : In k kcols <-> In k L.
Proof.
  unfold kcols. rewrite filter_In, mem_str_iff. split; [tauto|]. split; auto. apply (vp_incl _ _ V). auto.
Qed.

Lemma nodup_kcols : NoDup kcols.
Proof. apply filter_nodup, (vp_keys _ _ V). Qed.

Lemma cond_axes_eq : exists sum,
  cond_axes p keys newdims = Ok (map (fun k => Z.of_nat (pos k L)) kcols, map newdim kcols, sum) /\
  ((forall x y, In x L -> In y L -> newdim x = newdim y -> x = y) -> sum = map newdim sumcols).
Proof.
  unfold cond_axes.
  destruct (@fold_res_ok _ _ (fun (acc : list Z * list Z * list Z) key =>
              let '(old, new, sum) := acc in
              let! od := od_getR (p_dims p) key in
              match od with
              | None => Ok acc
              | Some o =>
                  if Zmem o old then Ok acc
                  else
                    let! nd := od_getR newdims key in
                    match nd with
                    | None => Err TypeError
                    | Some n =>
                        Ok (old ++ [o], new ++ [n],
                            if negb (mem_str key keys) && od_mem (p_marg p) key
                            then set_addZ sum n else sum)
                    end
              end) (fun pre acc =>
     fst (fst acc) = map (fun k => Z.of_nat (pos k L)) (filter (fun k => mem_str k L) pre) /\
     snd (fst acc) = map newdim (filter (fun k => mem_str k L) pre) /\
     ((forall x y, In x L -> In y L -> newdim x = newdim y -> x = y) ->
       snd acc = map newdim (filter (fun k => negb (mem_str k keys) && od_mem (p_marg p) k) (filter (fun k => mem_str k L) pre))))
    (p_keylist p) ([], [], [])) as ([[old new] sum] & E & H1 & H2 & H3).
  { cbn. auto. }
  { intros pre k post [[old new] sum] E (H1 & H2 & H3). cbn [fst snd] in *.
    assert (Kk : In k (p_keylist p)) by (rewrite E; apply in_or_app; cbn; auto).
    assert (Kpre : ~ In k pre).
    { pose proof (vp_keys _ _ V) as N. rewrite E in N. apply NoDup_remove_2 in N. rewrite in_app_iff in N. tauto. }
    rewrite (vp_dim p L V k Kk), filter_app. cbn [filter]. destruct (mem_str k L) eqn:ML; cbn [bind].
    - assert (HkL : In k L) by (apply mem_str_iff; auto).
      assert (Zf : Zmem (Z.of_nat (pos k L)) old = false).
      { apply not_true_is_false. intros C. apply Zmem_iff in C. rewrite H1 in C. apply in_map_iff in C.
        destruct C as (x & Ex & Hx). apply Nat2Z.inj in Ex. apply filter_In in Hx. destruct Hx as [Hx1 Hx2].
        apply mem_str_iff in Hx2. apply pos_inj in Ex; auto. subst. auto. }
      rewrite Zf. unfold od_getR. rewrite (newdims_col k HkL). cbn [bind]. eexists. split; [reflexivity|]. cbn [fst snd].
      rewrite !map_app, filter_app. cbn [map filter]. split; [congruence|]. split; [congruence|].
      intros Inj. rewrite H3 by auto. destruct (negb (mem_str k keys) && od_mem (p_marg p) k).
      + unfold set_addZ. assert (Zs : Zmem (newdim k) (map newdim (filter (fun k => negb (mem_str k keys) && od_mem (p_marg p) k) (filter (fun k => mem_str k L) pre))) = false).
        { apply not_true_is_false. intros C. apply Zmem_iff in C. apply in_map_iff in C. destruct C as (x & Ex & Hx).
          apply filter_In in Hx. destruct Hx as [Hx _]. apply filter_In in Hx. destruct Hx as [Hx1 Hx2].
          apply mem_str_iff in Hx2. apply Inj in Ex; auto. subst. auto. }
        rewrite Zs, map_app. reflexivity.
      + rewrite app_nil_r. reflexivity.
    - eexists. split; [reflexivity|]. cbn [fst snd]. rewrite app_nil_r. auto. }
  exists sum. cbn [fst snd] in *. split; [|exact H3]. rewrite E. fold kcols in H1, H2. congruence.
Qed.

(** *** the dims are all non-negative *)
Lemma zmin_le l d : (zmin_list l d <= d)%Z /\ forall x, In x l -> (zmin_list l d <= x)%Z.
Proof.
  unfold zmin_list. revert d. induction l as [|y l IH]; intros d; cbn; [split; [lia|tauto]|].
  destruct (IH (Z.min d y)) as [H1 H2]. split; [lia|]. intros x [->|Hx]; [lia|auto].
Qed.

Lemma zmin_in l d : zmin_list l d = d \/ In (zmin_list l d) l.
Proof.
  unfold zmin_list. revert d. induction l as [|y l IH]; intros d; cbn; auto.
  destruct (IH (Z.min d y)) as [H|H]; auto. destruct (Z.min_spec d y) as [[_ E]|[_ E]]; rewrite E in *; auto.
Qed.

Lemma zmax_ge l d : (d <= fold_left Z.max l d)%Z /\ forall x, In x l -> (x <= fold_left Z.max l d)%Z.
Proof.
  revert d. induction l as [|y l IH]; intros d; cbn; [split; [lia|tauto]|].
  destruct (IH (Z.max d y)) as [H1 H2]. split; [lia|]. intros x [->|Hx]; [lia|auto].
Qed.

Lemma zmax_in l d : fold_left Z.max l d = d \/ In (fold_left Z.max l d) l.
Proof.
  revert d. induction l as [|y l IH]; intros d; cbn; auto.
  destruct (IH (Z.max d y)) as [H|H]; auto. destruct (Z.max_spec d y) as [[_ E]|[_ E]]; rewrite E in *; auto.
Qed.

Lemma rawmin_le k : In k staycols -> (rawmin <= rawdim k)%Z.
Proof.
  intros H. apply (in_map rawdim) in H. unfold rawmin. destruct (map rawdim staycols) as [|d0 ds]; [destruct H|].
  destruct (zmin_le ds d0) as [H1 H2]. destruct H as [<-|H]; auto.
Qed.

Lemma rawmin_in : staycols <> [] -> exists k, In k staycols /\ rawdim k = rawmin.
Proof.
  intros NE. unfold rawmin. assert (H : In (match map rawdim staycols with [] => 0%Z | d0 :: ds => zmin_list ds d0 end) (map rawdim staycols)).
  { destruct (map rawdim staycols) as [|d0 ds] eqn:E; [apply map_eq_nil in E; contradiction|].
    destruct (zmin_in ds d0) as [H|H]; cbn; auto. }
  apply in_map_iff in H. destruct H as (k & Ek & Hk). exists k. auto.
Qed.

Lemma newdim_stay k : In k L -> ~ In k keys -> (0 <= newdim k <= topdim)%Z.
Proof.
  intros Hk Hn. assert (Hs : In k staycols) by (apply in_staycols; auto).
  unfold newdim. rewrite (proj2 (mem_str_false k keys) Hn). split.
  - pose proof (rawmin_le k Hs). lia.
  - unfold topdim. apply zmax_ge. apply in_map_iff. exists k. auto.
Qed.

Lemma newdim_key k : In k L -> In k keys -> (topdim < newdim k)%Z.
Proof.
  intros Hk Hn. unfold newdim. rewrite (proj2 (mem_str_iff k keys) Hn).
  assert (keymin <= Z.of_nat (pos k L))%Z; [|lia].
  apply zmin_le. apply in_map_iff. exists k. split; auto. apply in_restrict. auto.
Qed.

Lemma topdim_nonneg : (0 <= topdim)%Z.
Proof. unfold topdim. apply (proj1 (zmax_ge _ _)). Qed.

Lemma newdim_nonneg k : In k L -> (0 <= newdim k)%Z.
Proof.
  intros Hk. destruct (in_dec string_dec k keys) as [Kk|Kk].
  - pose proof (newdim_key k Hk Kk). pose proof topdim_nonneg. lia.
  - apply (newdim_stay k Hk Kk).
Qed.

(** *** conditionalise only succeeds if the new dims are a reordering of the axes *)
Lemma cond_needs_order q : conditionalise p keys = Ok q ->
  exists L', NoDup L' /\ (forall k, In k L' <-> In k L) /\ forall k, In k L -> newdim k = Z.of_nat (pos k L').
Proof.
  unfold conditionalise. intros H. bok H u E0. destruct cond_loop as [delta EL]. rewrite EL in H. cbn [bind c_dims c_marg c_cond c_norm] in H.
  rewrite lower_dims_eq, append_eq in H. cbn [bind] in H. bok H dv Erd. destruct cond_axes_eq as (sum & EA & _).
  rewrite EA in H. cbn [bind] in H. destruct (vp_prob_get p L V) as (t & Pt & Rt & St). rewrite Rt in H. cbn [bind] in H.
  bok H pr1 E2. clear H. unfold moveaxis in E2. bok E2 s Es. bok E2 d Ed. clear E2.
  assert (Nt : ndim t = length L) by (unfold ndim; rewrite St, map_length; auto). rewrite Nt in Ed.
  apply norm_axes_inv in Ed.
  2:{ apply Forall_forall. intros x Hx. apply in_map_iff in Hx. destruct Hx as (k & <- & Hk). apply in_kcols in Hk. apply newdim_nonneg. auto. }
  destruct Ed as (Em & Nd & Bd).
  assert (Ld : length d = length L).
  { apply (f_equal (@length Z)) in Em. rewrite !map_length in Em. rewrite <- Em.
    apply Permutation_length, NoDup_Permutation; [apply nodup_kcols|apply (vp_axes _ _ V)|apply in_kcols]. }
  assert (Inj : forall x y, In x L -> In y L -> newdim x = newdim y -> x = y).
  { intros x y Hx Hy E. apply in_kcols in Hx, Hy. pose proof nodup_kcols as NKc.
    assert (NM : NoDup (map newdim kcols)).
    { rewrite Em. apply FinFun.Injective_map_NoDup; auto. intros a b. apply Nat2Z.inj. }
    clear - NM Hx Hy E. induction kcols as [|k l IH]; [destruct Hx|]. cbn in NM. inversion NM as [|? ? N1 N2]; subst.
    destruct Hx as [->|Hx], Hy as [->|Hy]; auto.
    - exfalso. apply N1. rewrite E. apply in_map; auto.
    - exfalso. apply N1. rewrite <- E. apply in_map; auto. }
  assert (Bn : forall k, In k L -> (newdim k < Z.of_nat (length L))%Z).
  { intros k Hk. apply in_kcols in Hk. apply (in_map newdim) in Hk. rewrite Em in Hk. apply in_map_iff in Hk.
    destruct Hk as (x & <- & Hx). apply Bd in Hx. lia. }
  assert (Sur : forall j, j < length L -> exists k, In k L /\ newdim k = Z.of_nat j).
  { intros j Hj. assert (In j d).
    { assert (incl (seq 0 (length L)) d).
      { apply NoDup_length_incl; auto. - rewrite seq_length. lia.
        - intros x Hx. apply in_seq. specialize (Bd x Hx). lia. }
      apply H. apply in_seq. lia. }
    apply (in_map Z.of_nat) in H. rewrite <- Em in H. apply in_map_iff in H. destruct H as (k & E & Hk).
    exists k. rewrite in_kcols in Hk. auto. }
  (* build L' *)
  assert (Ex : forall n, n <= length L -> exists l, length l = n /\ forall j, j < n -> exists k, nth_error l j = Some k /\ In k L /\ newdim k = Z.of_nat j).
  { induction n as [|n IH]; intros Hn.
    - exists []. split; auto. intros; lia.
    - destruct IH as (l & Ll & Hl); [lia|]. destruct (Sur n) as (k & Hk & Ek); [lia|].
      exists (l ++ [k]). split; [rewrite app_length; cbn; lia|]. intros j Hj.
      destruct (Nat.eq_dec j n) as [->|Ne].
      + exists k. rewrite nth_error_app2 by lia. replace (n - length l) with 0 by lia. auto.
      + destruct (Hl j) as (k' & H1 & H2 & H3); [lia|]. exists k'. rewrite nth_error_app1 by lia. auto. }
  destruct (Ex (length L) (le_n _)) as (L' & LL' & HL').
  assert (NL' : NoDup L').
  { apply NoDup_nth_error. intros i j Hi E. rewrite LL' in Hi. destruct (HL' i Hi) as (k & K1 & K2 & K3).
    assert (Hj : j < length L). { rewrite <- LL'. apply nth_error_Some. rewrite <- E, K1. discriminate. }
    destruct (HL' j Hj) as (k' & K1' & K2' & K3'). assert (k = k') by congruence. subst k'. lia. }
  exists L'. split; auto.
  assert (I1 : incl L' L).
  { intros k Hk. apply In_nth_error in Hk. destruct Hk as [j Hj].
    assert (Hlt : j < length L) by (rewrite <- LL'; apply nth_error_Some; congruence).
    destruct (HL' j Hlt) as (k' & K1 & K2 & _). congruence. }
  assert (I2 : incl L L') by (apply NoDup_length_incl; auto; lia).
  split; [intros k; split; auto|].
  intros k Hk. pose proof (pos_nth k L' (I2 k Hk)) as Pn.
  assert (Hlt : pos k L' < length L) by (rewrite <- LL'; apply pos_lt; auto).
  destruct (HL' _ Hlt) as (k' & K1 & K2 & K3). assert (k = k') by congruence. subst. auto.
Qed.

End Cond.
