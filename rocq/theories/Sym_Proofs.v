(** Proofs about calls of symbolic expressions. *)
From Coq Require Import String ZArith Bool Arith Lia List Sorting.Sorted Sorting.Permutation.
From Verif Require Import Base OdLemmas Num Tensor Names MVModel SymModel Sym_Spec Sym_Parse.
Import ListNotations.

Section Sym.
Context {T : Type} {N : Num T} (argsort : list Z -> list nat).
Implicit Types (e : sexpr T) (kwds : odict (xval T)).

Definition look kwds (k : string) : xval T :=
  match od_get kwds k with Some v => unbool v | None => XNum n0 end.

Lemma lookups kwds keys : incl keys (od_keys kwds) ->
  map_res (fun k => let! v := od_getR kwds k in Ok (unbool v)) keys = Ok (map (look kwds) keys).
Proof.
  induction keys as [|k keys IH]; intros H; cbn; auto.
  destruct (od_key_get kwds k) as [v E]; [apply H; left; auto|].
  unfold od_getR at 1, look at 1. rewrite E. cbn. rewrite IH; [reflexivity|].
  intros x Hx. apply H. right; auto.
Qed.

Lemma lookups_missing kwds keys k : In k keys -> ~ In k (od_keys kwds) ->
  map_res (fun k => let! v := od_getR kwds k in Ok (unbool v)) keys = Err KeyError.
Proof.
  induction keys as [|k' keys IH]; intros H G; [destruct H|]. cbn.
  unfold od_getR at 1. destruct (od_get kwds k') as [v|] eqn:E; [|reflexivity]. cbn.
  destruct H as [->|H]; [exfalso; apply G; eapply od_get_some_key; eauto|].
  rewrite IH; auto.
Qed.

Lemma env_of_map (g : string -> T) keys k : In k keys -> env_of keys (map g keys) k = g k.
Proof.
  unfold env_of. induction keys as [|k' keys IH]; intros H; [destruct H|]. cbn.
  destruct (String.eqb k k') eqn:E; [apply String.eqb_eq in E; subst; auto|].
  destruct H as [->|H]; [rewrite String.eqb_refl in E; discriminate|auto].
Qed.

Lemma values_keywords e kwds : se_values e [] kwds = Ok kwds.
Proof.
  unfold se_values. destruct kwds; [|reflexivity]. cbn.
  destruct (se_syms e); reflexivity.
Qed.

Lemma call_keywords e kwds : se_call argsort e [] kwds = se_eval argsort e kwds.
Proof. unfold se_call. rewrite values_keywords. reflexivity. Qed.

(** The same as a dictionary. *)
Lemma call_dict e kwds : se_remap e = [] -> NoDup (od_keys kwds) ->
  se_call argsort e [XDict (map (fun kv => (XKStr (fst kv), snd kv)) kwds)] [] = se_call argsort e [] kwds.
Proof.
  intros R ND. rewrite call_keywords. unfold se_call, se_values. cbn [map forallb]. rewrite andb_false_r.
  unfold parse_as_str_dict. rewrite R. cbn [fold_res parse_arg].
  assert (Q : forall acc, fold_res (parse_entry []) (map (fun kv => (XKStr (fst kv), snd kv)) kwds) acc
              = Ok (od_update acc kwds)).
  { clear. induction kwds as [|[k v] d IH]; intros acc; cbn; [reflexivity|]. apply IH. }
  rewrite Q. cbn [bind od_update fold_left].
  change (fold_left (fun (acc : odict (xval T)) kv => od_set acc (fst kv) (snd kv)) kwds []) with (od_update [] kwds).
  rewrite od_update_new; auto.
Qed.

Lemma call_missing e kwds k : In k (symbols e) -> ~ In k (od_keys kwds) ->
  se_call argsort e [] kwds = Err KeyError.
Proof.
  intros H G. rewrite call_keywords. unfold se_eval. rewrite (lookups_missing kwds _ k); auto.
Qed.

Lemma subs_readable e env : readable e -> subs e env = RNumber (se_fun e env).
Proof.
  intros H. unfold subs. replace (forallb snd (se_syms e)) with true; auto.
  symmetry. apply forallb_forall. rewrite <- Forall_forall. exact H.
Qed.

Lemma subs_left e env : ~ readable e -> subs e env = RLeft.
Proof.
  intros H. unfold subs. destruct (forallb snd (se_syms e)) eqn:E; auto.
  exfalso. apply H. apply Forall_forall. rewrite forallb_forall in E. exact E.
Qed.

Lemma scalars_keys e kwds : scalars_for e kwds -> incl (symbols e) (od_keys kwds).
Proof. intros H k Hk. destruct (H k Hk) as (v & E & _). eapply od_get_some_key; eauto. Qed.

Lemma scalars_no_array e kwds : scalars_for e kwds -> existsb isarray (map (look kwds) (symbols e)) = false.
Proof.
  intros H. destruct (existsb isarray _) eqn:E; auto. apply existsb_exists in E.
  destruct E as (v & Hv & A). apply in_map_iff in Hv. destruct Hv as (k & <- & Hk).
  destruct (H k Hk) as (v & E & Sv). unfold look in A. rewrite E in A. destruct v; cbn in *; solve [discriminate|contradiction].
Qed.

Lemma look_number kwds k v : od_get kwds k = Some v -> scalar v -> get (as_arr (look kwds k)) [] = number v.
Proof. intros E S. unfold look. rewrite E. destruct v as [x|[]|t]; cbn in *; solve [reflexivity|contradiction]. Qed.

Lemma eval_scalars e kwds : scalars_for e kwds ->
  exists env, se_eval argsort e kwds = Ok (subs e env) /\ forall k, In k (symbols e) -> env k = at_place kwds [] k.
Proof.
  intros H. unfold se_eval. fold (symbols e). rewrite lookups by (apply scalars_keys; auto). cbn [bind].
  rewrite scalars_no_array by auto. cbn [negb]. rewrite map_map. eexists. split; [reflexivity|].
  intros k Hk. rewrite (env_of_map (fun k => get (as_arr (look kwds k)) [])) by auto.
  destruct (H k Hk) as (v & E & S). rewrite (look_number _ _ v); auto. unfold at_place. rewrite E.
  destruct v; cbn in *; solve [reflexivity|contradiction].
Qed.

Lemma call_scalars e kwds : readable e -> determined e -> scalars_for e kwds ->
  se_call argsort e [] kwds = Ok (RNumber (se_fun e (at_place kwds []))).
Proof.
  intros Re D H. rewrite call_keywords. destruct (eval_scalars e kwds H) as (env & -> & G).
  rewrite subs_readable by auto. do 2 f_equal. apply D. auto.
Qed.

Lemma call_left e kwds : ~ readable e -> scalars_for e kwds -> se_call argsort e [] kwds = Ok RLeft.
Proof.
  intros Re H. rewrite call_keywords. destruct (eval_scalars e kwds H) as (env & -> & G).
  rewrite subs_left; auto.
Qed.

(** The order of keywords. *)
Lemma od_get_perm {A} (d d' : odict A) k : NoDup (od_keys d) -> Permutation d d' -> od_get d k = od_get d' k.
Proof.
  intros ND P.
  assert (ND' : NoDup (od_keys d')) by (eapply Permutation_NoDup; [apply Permutation_map; eauto|auto]).
  destruct (od_get d k) as [v|] eqn:E.
  - symmetry. apply od_in_get; auto. eapply Permutation_in; eauto. apply od_get_in; auto.
  - destruct (od_get d' k) as [v|] eqn:E'; auto. apply od_get_in in E'.
    apply (Permutation_in _ (Permutation_sym P)) in E'. apply od_in_get in E'; auto. congruence.
Qed.

Lemma eval_depends e kwds kwds' : (forall k, In k (symbols e) -> od_get kwds k = od_get kwds' k) ->
  se_np e = true \/ scalars_for e kwds -> se_eval argsort e kwds = se_eval argsort e kwds'.
Proof.
  intros H C. unfold se_eval. fold (symbols e).
  assert (Q : map_res (fun k => let! v := od_getR kwds k in Ok (unbool v)) (symbols e)
            = map_res (fun k => let! v := od_getR kwds' k in Ok (unbool v)) (symbols e)).
  { revert H. generalize (symbols e). clear. intros l. induction l as [|k l IH]; intros H; cbn; auto.
    unfold od_getR at 1 3. rewrite (H k (or_introl eq_refl)). destruct (od_get kwds' k); cbn; auto.
    rewrite IH; auto. intros; apply H; right; auto. }
  rewrite <- Q. destruct C as [C|C].
  - rewrite C. reflexivity.
  - rewrite lookups by (apply scalars_keys; auto). cbn [bind]. rewrite scalars_no_array by auto. reflexivity.
Qed.

Lemma call_order e kwds kwds' : NoDup (od_keys kwds) -> Permutation kwds kwds' ->
  se_np e = true \/ scalars_for e kwds -> se_call argsort e [] kwds = se_call argsort e [] kwds'.
Proof.
  intros ND P C. rewrite !call_keywords. apply eval_depends; auto. intros k _. apply od_get_perm; auto.
Qed.

(** Positional arguments. *)
Lemma plain_vals (vs : list (xval T)) :
  flat_map (fun o : option (xval T) => match o with Some v => [v] | None => [] end)
    (map (fun a : xarg (xval T) => match a with XPlain v => Some v | XDict _ => None end) (map XPlain vs)) = vs.
Proof. induction vs as [|v vs IH]; cbn; congruence. Qed.

Lemma keys_combine {A} (ks : list string) (vs : list A) : length vs = length ks -> od_keys (combine ks vs) = ks.
Proof. intros L. apply (proj1 (map_combine_snd ks vs L)). Qed.

Lemma call_positional e vs : NoDup (symbols e) -> length vs = length (symbols e) ->
  se_call argsort e (map XPlain vs) [] = se_call argsort e [] (combine (symbols e) vs).
Proof.
  intros ND L. rewrite call_keywords. unfold se_call, se_values. fold (symbols e).
  rewrite map_length, (proj2 (Nat.eqb_eq _ _) L).
  replace (forallb _ _) with true.
  2: { symmetry. apply forallb_forall. intros o Ho. apply in_map_iff in Ho. destruct Ho as (a & <- & Ha).
       apply in_map_iff in Ha. destruct Ha as (v & <- & _). reflexivity. }
  cbn [andb]. rewrite plain_vals. cbn [bind]. unfold od_of_list. rewrite od_update_new; [reflexivity|].
  cbn. rewrite keys_combine; auto.
Qed.

Lemma call_wrong_number e v vs : length (v :: vs) <> length (symbols e) ->
  se_call argsort e (map XPlain (v :: vs)) [] = Err AssertionError.
Proof.
  intros H. unfold se_call, se_values. fold (symbols e). rewrite map_length.
  rewrite (proj2 (Nat.eqb_neq _ _) H). reflexivity.
Qed.

(** Arrays with a function for them. *)
Lemma as_arr_look kwds k : match od_get kwds k with
  | Some v => shape (as_arr (look kwds k)) = axes v
      /\ forall idx, get (as_arr (look kwds k)) (bcast_idx (shape (as_arr (look kwds k))) idx) = at_place kwds idx k
  | None => True end.
Proof.
  unfold look, at_place. destruct (od_get kwds k) as [[x|[]|t]|]; cbn; auto.
Qed.

Lemma arrays_exist e kwds : array_for e kwds -> existsb isarray (map (look kwds) (symbols e)) = true.
Proof.
  intros (k & t & Hk & E). apply existsb_exists. exists (look kwds k). split; [apply in_map; auto|].
  unfold look. rewrite E. reflexivity.
Qed.

Lemma call_arrays e kwds : se_np e = true -> determined e -> incl (symbols e) (od_keys kwds) -> array_for e kwds ->
  match bcast_all (map (axes_of kwds) (symbols e)) with
  | Ok sh => exists t, se_call argsort e [] kwds = Ok (RArray t) /\ shape t = sh /\
                       forall idx, get t idx = se_fun e (at_place kwds idx)
  | Err x => se_call argsort e [] kwds = Err x
  end.
Proof.
  intros Np D I A. rewrite call_keywords. unfold se_eval. fold (symbols e). rewrite lookups by auto. cbn [bind].
  rewrite arrays_exist by auto. cbn [negb]. rewrite Np. unfold np_fun. fold (symbols e).
  assert (Sh : map (@shape T) (map as_arr (map (look kwds) (symbols e))) = map (axes_of kwds) (symbols e)).
  { rewrite !map_map. apply map_ext_in. intros k Hk. destruct (od_key_get kwds k (I k Hk)) as [v E].
    pose proof (as_arr_look kwds k) as Q. unfold axes_of. rewrite E in *. apply Q. }
  rewrite Sh. destruct (bcast_all _) as [sh|x]; cbn [bind]; [|reflexivity].
  eexists. split; [reflexivity|]. split; [reflexivity|]. intros idx. cbn [get]. apply D. intros k Hk.
  rewrite !map_map. rewrite (env_of_map (fun k => get (as_arr (look kwds k)) (bcast_idx (shape (as_arr (look kwds k))) idx))) by auto.
  destruct (od_key_get kwds k (I k Hk)) as [v E].
  pose proof (as_arr_look kwds k) as Q. rewrite E in Q. apply Q.
Qed.

(** ** Arrays without one *)

Lemma first_wide_iff sh : forall s d,
  first_wide s sh = Some d <->
  exists j, d = s + j /\ j < length sh /\ 1 < nth j sh 0 /\ forall i, i < j -> nth i sh 0 <= 1.
Proof.
  induction sh as [|n sh IH]; intros s d; cbn [first_wide length].
  - split; [discriminate|]. intros (j & _ & H & _). lia.
  - destruct (1 <? n) eqn:E.
    + apply Nat.ltb_lt in E. split.
      * intros H; inversion H; subst. exists 0. cbn. repeat split; try lia.
      * intros (j & -> & _ & _ & H). destruct j as [|j]; [f_equal; lia|].
        specialize (H 0 ltac:(lia)). cbn in H. lia.
    + apply Nat.ltb_ge in E. rewrite IH. split.
      * intros (j & -> & H1 & H2 & H3). exists (S j). cbn. repeat split; try lia.
        intros [|i] Hi; [lia|]. apply H3. lia.
      * intros (j & -> & H1 & H2 & H3). destruct j as [|j]; [cbn in H2; lia|].
        exists j. cbn in H2. repeat split; try lia. intros i Hi. apply (H3 (S i)). lia.
Qed.

Lemma vec_dim_iff (t : tensor T) d : vec_dim (XArr t) = Some d <-> along t d.
Proof.
  unfold vec_dim, along. rewrite first_wide_iff. split.
  - intros (j & -> & H). exact H.
  - intros H. exists d. auto.
Qed.

Lemma readable_forallb e : readable e -> forallb snd (se_syms e) = true.
Proof. intros H. apply forallb_forall. rewrite <- Forall_forall. exact H. Qed.

Lemma argsort_up d0 d1 : sorting argsort -> (d0 < d1)%Z -> argsort [d0; d1] = [0; 1].
Proof.
  intros H L. destruct (H [d0; d1]) as [P S]. cbn in P.
  apply Permutation_sym, Permutation_length_2_inv in P. destruct P as [P|P]; rewrite P in *; auto.
  inversion S; subst. inversion H3; subst. cbn in H4. lia.
Qed.

Section Two.
Variables (e : sexpr T) (a b : string) (ta tb : tensor T).
Hypothesis Hab : a <> b.
Hypothesis He : symbols e = [a; b].
Hypothesis Hr : readable e.
Hypothesis Hd : determined e.
Hypothesis Hn : se_np e = false.

Let eq_ab : String.eqb a b = false. Proof. apply String.eqb_neq; auto. Qed.
Let eq_ba : String.eqb b a = false. Proof. apply String.eqb_neq; auto. Qed.

Definition in_order : odict (xval T) := [(a, XArr ta); (b, XArr tb)].
Definition other_order : odict (xval T) := [(b, XArr tb); (a, XArr ta)].

Lemma two_other_env (g : string -> T) x y : g a = x -> g b = y -> se_fun e g = se_fun e (two a b x y).
Proof.
  intros Ga Gb. apply Hd. rewrite He. intros k [<-|[<-|[]]]; unfold two.
  - rewrite String.eqb_refl. auto.
  - rewrite eq_ba, String.eqb_refl. auto.
Qed.

Ltac start :=
  rewrite call_keywords; unfold se_eval; fold (symbols e); rewrite He; cbn [map_res od_getR od_get];
  unfold od_getR; cbn [od_get]; rewrite ?String.eqb_refl, ?eq_ab, ?eq_ba; cbn [bind unbool existsb isarray negb orb];
  rewrite ?String.eqb_refl, ?eq_ab, ?eq_ba; cbn [bind unbool existsb isarray negb orb]; rewrite Hn;
  unfold mesh_fun; fold (symbols e); rewrite He;
  cbn [od_update fold_left combine od_set fst snd];
  rewrite ?String.eqb_refl, ?eq_ab, ?eq_ba; cbn [od_set fst snd]; rewrite ?String.eqb_refl, ?eq_ab, ?eq_ba;
  cbn [map isarray].

Ltac finish :=
  cbn [bind map filter combine fst snd]; rewrite (readable_forallb e Hr);
  cbn [map_res bind map]; eexists; split; [reflexivity|]; split; [reflexivity|];
  intros i j; cbn [get length seq map combine swap2 nth od_get];
  apply two_other_env; cbn [od_get]; rewrite ?String.eqb_refl, ?eq_ab, ?eq_ba; reflexivity.

Lemma mesh_outer : ~ (exists d0 d1, along ta d0 /\ along tb d1 /\ d0 < d1) ->
  exists t, se_call argsort e [] in_order = Ok (RArray t) /\
    shape t = [length (to_list tb); length (to_list ta)] /\
    forall i j, get t [j; i] = se_fun e (two a b (item ta i) (item tb j)).
Proof.
  intros NS. unfold in_order. start.
  assert (Q : ((1 <? length (flat_map (fun o : option nat => match o with Some i => [i] | None => [] end)
                 [vec_dim (XArr ta); vec_dim (XArr tb)]))
              && ascends (flat_map (fun o : option nat => match o with Some i => [i] | None => [] end)
                 [vec_dim (XArr ta); vec_dim (XArr tb)])) = false).
  { destruct (vec_dim (XArr ta)) as [d0|] eqn:E0, (vec_dim (XArr tb)) as [d1|] eqn:E1; cbn; auto.
    rewrite orb_false_r. apply Nat.ltb_ge. apply vec_dim_iff in E0. apply vec_dim_iff in E1.
    destruct (le_lt_dec d1 d0); auto. exfalso. apply NS. exists d0, d1. auto. }
  rewrite Q. finish.
Qed.

Lemma mesh_exchanged d0 d1 : sorting argsort -> along ta d0 -> along tb d1 -> d0 < d1 ->
  exists t, se_call argsort e [] in_order = Ok (RArray t) /\
    shape t = [length (to_list ta); length (to_list tb)] /\
    forall i j, get t [i; j] = se_fun e (two a b (item tb j) (item ta i)).
Proof.
  intros SA A0 A1 L. apply vec_dim_iff in A0. apply vec_dim_iff in A1.
  unfold in_order. start. rewrite A0, A1.
  cbn [flat_map app length ascends combine tl existsb fst snd]. rewrite (proj2 (Nat.ltb_lt d0 d1) L).
  cbn [Nat.ltb Nat.leb andb orb].
  unfold sort_ordered_dict. cbn [length Nat.eqb assert_ bind map option_map od_keys fst combine flat_map snd app Nat.ltb Nat.leb].
  rewrite argsort_up by (auto; lia). cbn [rev app strict_up forallb combine tl fst snd Nat.ltb Nat.leb andb map nth place_sorted].
  unfold od_getR. cbn [od_get]. rewrite ?String.eqb_refl, ?eq_ab, ?eq_ba. cbn [bind od_vals map snd]. finish.
Qed.

(** With the keywords the other way round. *)
Lemma mesh_other_order d0 d1 : sorting argsort -> along ta d0 -> along tb d1 -> d0 < d1 ->
  exists t, se_call argsort e [] other_order = Ok (RArray t) /\
    shape t = [length (to_list tb); length (to_list ta)] /\
    forall i j, get t [j; i] = se_fun e (two a b (item ta i) (item tb j)).
Proof.
  intros SA A0 A1 L. apply vec_dim_iff in A0. apply vec_dim_iff in A1.
  unfold other_order. start. rewrite A0, A1.
  cbn [flat_map app length ascends combine tl existsb fst snd]. rewrite (proj2 (Nat.ltb_lt d0 d1) L).
  cbn [Nat.ltb Nat.leb andb orb].
  unfold sort_ordered_dict. cbn [length Nat.eqb assert_ bind map option_map od_keys fst combine flat_map snd app Nat.ltb Nat.leb].
  rewrite argsort_up by (auto; lia). cbn [rev app strict_up forallb combine tl fst snd Nat.ltb Nat.leb andb map nth place_sorted].
  unfold od_getR. cbn [od_get]. rewrite ?String.eqb_refl, ?eq_ab, ?eq_ba. cbn [bind od_vals map snd]. finish.
Qed.

End Two.
End Sym.
