(** Proofs about steps from arrays and shared keys. *)
From Coq Require Import String Ascii ZArith Bool Arith Lia List.
From Verif Require Import Base OdLemmas Num Tensor PScales Names Distr PDModel VariableModel RVModel FieldModel Field_Spec Field_Dims RFModel ArrModel.
Import ListNotations.
Local Open Scope nat_scope.
Local Open Scope list_scope.

Section P.
Context {T : Type} {N : Num T} {F : Fmt T} {TR : Trunc T}.
Implicit Types (d : @vdict T) (f : field T) (vs values : odict (fentry T)).

(** ** Distributions without axes *)

Lemma to_value_single (a : tensor (pyval T)) : issingleton (to_value a) = is_scalar a.
Proof. unfold to_value, is_scalar, issingleton. destruct (shape a) eqn:S; cbn; [reflexivity|]. rewrite S. reflexivity. Qed.

Lemma clean_out d l : clean_vals (out_vals d) = Ok l -> l = out_vals d.
Proof.
  unfold clean_vals, out_vals. revert l. induction d as [|[k a] d IH]; intros l; cbn [map map_res fst snd].
  - intros E. injection E as <-. reflexivity.
  - destruct (mem_str k disallowed); [discriminate|].
    intros E.
    assert (Q : exists m, map_res (fun kv => if mem_str (fst kv) disallowed then Err ValueError
             else match snd kv with Distr.VSet [SEnone] => Ok (fst kv, Distr.VSet [SEint 0]) | v => Ok (fst kv, v) end) (out_vals d) = Ok m /\
             l = (k, to_value a) :: m).
    { unfold out_vals, to_value in *. destruct (shape a); cbn [bind] in E;
        (destruct (map_res _ _) as [m|]; cbn [bind] in E; [|discriminate]; injection E as <-; exists m; auto). }
    destruct Q as (m & Q & ->). f_equal. apply IH. exact Q.
Qed.

Lemma dist_scalars name d q : NoDup (od_keys d) -> make_dist name (out_vals d) (Some []) = Ok q ->
  (forall k a, In (k, a) d -> shape a = []) /\ d_vals q = out_vals d.
Proof.
  intros ND. unfold make_dist. destruct (out_vals d) as [|kv0 l0] eqn:EO.
  { intros E. injection E as <-. split; [|reflexivity]. destruct d; [intros ? ? []|discriminate]. }
  rewrite <- EO. clear EO. destruct (clean_vals (out_vals d)) as [v1|] eqn:EC; cbn [bind]; [|discriminate].
  apply clean_out in EC. subst v1.
  destruct (fold_res _ _ _) as [st|] eqn:EF; cbn [bind]; [|discriminate].
  destruct (full_shape _) as [shp|]; cbn [bind]; [|discriminate]. intros E. injection E as <-. cbn [d_vals].
  assert (ND' : NoDup (map fst (out_vals d))) by (unfold out_vals; rewrite map_map; exact ND).
  apply (fold_res_inv _ (fun pre (s : dstate) => (forall kv, In kv pre -> issingleton (snd kv) = true) /\
     s_vals s = out_vals d /\ forall k, In k (od_keys (s_dims s)) -> In k (map fst pre))) in EF.
  - destruct EF as (S1 & S2 & _). split; [|exact S2]. intros k a I.
    specialize (S1 (k, to_value a)). 
    assert (X : is_scalar a = true).
    { rewrite <- to_value_single. apply S1. unfold out_vals. apply in_map_iff. exists (k, a). auto. }
    unfold is_scalar in X. destruct (shape a); [reflexivity|discriminate].
  - cbn. split; [intros ? []|]. split; [reflexivity|]. intros k [].
  - intros pre [k v] post s1 s2 EL (P1 & P2 & P3) ES. unfold dims_step in ES. cbn [fst snd] in ES.
    destruct (issingleton v) eqn:SV.
    + assert (Q : s2 = s1 \/ s2 = mkDS (s_vals s1) (od_set (s_dims s1) k None) (s_ndim s1) (s_shape s1) (s_sizes s1) (s_count s1)).
      { destruct (od_get (s_dims s1) k) as [[z|]|]; [discriminate| |]; injection ES as <-; auto. }
      split; [intros kv I; apply in_app_iff in I; destruct I as [I|[<-|[]]]; auto|].
      split; [destruct Q as [->| ->]; exact P2|].
      intros k' I. rewrite map_app. apply in_app_iff. destruct Q as [->| ->]; [left; auto|].
      cbn [s_dims] in I. apply od_keys_set_in in I. cbn. intuition.
    + exfalso. destruct v; try discriminate. cbn [bind] in ES.
      destruct (assert_ (tsize a =? list_max (shape a))); cbn [bind] in ES; [|discriminate].
      destruct (od_mem (s_dims s1) k) eqn:M; cbn [assert_ bind] in ES; [|discriminate].
      apply od_mem_iff in M. apply P3 in M. rewrite EL, map_app in ND'. apply NoDup_remove_2 in ND'. apply ND'.
      apply in_app_iff. auto.
Qed.

Lemma pd_scalars name d c sc p : NoDup (od_keys d) -> make_pd name (out_vals d) (Some []) c sc = Ok p ->
  (forall k a, In (k, a) d -> shape a = []) /\ p_vals p = out_vals d.
Proof.
  intros ND. unfold make_pd. destruct (str_margcond name) as [[m0 c0]|]; cbn [bind]; [|discriminate].
  destruct (make_dist name (out_vals d) (Some [])) as [q|] eqn:E; cbn [bind]; [|discriminate].
  destruct (dist_scalars _ _ _ ND E) as (H1 & H2).
  destruct (override_names _ _) as [[m1 c1]|]; cbn [bind]; [|discriminate].
  destruct (eval_pscale sc) as [psc|]; cbn [bind]; [|discriminate].
  destruct (check_prob _ _) as [u|]; cbn [bind]; [|discriminate].
  intros G. injection G as <-. split; [exact H1|]. exact H2.
Qed.

(** ** Merging *)

Lemma fold_set_nodup {A} (l acc : odict A) : NoDup (od_keys acc) ->
  NoDup (od_keys (fold_left (fun e kv => od_set e (fst kv) (snd kv)) l acc)).
Proof.
  revert acc. induction l as [|[k v] l IH]; intros acc H; cbn [fold_left]; [exact H|]. apply IH. apply od_keys_set_nodup. exact H.
Qed.

Lemma fold_set_other {A} (l acc : odict A) k : ~ In k (od_keys l) ->
  od_get (fold_left (fun e kv => od_set e (fst kv) (snd kv)) l acc) k = od_get acc k.
Proof.
  revert acc. induction l as [|[j v] l IH]; intros acc H; cbn [fold_left]; [reflexivity|].
  rewrite IH by (intros I; apply H; right; exact I). apply od_get_set_ne. cbn. intros ->. apply H. left. reflexivity.
Qed.

Lemma fold_set_get {A} (l acc : odict A) k v : NoDup (od_keys l) -> In (k, v) l ->
  od_get (fold_left (fun e kv => od_set e (fst kv) (snd kv)) l acc) k = Some v.
Proof.
  revert acc. induction l as [|[j w] l IH]; intros acc ND I; cbn [fold_left]; [destruct I|].
  cbn in ND. inversion ND as [|? ? NI ND']; subst. destruct I as [I|I].
  - injection I as -> ->. rewrite fold_set_other by exact NI. apply od_get_set_eq.
  - apply IH; auto.
Qed.

Lemma map_res_keys {B} (h : string -> string) (g : string -> result B) keys l :
  map_res (fun k => let! a := g k in Ok (h k, a)) keys = Ok l -> od_keys l = map h keys.
Proof.
  revert l. induction keys as [|k keys IH]; intros l; cbn [map_res].
  - intros E. injection E as <-. reflexivity.
  - destruct (g k); cbn [bind]; [|discriminate]. destruct (map_res _ keys) as [m|]; cbn [bind]; [|discriminate].
    intros E. injection E as <-. cbn. f_equal. apply IH. reflexivity.
Qed.

Lemma map_res_at {B} (h : string -> string) (g : string -> result B) keys l k :
  map_res (fun k => let! a := g k in Ok (h k, a)) keys = Ok l -> In k keys -> exists a, g k = Ok a /\ In (h k, a) l.
Proof.
  revert l. induction keys as [|j keys IH]; intros l E I; cbn [map_res] in E; [destruct I|].
  destruct (g j) as [b|] eqn:G; cbn [bind] in E; [|discriminate]. destruct (map_res _ keys) as [m|]; cbn [bind] in E; [|discriminate].
  injection E as <-. destruct I as [->|I]; [exists b; split; [exact G|left; reflexivity]|].
  destruct (IH m eq_refl I) as (a & G' & I'). exists a. split; [exact G'|right; exact I'].
Qed.

Definition apart (keys : list string) : Prop := NoDup keys /\ forall k k', In k keys -> In k' keys -> prime k <> k'.

Lemma merge_get keys pred succ d : apart keys -> step_merge keys pred succ = Ok d ->
  NoDup (od_keys d) /\ forall k, In k keys -> exists a, od_get pred k = Some a /\ od_get d k = Some a.
Proof.
  intros (ND & AP). unfold step_merge.
  destruct (map_res (fun k => let! a := od_getR pred k in Ok (k, a)) keys) as [ps|] eqn:EP; cbn [bind]; [|discriminate].
  match goal with |- context [map_res ?g keys] => destruct (map_res g keys) as [ss|] eqn:ES end; cbn [bind]; [|discriminate]. intros E. injection E as <-.
  split; [apply fold_set_nodup; constructor|]. intros k I.
  destruct (map_res_at (fun k => k) _ _ _ _ EP I) as (a & G & IA). apply od_getR_ok in G. exists a. split; [exact G|].
  rewrite fold_left_app. rewrite fold_set_other.
  - apply fold_set_get; [|exact IA]. pose proof (map_res_keys (fun k => k) (od_getR pred) _ _ EP) as K. rewrite K, map_id. exact ND.
  - pose proof (map_res_keys prime (fun k => od_getR succ (if od_mem succ (prime k) then prime k else k)) _ _ ES) as K.
    rewrite K. intros J. apply in_map_iff in J. destruct J as (k' & J & I'). exact (AP k' k I' I J).
Qed.

(** ** Evaluation without shared keys *)

Definition plain (f : field T) vs : Prop := forall k, In k (od_keys vs) -> In k (fd_keys f).

Lemma ref_plain keys vs k : (forall o, In o (od_keys vs) -> shared o = false) -> In k keys ->
  od_get (values_ref keys vs) k = Some (k, None).
Proof.
  intros SH I. unfold values_ref.
  assert (X : forall l (e : odict (string * option nat)), (forall o, In o l -> shared o = false) ->
     fold_left (fun c k => if shared k then fold_left (fun c isk => od_set c (snd isk) (k, Some (fst isk)))
        (combine (seq 0 (length (subkeys k))) (subkeys k)) c else c) l e = e).
  { induction l as [|o l IH]; intros e H; cbn [fold_left]; [reflexivity|]. rewrite (H o) by (left; reflexivity).
    apply IH. intros o' J. apply H. right. exact J. }
  rewrite X by exact SH. clear X SH. unfold od_of_list.
  assert (Y : forall l (e : odict (string * option nat)), In k l \/ od_get e k = Some (k, None) ->
     od_get (od_update e (map (fun k => (k, (k, None))) l)) k = Some (k, None)).
  { induction l as [|j l IH]; intros e H; cbn.
    - destruct H as [[]|H]. exact H.
    - apply IH. destruct (String.eqb_spec j k) as [->|NE].
      + right. apply od_get_set_eq.
      + destruct H as [[->|H]|H]; [congruence|left; exact H|right]. rewrite od_get_set_ne by auto. exact H. }
  apply Y. left. exact I.
Qed.

Lemma max_dim_ge (e : odict (option nat)) k j : od_get e k = Some (Some j) -> S j <= max_dim e.
Proof.
  intros G. apply od_get_in in G. unfold max_dim.
  assert (M : forall (e : odict (option nat)) a, a <= fold_left (fun n kd => match snd kd with Some c => Nat.max n (S c) | None => n end) e a).
  { clear. induction e as [|[k [j|]] e IH]; intros a; cbn [fold_left snd]; [auto| |apply IH].
    specialize (IH (Nat.max a (S j))). lia. }
  revert G. generalize 0. induction e as [|[k' o] e IH]; intros a I; [destruct I|]. cbn [fold_left snd].
  destruct I as [I|I]; [injection I as -> ->|apply IH; exact I]. specialize (M e (Nat.max a (S j))). lia.
Qed.

Lemma Forall2_in_l {A B} (P : A -> B -> Prop) l m a : Forall2 P l m -> In a l -> exists b, In b m /\ P a b.
Proof.
  induction 1 as [|x y l m H H0 IH]; intros I; [destruct I|]. destruct I as [->|I]; [exists y; split; [left; reflexivity|exact H]|].
  destruct (IH I) as (b & I' & H'). exists b. split; [right; exact I'|exact H'].
Qed.

Lemma eval_plain ev f vs m pred dims i v x :
  (forall i v y, ev i v (FNum y) = Ok (tscalar y)) ->
  NoDup (fd_keys f) -> map (@fv_name T) (fd_varlist f) = fd_keys f -> (forall k, In k (fd_keys f) -> shared k = false) ->
  plain f vs -> NoDup (od_keys vs) -> f_evaluate_by ev f vs m = Ok (pred, dims) ->
  nth_error (fd_varlist f) i = Some v -> od_get vs (fv_name v) = Some (One x) ->
  exists A a, ev i v x = Ok A /\ od_get pred (fv_name v) = Some a /\
    (shape A = [] -> a = A) /\ (shape A <> [] -> dimensionless x = false -> shape a <> []).
Proof.
  intros EV ND NM SH PL NV E NI G. unfold f_evaluate_by in E.
  assert (KI : In (fv_name v) (fd_keys f)) by (rewrite <- NM; apply in_map; eapply nth_error_In; eauto).
  destruct (forallb entry_scalar (od_vals vs)) eqn:SC.
  - injection E as <- <-. rewrite forallb_forall in SC.
    assert (XN : npscalar x = true).
    { apply od_get_in in G. apply (SC (One x)). unfold od_vals. apply in_map_iff. exists (fv_name v, One x). auto. }
    destruct x as [y| | |]; try discriminate. exists (tscalar y), (tscalar y). split; [apply EV|]. split; [|split; [auto|intros C; cbn in C; congruence]].
    clear -G. induction vs as [|[k e] vs IH]; [discriminate|]. cbn [od_get] in G. cbn [flat_map fst snd].
    destruct (String.eqb_spec k (fv_name v)) as [->|NE].
    + rewrite String.eqb_refl in G. injection G as ->. cbn. rewrite String.eqb_refl. reflexivity.
    + destruct (String.eqb (fv_name v) k) eqn:Q; [apply String.eqb_eq in Q; congruence|].
      destruct e as [[y'| | |]|]; cbn [app]; try (apply IH; exact G). cbn [od_get]. rewrite Q. apply IH. exact G.
  - clear SC.
    assert (SHV : forall o, In o (od_keys vs) -> shared o = false) by (intros o I; apply SH, PL, I).
    destruct (fold_res _ _ _) as [[[dm sn] nd]|] eqn:EF; cbn [bind] in E; [|discriminate].
    destruct (map_res _ _) as [vals|] eqn:EM; cbn [bind] in E; [|discriminate]. injection E as <- <-.
    assert (DM : dimensionless x = false -> exists j, od_get dm (fv_name v) = Some (Some j)).
    { intros DX.
      apply (fold_res_inv _ (fun pre (st : dstep) => In (fv_name v) pre -> exists j, od_get (fst (fst st)) (fv_name v) = Some (Some j))) in EF.
      - exact EF.
      - intros [].
      - intros pre a post [[d1 s1] n1] [[d2 s2] n2] EL P ES I. cbn [fst] in *.
        assert (IA : In a (fd_keys f)) by (rewrite EL; apply in_app_iff; right; left; reflexivity).
        unfold dim_step in ES. unfold od_getR at 1 in ES. rewrite (ref_plain _ _ _ SHV IA) in ES. cbn [bind] in ES.
        destruct (od_getR vs a) as [e|] eqn:GE; cbn [bind] in ES; [|discriminate]. apply od_getR_ok in GE.
        destruct (String.eqb_spec a (fv_name v)) as [->|NE].
        + rewrite G in GE. injection GE as <-. rewrite DX in ES. injection ES as <- <- <-. exists n1. apply od_get_set_eq.
        + assert (I1 : In (fv_name v) pre) by (apply in_app_iff in I; destruct I as [I|[I|[]]]; [exact I|congruence]).
          destruct (P I1) as (j & J). exists j.
          destruct e as [y|l].
          * destruct (dimensionless y); injection ES as <- <- <-; [exact J|rewrite od_get_set_ne by auto; exact J].
          * injection ES as <- <- <-. rewrite od_get_set_ne by auto. exact J.
      - exact KI. }
    apply map_res_ok in EM.
    assert (X : exists a, In (fv_name v, a) vals /\ exists A dd, ev i v x = Ok A /\ od_get dm (fv_name v) = Some dd /\ place (max_dim dm) dd A = Ok a).
    { assert (IC : In (i, v) (combine (seq 0 (length (fd_varlist f))) (fd_varlist f))).
      { assert (LT : i < length (fd_varlist f)) by (apply nth_error_Some; congruence).
        apply (nth_error_In _ i). rewrite <- (Nat.add_0_l i) at 2.
        clear -NI LT. revert i NI LT. generalize 0. induction (fd_varlist f) as [|w l IH]; intros a i NI LT; [destruct i; discriminate|].
        destruct i; cbn in *; [injection NI as ->; rewrite Nat.add_0_r; reflexivity|].
        rewrite (IH (S a) i NI) by lia. f_equal. f_equal. lia. }
      destruct (Forall2_in_l _ _ _ _ EM IC) as ([k a] & IB & H). cbn [fst snd] in H.
      assert (VO : val_of vs (values_ref (fd_keys f) vs) (fv_name v) = Ok x).
      { unfold val_of. assert (M : od_mem vs (fv_name v) = true) by (apply od_mem_iff; eapply od_get_some_key; eauto).
        rewrite M. unfold od_getR. rewrite G. reflexivity. }
      rewrite VO in H. cbn [bind] in H. destruct (ev i v x) as [A|]; cbn [bind] in H; [|discriminate].
      destruct (od_getR dm (fv_name v)) as [dd|] eqn:GD; cbn [bind] in H; [|discriminate]. apply od_getR_ok in GD.
      destruct (place (max_dim dm) dd A) as [a'|] eqn:PL'; cbn [bind] in H; [|discriminate]. injection H as <- <-.
      exists a'. split; [exact IB|]. exists A, dd. auto. }
    destruct X as (a & IB & A & dd & EA & GD & PC). exists A, a. split; [exact EA|]. split.
    { apply od_in_get; [|exact IB].
      assert (KV : od_keys vals = map (@fv_name T) (map snd (combine (seq 0 (length (fd_varlist f))) (fd_varlist f)))).
      { clear -EM. induction EM as [|[i w] [k b] l m H _ IH]; [reflexivity|]. cbn [map od_keys fst snd] in *. f_equal; [|exact IH].
        repeat match goal with H : (let! _ := ?r in _) = Ok _ |- _ => destruct r; cbn [bind] in H; [|discriminate] end.
        injection H as <- _. reflexivity. }
      rewrite KV. replace (map snd (combine (seq 0 (length (fd_varlist f))) (fd_varlist f))) with (fd_varlist f); [rewrite NM; exact ND|].
      symmetry. clear. generalize 0. induction (fd_varlist f) as [|w l IH]; intros b; cbn; [reflexivity|]. f_equal. apply IH. }
    unfold place in PC. split.
    + intros S. rewrite S in PC. congruence.
    + intros S DX. destruct (DM DX) as (j & J). rewrite GD in J. injection J as ->.
      pose proof (max_dim_ge _ _ _ GD) as LE. destruct (shape A); [congruence|].
      unfold reshape in PC. destruct (_ =? _); [|discriminate]. injection PC as <-. cbn [shape].
      intros Q. apply (f_equal (@length nat)) in Q. rewrite set_nth_length, repeat_length in Q. cbn in Q. lia.
Qed.

(** ** Parsing *)

Lemma parse_any_key kv kv' : @parse_any T kv = Ok kv' -> fst kv' = fst kv /\ (shared (fst kv) = false -> kv' = kv).
Proof.
  unfold parse_any. destruct (shared (fst kv)); destruct kv as [k [x|l]]; cbn [fst snd].
  - intros E. injection E as <-. split; [reflexivity|discriminate].
  - destruct (length l =? _); cbn; [|discriminate]. intros E. injection E as <-. split; [reflexivity|discriminate].
  - intros E. injection E as <-. auto.
  - intros E. injection E as <-. auto.
Qed.

Lemma parsed_keys (g : string * fentry T -> result (string * fentry T)) values vs :
  (forall kv kv', g kv = Ok kv' -> fst kv' = fst kv /\ (shared (fst kv) = false -> kv' = kv)) ->
  map_res g values = Ok vs -> od_keys vs = od_keys values /\
  forall k, shared k = false -> od_get vs k = od_get values k.
Proof.
  intros H E. apply map_res_ok in E. induction E as [|kv kv' l m E _ IH]; [split; reflexivity|].
  destruct (H _ _ E) as (H1 & H2). destruct IH as (I1 & I2). destruct kv as [k e], kv' as [k' e']. cbn [fst] in *. subst k'.
  split; [cbn; f_equal; exact I1|]. intros j S. cbn [od_get]. destruct (String.eqb_spec j k) as [->|NE].
  - specialize (H2 S). injection H2 as ->. reflexivity.
  - apply I2. exact S.
Qed.

(** Filling in the defaults. *)
Lemma fill_get (e : fentry T) seen keys vs k :
  od_get (fold_left (fun c j => if mem_str j seen then c else od_set c j e) keys vs) k =
  if andb (mem_str k keys) (negb (mem_str k seen)) then Some e else od_get vs k.
Proof.
  revert vs. induction keys as [|j keys IH]; intros vs; cbn [fold_left]; [reflexivity|]. rewrite IH.
  assert (MC : mem_str k (j :: keys) = orb (String.eqb k j) (mem_str k keys)) by reflexivity. rewrite MC.
  destruct (String.eqb_spec k j) as [->|NE]; cbn [orb].
  - destruct (mem_str j seen) eqn:M; cbn [negb andb]; [rewrite Bool.andb_false_r; reflexivity|].
    rewrite od_get_set_eq. destruct (mem_str j keys); reflexivity.
  - destruct (mem_str j seen); [reflexivity|]. rewrite od_get_set_ne by exact NE. reflexivity.
Qed.

Lemma fill_nodup (e : fentry T) seen keys vs : NoDup (od_keys vs) ->
  NoDup (od_keys (fold_left (fun c j => if mem_str j seen then c else od_set c j e) keys vs)).
Proof.
  revert vs. induction keys as [|j keys IH]; intros vs H; cbn [fold_left]; [exact H|]. apply IH.
  destruct (mem_str j seen); [exact H|apply od_keys_set_nodup; exact H].
Qed.

Lemma seen_own k values : In k (od_keys values) -> shared k = false -> mem_str k (flat_map subkeys (od_keys values)) = true.
Proof.
  intros I S. apply mem_str_iff. apply in_flat_map. exists k. split; [exact I|]. rewrite (subkeys_unshared _ S). left. reflexivity.
Qed.

(** What the two parsings make of the values: the value of a variable is the one
    under its own name; a variable that is mentioned only in a shared key gets the
    default of the second parsing, others that of the first. *)
Lemma parse_twice f values vs vs' :
  NoDup (od_keys values) -> (forall k, In k (fd_keys f) -> shared k = false) ->
  f_parse_all f values = Ok vs -> f_parse_args f vs = Ok vs' ->
  NoDup (od_keys vs') /\ plain f vs' /\
  forall k, In k (fd_keys f) ->
    (forall e, od_get values k = Some e -> od_get vs' k = Some e) /\
    (~ In k (od_keys values) -> exists w, od_get vs' k = Some (One (default_val f w)) /\
       (~ In k (flat_map subkeys (od_keys values)) -> od_keys w = od_keys values)).
Proof.
  intros NV SH E1 E2. unfold f_parse_all in E1. destruct (map_res parse_any values) as [w1|] eqn:M1; cbn [bind] in E1; [|discriminate].
  injection E1 as E1. destruct (parsed_keys _ _ _ parse_any_key M1) as (K1 & G1).
  match type of E1 with context [fold_left ?g (fd_keys f) w1] => set (all := fold_left g (fd_keys f) w1) in E1 end.
  assert (GA : forall k, od_get all k = if andb (mem_str k (fd_keys f)) (negb (mem_str k (flat_map subkeys (od_keys w1)))) then Some (One (default_val f w1)) else od_get w1 k)
    by (intros k; apply fill_get).
  assert (NA : NoDup (od_keys all)) by (apply fill_nodup; rewrite K1; exact NV).
  assert (GV : forall k, In k (fd_keys f) -> od_get vs k = od_get all k).
  { intros k I. rewrite <- E1. rewrite (od_get_filter (fun k => mem_str k (fd_keys f))). apply mem_str_iff in I. rewrite I. reflexivity. }
  assert (PV : plain f vs).
  { intros k I. rewrite <- E1 in I. unfold od_keys in I. apply in_map_iff in I. destruct I as ([k' e] & <- & I).
    apply filter_In in I. apply mem_str_iff, I. }
  assert (NVS : NoDup (od_keys vs)) by (rewrite <- E1, (od_keys_filter (fun k => mem_str k (fd_keys f))); apply filter_nodup; exact NA).
  unfold f_parse_args in E2. destruct (map_res (parse_entry f) vs) as [w2|] eqn:M2; cbn [bind] in E2; [|discriminate]. injection E2 as E2.
  assert (PE : forall kv kv' : string * fentry T, parse_entry f kv = Ok kv' -> fst kv' = fst kv /\ (shared (fst kv) = false -> kv' = kv)).
  { intros kv kv'. unfold parse_entry. destruct (shared (fst kv)); destruct kv as [k [x|l]]; cbn [fst snd bind].
    - destruct (assert_ _); cbn [bind]; [|discriminate]. intros E. injection E as <-. split; [reflexivity|discriminate].
    - destruct (length l =? _); cbn [assert_ bind]; [|discriminate]. destruct (assert_ _); cbn [bind]; [|discriminate]. intros E. injection E as <-. split; [reflexivity|discriminate].
    - destruct (assert_ _); cbn [bind]; [|discriminate]. intros E. injection E as <-. auto.
    - destruct (assert_ _); cbn [bind]; [|discriminate]. intros E. injection E as <-. auto. }
  destruct (parsed_keys _ _ _ PE M2) as (K2 & G2).
  assert (GF : forall k, od_get vs' k = if andb (mem_str k (fd_keys f)) (negb (mem_str k (flat_map subkeys (od_keys w2)))) then Some (One (default_val f w2)) else od_get w2 k)
    by (intros k; rewrite <- E2; apply fill_get).
  split; [rewrite <- E2; apply fill_nodup; rewrite K2; exact NVS|].
  assert (FS : flat_map subkeys (od_keys w2) = od_keys vs).
  { rewrite K2. clear -PV SH. assert (X : forall k, In k (od_keys vs) -> shared k = false) by (intros k I; apply SH, PV, I).
    induction (od_keys vs) as [|k l IH]; [reflexivity|]. cbn [flat_map]. rewrite subkeys_unshared by (apply X; left; reflexivity).
    cbn. f_equal. apply IH. intros j I. apply X. right. exact I. }
  rewrite FS in GF. split.
  { intros k I. destruct (mem_str k (fd_keys f)) eqn:M; [apply mem_str_iff, M|].
    apply od_key_get in I. destruct I as (e & I). rewrite GF, M in I. cbn [andb] in I. apply od_get_some_key in I. rewrite K2 in I. apply PV, I. }
  intros k I. assert (MK : mem_str k (fd_keys f) = true) by (apply mem_str_iff, I). split.
  - intros e GE. assert (IV : In k (od_keys values)) by (eapply od_get_some_key; eauto).
    assert (GG : od_get vs k = Some e).
    { rewrite (GV k I), GA. rewrite K1, (seen_own k values IV (SH k I)). cbn [negb]. rewrite Bool.andb_false_r. rewrite G1 by (apply SH, I). exact GE. }
    rewrite GF. assert (MV : mem_str k (od_keys vs) = true) by (apply mem_str_iff; eapply od_get_some_key; eauto).
    rewrite MV. cbn [negb]. rewrite Bool.andb_false_r. rewrite G2 by (apply SH, I). exact GG.
  - intros NI. destruct (mem_str k (flat_map subkeys (od_keys values))) eqn:MS.
    + exists w2. split.
      * rewrite GF, MK. assert (NK : mem_str k (od_keys vs) = false).
        { apply mem_str_false. intros J. apply od_key_get in J. destruct J as (e & J). rewrite (GV k I), GA, K1, MS in J. cbn [negb] in J.
          rewrite Bool.andb_false_r in J. apply NI. rewrite <- K1. eapply od_get_some_key; eauto. }
        rewrite NK. reflexivity.
      * intros C. exfalso. apply C. apply mem_str_iff, MS.
    + exists w1. split; [|intros _; exact K1].
      assert (GG : od_get vs k = Some (One (default_val f w1))) by (rewrite (GV k I), GA, K1, MK, MS; reflexivity).
      rewrite GF. assert (MV : mem_str k (od_keys vs) = true) by (apply mem_str_iff; eapply od_get_some_key; eauto).
      rewrite MV. cbn [negb]. rewrite Bool.andb_false_r. rewrite G2 by (apply SH, I). exact GG.
Qed.

(** ** Steps *)

(** The only variable's own step is not used. *)
Definition not_own (f : @rfield T) (s : @asked T) (pred : @vdict T) : Prop :=
  length (fd_keys (rf_fld f)) <> 1 \/ (forall n, s <> AskUnit n) /\ (s = AskNone -> forallb (fun ka => is_scalar (snd ka)) pred = false).

Lemma step_parts (f : @rfield T) (m : @means T) values (s : @asked T) r p : rf_step_any f m values s r = Ok p ->
  apart (fd_keys (rf_fld f)) ->
  exists vs vs' pred dims, f_parse_all (rf_fld f) values = Ok vs /\ f_parse_args (rf_fld f) vs = Ok vs' /\
    f_evaluate_by (rf_ev (rf_all f) r) (rf_fld f) vs' 0 = Ok (pred, dims) /\
    (not_own f s pred -> forall k, In k (fd_keys (rf_fld f)) -> exists a, od_get pred k = Some a /\ shape a = [] /\
       od_get (p_vals p) k = Some (VNum (as_num (get a [])))).
Proof.
  intros E AP. unfold rf_step_any in E.
  destruct (f_parse_all (rf_fld f) values) as [vs|] eqn:E1; cbn [bind] in E; [|discriminate].
  destruct (f_parse_args (rf_fld f) vs) as [vs'|] eqn:E2; cbn [bind] in E; [|discriminate].
  destruct (f_evaluate_by _ _ _ _) as [[pred dims]|] eqn:E3; cbn [bind] in E; [|discriminate].
  exists vs, vs', pred, dims. split; [reflexivity|]. split; [exact E2|]. split; [exact E3|]. intros NO.
  set (s' := match s, by_delta m with AskNone, None => _ | _, _ => _ end) in E.
  destruct (any_eval_step f m pred s') as [[vals dm]|] eqn:ES; cbn [bind] in E; [|discriminate].
  destruct (by_cond m vals) as [c|]; cbn [bind] in E; [|discriminate].
  assert (X : dm = [] /\ exists sv, step_merge (fd_keys (rf_fld f)) pred sv = Ok vals).
  { assert (Y : forall q, (let! sv := q in let! vals0 := step_merge (fd_keys (rf_fld f)) pred sv in Ok (vals0, [])) = Ok (vals, dm) ->
        dm = [] /\ exists sv, step_merge (fd_keys (rf_fld f)) pred sv = Ok vals).
    { intros [sv|]; cbn [bind]; [|discriminate]. destruct (step_merge _ pred sv) as [v0|] eqn:EM; cbn [bind]; [|discriminate].
      intros H. injection H as <- <-. split; [reflexivity|]. exists sv. exact EM. }
    unfold any_eval_step in ES. destruct s' as [|n|dd|g] eqn:ES'.
    - destruct (by_delta m); eapply Y; exact ES.
    - destruct (by_tfun m) as [g|]; [eapply Y; exact ES|]. exfalso.
      destruct (fd_keys (rf_fld f)) as [|k1 [|k2 l]] eqn:EK; try discriminate.
      destruct NO as [NO|(NO1 & NO2)]; [rewrite EK in NO; cbn in NO; congruence|].
      destruct s as [|n'|dd|g]; try discriminate.
      + specialize (NO2 eq_refl). unfold s' in ES'. rewrite NO2 in ES'. destruct (by_delta m); discriminate.
      + apply (NO1 n'). reflexivity.
    - eapply Y. exact ES.
    - eapply Y. exact ES. }
  destruct X as (-> & sv & EM). destruct (merge_get _ _ _ _ AP EM) as (ND & MG).
  destruct (pd_scalars _ _ _ _ _ ND E) as (S1 & S2).
  intros k I. destruct (MG k I) as (a & G1 & G2). exists a. split; [exact G1|].
  assert (SA : shape a = []) by (apply (S1 k); apply od_get_in; exact G2). split; [exact SA|].
  rewrite S2. unfold out_vals.
  rewrite (od_get_map (fun _ (t : tensor (pyval T)) => to_value t)), G2. cbn. unfold to_value. rewrite SA. reflexivity.
Qed.

End P.
