(** Property lemmas and examples about the redistribution of probabilities. *)
From Coq Require Import Ascii String ZArith Reals Lra Bool Arith Lia Permutation List.
From Verif Require Import Base Num Tensor TensorBcast OdLemmas TensorLemmas RNumLemmas PScales
  PScales_Spec PScales_Proofs Names Names_Spec Names_Proofs Distr PDModel PD_Spec PD_Make PD_Sums
  PD_Valid PD_Marg PD_Move PD_Simple_Spec PD_Rekey PD_Examples PD_SortEx PD_ProdThm PD_Remarg_Spec PD_Remarg.
Import ListNotations.
Local Open Scope R_scope.

Section Thm.
Context {F : Fmt R}.

Lemma gathered_sum (p : pd R) (L : list string) (d : dist R) (G : list string) (vals : odict (tensor R)) (a : assignment) (here : assignment -> bool) :
  valid_pd p L -> grid d G ->
  (forall k, In k G -> exists v, od_get vals k = Some v /\ shape v = map (size_of p) L) ->
  (forall b, in_bounds p L b -> (here b = true <-> forall k, In k G -> in_cell (edges d k) (assigned vals L k b) (a k))) ->
  gathered p L d G vals (map a G) = sum_over (sized p L) (fun b => if here b then prob_at p L b else 0) (fun _ => 0%nat).
Proof.
  intros V GR HV HH. unfold gathered, cell_at.
  rewrite <- (flat_sum (size_of p) (fun idx => if list_eqb Nat.eqb (map a G)
      (map (fun k => match od_get vals k with Some v => cellf (edges d k) (get v idx) | None => 0%nat end) G)
      then match p_prob p with Some t => denote (spec_of (p_pscale p)) (get t idx) | None => 0 end else 0) L (vp_axes _ _ V) (fun _ => 0%nat)).
  unfold sized. apply sum_over_in_range; [rewrite map_map; cbn [fst]; rewrite map_id; apply V|].
  intros b Hb _. assert (Bb : in_bounds p L b).
  { intros k K. apply Hb. apply in_map_iff. exists k. auto. }
  cbn beta. change (match p_prob p with Some t => denote (spec_of (p_pscale p)) (get t (map b L)) | None => 0 end) with (prob_at p L b).
  replace (list_eqb Nat.eqb (map a G) (map (fun k => match od_get vals k with Some v => cellf (edges d k) (get v (map b L)) | None => 0%nat end) G))
    with (here b); [reflexivity|].
  apply eq_true_iff_eq. rewrite HH by exact Bb. rewrite list_eqb_nat_iff. rewrite map_ext_in_iff. unfold assigned.
  split; intros H k K; specialize (H k K); destruct (HV k K) as (v & Hv & _); rewrite Hv in *;
    destruct (grid_edges d G GR k K) as (e & _ & _ & E1 & E2 & _).
  - symmetry. apply cellf_iff; auto.
  - apply (cellf_iff (edges d k)); auto.
Qed.

Lemma issing_some (p : pd R) (L : list string) : valid_pd p L -> L = [] ->
  forall d vals, remarginalise p d vals = Err AssertionError.
Proof.
  intros V -> d vals. unfold remarginalise. change (p_issing p) with (d_issing (p_d p)). rewrite (vp_issing _ _ V).
  assert (E : forallb (fun kv => issingleton (snd kv)) (p_vals p) = true).
  { apply forallb_forall. intros [k v] I. apply (vp_sing p [] V k v); [|intros []].
    apply od_in_get; [exact (vp_keys _ _ V)|exact I]. }
  rewrite E. reflexivity.
Qed.

Lemma remarg_moves (p : pd R) (L : list string) (d : dist R) (G : list string) (vals : odict (tensor R)) :
  valid_pd p L -> fine_scale p -> p_cond p = [] -> L <> [] -> grid d G ->
  (log_scaled p -> forall b, in_bounds p L b -> prob_at p L b <= npi) ->
  NoDup (od_keys vals) -> incl (od_keys vals) (od_keys (d_dims d)) ->
  (forall k, In k G -> exists v, od_get vals k = Some v /\ shape v = map (size_of p) L) ->
  exists q, remarginalise p d vals = Ok q /\ valid_pd q G /\ p_keylist q = od_keys (d_vals d) /\
    od_keys (p_marg q) = od_keys (d_vals d) /\ p_pscale q = p_pscale p /\
    (forall k, variable q k = match od_get (d_vals d) k with Some v => Some (var_of v) | None => None end) /\
    (forall a here, in_bounds q G a ->
       (forall b, in_bounds p L b -> (here b = true <-> forall k, In k G -> in_cell (edges d k) (assigned vals L k b) (a k))) ->
       (log_scaled p -> npz <= sum_over (sized p L) (fun b => if here b then prob_at p L b else 0) (fun _ => 0%nat)) ->
       prob_at q G a = sum_over (sized p L) (fun b => if here b then prob_at p L b else 0) (fun _ => 0%nat)).
Proof.
  intros V FS PC NE GR LR HN HK HV.
  destruct (remarg_gen p L V FS d G GR vals HV HK HN PC NE LR) as (q & Eq & Vq & Kq & Mq & Cq & Sq & Wq & Pq).
  exists q. repeat (split; [assumption|]). intros a here Ba HH HL.
  rewrite <- (gathered_sum p L d G vals a here V GR HV HH) in HL |- *. apply Pq; assumption.
Qed.

Lemma sum_delta (sz : string -> nat) (G : list string) idx x : NoDup G -> in_range (map sz G) idx ->
  sum_over (map (fun k => (k, sz k)) G) (fun b => if list_eqb Nat.eqb (map b G) idx then x else 0) (fun _ => 0%nat) = x.
Proof.
  intros N IR. rewrite (flat_sum sz (fun l => if list_eqb Nat.eqb l idx then x else 0) G N (fun _ => 0%nat)).
  rewrite (sum_n_ext _ _ (fun j => if Nat.eqb j (ravel (map sz G) idx) then x else 0)).
  - apply sum_n_delta. apply ravel_lt. exact IR.
  - intros j Hj. replace (list_eqb Nat.eqb (unravel (map sz G) j) idx) with (Nat.eqb j (ravel (map sz G) idx)); [reflexivity|].
    apply eq_true_iff_eq. rewrite Nat.eqb_eq, list_eqb_nat_iff. split.
    + intros ->. apply unravel_ravel, IR.
    + intros <-. symmetry. apply ravel_unravel, Hj.
Qed.

Lemma remarg_total (p : pd R) (L : list string) (d : dist R) (G : list string) (vals : odict (tensor R)) :
  valid_pd p L -> fine_scale p -> ~ log_scaled p -> p_cond p = [] -> L <> [] -> grid d G ->
  NoDup (od_keys vals) -> incl (od_keys vals) (od_keys (d_dims d)) ->
  (forall k, In k G -> exists v, od_get vals k = Some v /\ shape v = map (size_of p) L) ->
  exists q, remarginalise p d vals = Ok q /\ total q G = total p L.
Proof.
  intros V FS NL PC NE GR HN HK HV.
  destruct (remarg_gen p L V FS d G GR vals HV HK HN PC NE) as (q & Eq & Vq & Kq & Mq & Cq & Sq & Wq & Pq); [tauto|].
  exists q. split; [exact Eq|]. unfold total.
  assert (SQ : forall k, In k G -> size_of q k = length (edges d k)).
  { intros k K. destruct (grid_edges d G GR k K) as (a & A1 & A2 & A3 & _). unfold size_of. rewrite Wq, A1.
    unfold var_of. destruct (In_nth_error _ _ K) as (j & J). destruct (g_column _ _ GR j k J) as (a' & B1 & B2 & _).
    assert (a' = a) by congruence. subst a'. destruct (shape a) eqn:E; [congruence|]. rewrite A2. reflexivity. }
  assert (SD : d_shape d = map (size_of q) G).
  { rewrite (map_ext_in _ _ G SQ). apply nth_ext with (d := 0%nat) (d' := 0%nat); [rewrite map_length; apply (g_shape _ _ GR)|].
    intros j Hj. rewrite (g_shape _ _ GR) in Hj. destruct (nth_error G j) as [k|] eqn:J; [|apply nth_error_None in J; lia].
    destruct (g_column _ _ GR j k J) as (a & A1 & _ & _ & _ & _ & A6 & _). apply nth_error_nth with (d := 0%nat) in A6. rewrite A6.
    rewrite nth_indep with (d' := length (edges d ""%string)) by (rewrite map_length; exact Hj).
    rewrite map_nth with (f := fun k => length (edges d k)). apply nth_error_nth with (d := ""%string) in J as J'. rewrite J'.
    destruct (grid_edges d G GR k (nth_error_In _ _ J)) as (a' & B1 & _ & _ & _ & B5). assert (a' = a) by congruence. subst. auto. }
  transitivity (sum_over (map (fun k => (k, size_of q k)) G) (fun b => gathered p L d G vals (map b G)) (fun _ => 0%nat)).
  { unfold sized. apply sum_over_in_range; [rewrite map_map; cbn [fst]; rewrite map_id; apply Vq|].
    intros b Hb _. apply Pq; [|tauto]. intros k K. apply Hb. apply in_map_iff. exists k. auto. }
  rewrite (flat_sum (size_of q) (gathered p L d G vals) G (vp_axes _ _ Vq)). unfold gathered.
  rewrite sum_n_exchange. unfold sized, prob_at.
  rewrite (flat_sum (size_of p) (fun idx => match p_prob p with Some t => denote (spec_of (p_pscale p)) (get t idx) | None => 0 end) L (vp_axes _ _ V)).
  apply sum_n_ext. intros i Hi.
  rewrite <- (flat_sum (size_of q) (fun l => if list_eqb Nat.eqb l (cell_at p L d G vals i) then
     match p_prob p with Some t => denote (spec_of (p_pscale p)) (get t (unravel (map (size_of p) L) i)) | None => 0 end else 0) G (vp_axes _ _ Vq) (fun _ => 0%nat)).
  apply (sum_delta (size_of q) G); [apply Vq|]. rewrite <- SD. apply (cell_at_in p L d G GR vals HV).
Qed.

(** Nothing in the result is conditional. *)
Lemma make_pd_no_cond name (vals : odict (value R)) dims t ps q : ~ occurs "|" name ->
  make_pd name vals dims t ps = Ok q -> p_cond q = [].
Proof.
  intros NB. unfold make_pd.
  destruct (str_margcond name) as [[m0 c0]|] eqn:E; [cbn [bind]|discriminate].
  assert (C0 : c0 = []).
  { revert E. unfold str_margcond. destruct (String.eqb name ""); [congruence|].
    destruct (paren_slice name) as [ms|] eqn:Ep; [cbn [bind]|discriminate].
    assert (H : has_char "|" ms = false).
    { apply has_char_false. revert Ep. unfold paren_slice. destruct (find_char "(" name), (find_char ")" name); try discriminate.
      - destruct (Nat.ltb _ _); [|discriminate]. destruct (Nat.eqb _ _); intros X; inversion X; subst; [|intros []].
        intros C. apply NB. destruct name; [exact C|]. unfold occurs in *. cbn in *. destruct C as [C|[]]; auto.
      - intros X; inversion X; subst; exact NB. }
    rewrite H. cbn [bind]. intros X; inversion X. reflexivity. }
  subst c0. destruct (make_dist name vals dims) as [dd|]; [cbn [bind]|discriminate].
  match goal with |- bind ?x _ = Ok _ -> _ => destruct x as [[m1 c1]|] eqn:Eo end; [cbn [bind]|discriminate].
  assert (C1 : c1 = []).
  { clear E. revert Eo. unfold override_names. generalize (combine (d_vals dd) (d_aresing dd)) as its. intros its. revert m0.
    induction its as [|[[k v] []] its IH]; intros m; cbn [fold_res].
    - intros X; inversion X; reflexivity.
    - cbn [fst snd]. destruct (od_mem m k); [cbn [bind]; apply IH|]. cbn. intros X; discriminate X.
    - cbn [bind]. apply IH. }
  subst c1. destruct (eval_pscale ps) as [psc|]; [cbn [bind]|discriminate].
  match goal with |- context [check_prob ?a ?b] => destruct (check_prob a b) end; [cbn [bind]|discriminate].
  intros X; inversion X. reflexivity.
Qed.

Lemma remarg_no_cond (p : pd R) (L : list string) (d : dist R) (G : list string) (vals : odict (tensor R)) (q : pd R) :
  valid_pd p L -> grid d G -> remarginalise p d vals = Ok q -> p_cond q = [].
Proof.
  intros V GR. unfold remarginalise.
  repeat match goal with |- bind ?x _ = Ok _ -> _ => destruct x as [?|]; [cbn [bind]|discriminate] end.
  apply make_pd_no_cond. unfold remarg_name.
  assert (NM : ~ occurs "|" (join "," (map (fun kv : string * value R => match snd kv with
                                    | VNum x => (fst kv ++ "=" ++ fmt x)%string
                                    | VStr s => (fst kv ++ "=" ++ s)%string
                                    | _ => (fst kv ++ "=[]")%string
                                    end) (d_vals d)))).
  { apply join_free; [apply occurs_comma; discriminate|]. apply Forall_forall. intros e I. apply in_map_iff in I.
    destruct I as (kv & <- & I). pose proof (gentry_good d G GR kv I) as [(_ & _ & B & _) _]. exact B. }
  destruct (has_char "|" (p_name p)) eqn:HC; [|exact NM].
  intros C. apply occurs_app in C. destruct C as [C|C]; [exact (NM C)|]. revert C.
  rewrite (vp_name _ _ V) in HC |- *. unfold margcond_str in *.
  assert (FE : forall m : odict string, incl m (p_marg p ++ p_cond p) -> ~ occurs "|" (join "," (od_vals m))).
  { intros m I. apply join_free; [apply occurs_comma; discriminate|]. unfold od_vals. apply Forall_forall. intros e Ie.
    apply in_map_iff in Ie. destruct Ie as (ke & <- & Ie). pose proof (vp_entries _ _ V) as E. rewrite Forall_forall in E.
    apply (E ke (I _ Ie)). }
  pose proof (FE (p_marg p) (incl_appl _ (incl_refl _))) as F1. pose proof (FE (p_cond p) (incl_appr _ (incl_refl _))) as F2.
  destruct (String.eqb (join "," (od_vals (p_cond p))) "") eqn:E.
  - apply has_char_false in F1. congruence.
  - rewrite (split_join "|"%char [join "," (od_vals (p_marg p)); join "," (od_vals (p_cond p))]); [|discriminate|].
    + cbn [nth]. exact F2.
    + constructor; [exact F1|]. constructor; [exact F2|constructor].
Qed.
End Thm.

(** *** examples *)
Section Ex.
Let F : Fmt R := fmt_ex.
Existing Instance F.

(** The grid u = 0, 10 with the scalar w = 5. *)
Definition gr_make : result (dist R) :=
  make_dist "u,w" [("u", VArr (of_list 0 [0; 10])); ("w", VNum 5)]%string (Some [("u", Some 0%Z)]%string).
(** u is 3 times the position along the first axis of p plus that along the second. *)
Definition gr_vals : odict (tensor R) := [("u"%string, mkT [2; 3]%nat (fun idx => match idx with [i; j] => INR (3 * i + j) | _ => 0 end))].

Lemma gr_ok : exists d, gr_make = Ok d /\ grid d ["u"]%string /\ od_keys (d_vals d) = ["u"; "w"]%string /\ od_keys (d_dims d) = ["u"; "w"]%string.
Proof.
  eexists. split; [reflexivity|]. split; [|split; reflexivity]. constructor.
  - repeat constructor; cbn; intuition discriminate.
  - discriminate.
  - cbn. intros k [<-|[<-|[]]]; (split; [split; [apply good_entryb_ok; reflexivity|apply has_char_false; reflexivity]|]); intros [C|[C|[C|[]]]]; discriminate.
  - repeat constructor; cbn; intuition discriminate.
  - intros k [<-|[]]; cbn; auto.
  - split; [intros k K; exact K|repeat constructor; cbn; intuition discriminate].
  - intros k v Gk Nk. assert (K : In k ["u"; "w"]%string) by (apply od_get_some_key in Gk; exact Gk).
    destruct K as [<-|[<-|[]]]; [exfalso; apply Nk; cbn; auto|]. cbn in Gk. inversion Gk; subst.
    split; [reflexivity|]. split; [reflexivity|]. apply good_entryb_ok. reflexivity.
  - intros [|j] k J; cbn in J; [|destruct j; discriminate]. inversion J; subst. eexists. split; [reflexivity|].
    cbn. repeat split; try discriminate; try lia. left. intros i m Hm. cbn in Hm. destruct m as [|[|m]]; [lia| |lia].
    destruct i; [|lia]. cbn. lra.
  - reflexivity.
Qed.

Lemma ex_remarg : exists p d, scl_make (/ 6) (PSFloat 1) = Ok p /\ gr_make = Ok d /\ 
  let L := ["x"; "y"]%string in let G := ["u"]%string in
  valid_pd p L /\ fine_scale p /\ ~ log_scaled p /\ p_cond p = [] /\ L <> [] /\ grid d G /\
  NoDup (od_keys gr_vals) /\ incl (od_keys gr_vals) (od_keys (d_dims d)) /\
  (forall k, In k G -> exists v, od_get gr_vals k = Some v /\ shape v = map (size_of p) L).
Proof.
  destruct (scl_ok (/ 6) (PSFloat 1) (Lin 1)) as (p & E & V & K & M & Sp & P & X & Y); [apply one_scale|].
  destruct gr_ok as (d & Ed & Gd & Kd & Dd). exists p, d. split; [exact E|]. split; [exact Ed|]. cbn zeta.
  destruct (fine_plain p Sp) as [Fs Nl].
  split; [exact V|]. split; [exact Fs|]. split; [exact Nl|]. split.
  { pose proof (vp_names _ _ V) as N. apply Permutation_length in N. rewrite M, K, app_length in N. unfold od_keys in N.
    rewrite map_length in N. destruct (p_cond p); [reflexivity|cbn in N; lia]. }
  split; [discriminate|]. split; [exact Gd|]. split; [repeat constructor; intros []|].
  split; [rewrite Dd; intros k [<-|[]]; cbn; auto|].
  intros k [<-|[]]. eexists. split; [reflexivity|]. cbn [shape map]. unfold size_of. rewrite X, Y. reflexivity.
Qed.

(** p(x|z) with z on the first axis, and the grid u of two values. *)
Definition rc_vals : odict (value R) := [("x", VArr (of_list 0 [1; 2; 3])); ("z", VArr (of_list 0 [7; 8]))]%string.
Definition rc_make := make_pd "x|z" rc_vals (Some [("x", Some 1%Z); ("z", Some 0%Z)]%string)
  (Some (mkT [2; 3]%nat (fun _ => / 3))) (PSFloat 1).

Lemma rc_ok : exists p, rc_make = Ok p /\ valid_pd p ["z"; "x"]%string /\ p_pscale p = Lin 1 /\ od_keys (p_cond p) = ["z"]%string /\
  p_name p = "x|z"%string /\
  variable p "x" = Some (Col [1; 2; 3]) /\ variable p "z" = Some (Col [7; 8]).
Proof.
  destruct (@make_pd_ok F rc_vals [("x", Some 1%Z); ("z", Some 0%Z)]%string ["z"; "x"]%string
              [("x", "x")]%string [("z", "z")]%string
              (mkT [2; 3]%nat (fun _ => / 3)) (PSFloat 1) (Lin 1)) as (q & E & V & K & M & C & P & Sq & Vr).
  - repeat constructor; cbn; intuition discriminate.
  - discriminate.
  - cbn. intros k Hk. intuition (subst; discriminate).
  - repeat constructor; cbn; intuition discriminate.
  - intros k Hk. cbn in *. tauto.
  - intros k v G Hk.
    assert (Hin : In k (od_keys rc_vals)) by (eapply od_get_some_key; eauto).
    cbn in Hin, Hk. tauto.
  - intros [|[|j]] k Hj; cbn in Hj; inversion Hj; subst; try (destruct j; discriminate);
    (eexists; split; [reflexivity|]; cbn; repeat split; auto; try discriminate; lia).
  - intros k Hk. cbn in *. tauto.
  - repeat constructor; cbn; intuition discriminate.
  - reflexivity.
  - apply good_keyed. reflexivity.
  - apply good_keyed. reflexivity.
  - cbn. repeat constructor.
  - apply one_scale.
  - apply one_scale.
  - exists q. split; [exact E|]. split; [exact V|]. split; [exact Sq|]. split; [rewrite C; reflexivity|].
    split; [rewrite (vp_name _ _ V), M, C; reflexivity|]. rewrite !Vr. cbn. repeat split; reflexivity.
Qed.

Definition gs_make : result (dist R) :=
  make_dist "u" [("u", VArr (of_list 0 [0; 10]))]%string (Some [("u", Some 0%Z)]%string).

Lemma gs_ok : exists d, gs_make = Ok d /\ grid d ["u"]%string /\ d_shape d = [2]%nat /\
  exists e, d_vals d = [("u"%string, VArr e)] /\ shape e = [2]%nat /\ d_dims d = [("u"%string, Some 0%Z)].
Proof.
  eexists. split; [reflexivity|]. split; [|split; [reflexivity|eexists; repeat split; reflexivity]]. constructor.
  - repeat constructor; cbn; intuition discriminate.
  - discriminate.
  - cbn. intros k [<-|[]]; (split; [split; [apply good_entryb_ok; reflexivity|apply has_char_false; reflexivity]|]); intros [C|[C|[C|[]]]]; discriminate.
  - repeat constructor; cbn; intuition discriminate.
  - intros k [<-|[]]; cbn; auto.
  - split; [intros k K; exact K|repeat constructor; cbn; intuition discriminate].
  - intros k v Gk Nk. exfalso. apply Nk. apply od_get_some_key in Gk. exact Gk.
  - intros [|j] k J; cbn in J; [|destruct j; discriminate]. inversion J; subst. eexists. split; [reflexivity|].
    cbn. repeat split; try discriminate; try lia. left. intros i m Hm. cbn in Hm. destruct m as [|[|m]]; [lia| |lia].
    destruct i; [|lia]. cbn. lra.
  - reflexivity.
Qed.

Lemma ex_remarg_cond : exists p d q, rc_make = Ok p /\ gs_make = Ok d /\ valid_pd p ["z"; "x"]%string /\ grid d ["u"]%string /\
  od_keys (p_cond p) = ["z"]%string /\ remarginalise p d gr_vals = Ok q /\ p_keylist q = ["u"; "z"]%string.
Proof.
  destruct rc_ok as (p & E & V & Sp & C & Np & X & Z). destruct gs_ok as (d & Ed & Gd & Sd & e & Ve & Se & De).
  destruct (fine_plain p Sp) as [Fs Nl].
  destruct (remarg_front p ["z"; "x"]%string V Fs d ["u"]%string Gd gr_vals) as (rem & Rs & _ & Er).
  - intros k [<-|[]]. eexists. split; [reflexivity|]. cbn [shape map]. unfold size_of. rewrite X, Z. reflexivity.
  - rewrite De. intros k [<-|[]]. cbn. auto.
  - repeat constructor. intros [].
  - discriminate.
  - tauto.
  - unfold rest in Er. rewrite C in Er.
    destruct (vp_axis p _ V "z"%string) as (a & Ga & Sa & _ & _ & _ & Da); [cbn; auto|].
    cbn [fold_res] in Er. rewrite (proj2 (od_getR_ok _ _ _) Ga), (proj2 (od_getR_ok _ _ _) Da) in Er. cbn [bind fst snd] in Er.
    rewrite Ve, De, Np in Er.
    destruct (from_unit p _ V Fs rem) as (w & Ew & Sw & _). rewrite Ew in Er. cbn [bind] in Er.
    rewrite Sp in Er. cbn [spec_of] in Er.
    assert (Zs : size_of p "z" = 2%nat) by (unfold size_of; rewrite Z; reflexivity).
    rewrite Zs in Sa. cbn in Sa. rewrite Rs, Sd in Sw.
    assert (Nm : remarg_name d "x|z" = "u=[]z"%string) by (unfold remarg_name; rewrite Ve; reflexivity).
    rewrite Nm in Er. destruct a as [sa ga], e as [se ge], w as [sw gw]. cbn [shape] in Sa, Se, Sw. subst sa se sw.
    unfold make_pd in Er. rewrite one_scale in Er.
    match type of Er with _ = ?r => let r' := eval cbn in r in change r with r' in Er end.
    exists p, d. eexists. do 5 (split; [eassumption|]). split; [exact Er|]. reflexivity.
Qed.

Lemma ex_cell : [0; 10] <> [] /\ (ascending [0; 10] \/ descending [0; 10]).
Proof.
  split; [discriminate|]. left. intros i m Hm. cbn in Hm. destruct m as [|[|m]]; [lia| |lia].
  destruct i; [|lia]. cbn. lra.
Qed.

(** p(w=5) = 1. *)
Definition rs_make := make_pd "w" [("w", VNum 5)]%string (Some []) (Some (tscalar 1)) (PSFloat 1).

Lemma ex_remarg_scalar : exists p, rs_make = Ok p /\ valid_pd p [].
Proof.
  destruct (@make_pd_ok F [("w", VNum 5)]%string [] [] [("w", "w")]%string [] (tscalar 1) (PSFloat 1) (Lin 1)) as (q & E & V & _).
  - repeat constructor; cbn; intuition discriminate.
  - discriminate.
  - cbn. intros k Hk. intuition (subst; discriminate).
  - constructor.
  - intros k [].
  - intros k v G _. apply od_get_some_key in G as K. cbn in K. destruct K as [<-|[]]. cbn in G. inversion G; subst. auto.
  - intros [|j] k Hj; discriminate.
  - intros k [].
  - constructor.
  - reflexivity.
  - apply good_keyed. reflexivity.
  - apply good_keyed. reflexivity.
  - cbn. repeat constructor.
  - apply one_scale.
  - apply one_scale.
  - exists q. split; [exact E|exact V].
Qed.
End Ex.
