(** Proofs about RV.step: the distribution that a step returns. *)
From Coq Require Import String Ascii ZArith Reals Bool Arith List Lia Lra Sorted Permutation.
From Verif Require Import Base Num Tensor TensorBcast TensorLemmas OdLemmas RNumLemmas PScales PScales_Spec PScales_Proofs Names Names_Spec Names_Proofs
  Distr PDModel PD_Spec PD_Simple_Spec PD_Make PD_Rekey Likelihoods VariableModel Var_Spec Var_Proofs RVModel RV_Spec RV_Proofs RV_Matrix RV_More RVStep_Spec
  FieldModel RFModel RF_Spec RF_Proofs Chain_Proofs.
Import ListNotations.
Local Open Scope list_scope.

Lemma prime_ne k : (k ++ "'")%string <> k.
Proof. induction k as [|c k IH]; cbn; [discriminate|]. congruence. Qed.

Lemma to_list_tmap_num (a : tensor (pyval R)) : to_list (tmap (@as_num R RNum) a) = map num (to_list a).
Proof. unfold to_list. rewrite map_map. cbn. apply map_ext. intros i. apply as_num_num. Qed.

Section Step.
Context {F : Fmt R} {TR : Trunc R}.
Variable v : rv R.
Let nm := rv_name v.
Let nm' := (nm ++ "'")%string.
Hypothesis PR : printable F.
Hypothesis NA : named_apart [nm].
Hypothesis EP : eval_pscale (spec_of (rv_pscale v)) = Ok (rv_pscale v).

Let SK : simple_key nm := proj1 (proj2 NA nm (or_introl eq_refl)).
Let SK' : simple_key nm' := proj1 (proj2 (primed_apart [nm] NA) nm' (or_introl eq_refl)).

Lemma entry_array k : simple_key k -> good_entry (k ++ "=[]") /\ key_of (k ++ "=[]") k.
Proof. intros S. exact (fname_good PR k (FUnit 0) S). Qed.

Lemma entry_num k x : simple_key k -> good_entry (k ++ "=" ++ fmt x) /\ key_of (k ++ "=" ++ fmt x) k.
Proof. intros S. apply good_join; [exact S|apply PR]. Qed.

Lemma entry_plain k : simple_key k -> good_entry k /\ key_of k k.
Proof. intros S. exact (fname_good PR k FNone S). Qed.

Lemma entry_vname a : good_entry (vname nm a) /\ key_of (vname nm a) nm.
Proof.
  destruct a as [| |l b]; cbn [vname]; [apply entry_plain|apply entry_array|]; try exact SK.
  destruct l as [|x [|y l]]; [apply entry_array; exact SK| |apply entry_array; exact SK].
  destruct b; [apply entry_num|apply entry_array]; exact SK.
Qed.

(** The distribution made of the values of a step. *)
Lemma step_made dc pred succ reverse r p st vp vs ps ss a idx t :
  rv_evaluate v pred (sr_eval r) = Ok p -> holds p vp ps -> holds a vs ss -> ps <> [] -> ss <> [] ->
  st = reshape_vals nm p a idx -> eval_step v dc p succ reverse r = Ok st ->
  (eval_tran v st reverse = Ok (Some t) \/ eval_tran v st reverse = Ok None /\ tbin (fun _ _ => n1) (st_succ st) (st_pred st) = Ok t) ->
  shape t = pair_shape vs vp ss ps ->
  exists q, step v dc pred succ reverse r = Ok q /\ steps_to v vp vs ps ss q /\ p_prob q = Some t.
Proof.
  intros E1 Hp Hs NP NS Est E2 E3 ST.
  destruct (reshape_lists nm p a idx vp vs ps ss Hp Hs) as (Tp & Ts & Sp & Ss & _).
  pose proof (holds_len _ _ _ Hp) as Np. pose proof (holds_len _ _ _ Hs) as Ns.
  assert (LP : 0 < length ps) by (destruct ps; [congruence|cbn; lia]). assert (LS : 0 < length ss) by (destruct ss; [congruence|cbn; lia]).
  set (sn := match pred, succ, is_float (rv_state v) with
    | VariableModel.VNone, RVModel.SNone, false => nm'
    | _, _, _ => match shape (st_succ st) with
                 | [] => (nm' ++ "=" ++ fmt (as_num (get (st_succ st) [])))%string
                 | _ => (nm' ++ "=[]")%string
                 end
    end).
  assert (GS : good_entry sn /\ key_of sn nm').
  { assert (G0 : forall sh, good_entry (match sh : list nat with [] => (nm' ++ "=" ++ fmt (as_num (get (st_succ st) [])))%string | _ => (nm' ++ "=[]")%string end) /\
       key_of (match sh with [] => (nm' ++ "=" ++ fmt (as_num (get (st_succ st) [])))%string | _ => (nm' ++ "=[]")%string end) nm').
    { intros [|n sh]; [apply entry_num|apply entry_array]; exact SK'. }
    unfold sn. destruct pred; try apply G0. destruct succ; try apply G0. destruct (is_float (rv_state v)); [apply G0|apply entry_plain; exact SK']. }
  set (vals := [(nm', to_value (st_succ st)); (nm, to_value (st_pred st))]).
  set (L := (if vs then [nm'] else []) ++ (if vp then [nm] else [])).
  assert (EN : step_name v pred succ st = margcond_str (od_vals [(nm', sn)]) (od_vals [(nm, vname nm pred)])).
  { unfold margcond_str. cbn [od_vals map snd join]. destruct (String.eqb_spec (vname nm pred) "") as [C|_].
    - exfalso. destruct (entry_vname pred) as [(C0 & _) _]. contradiction.
    - unfold step_name. fold nm nm'. fold sn. reflexivity. }
  assert (NE' := prime_ne nm). fold nm' in NE'.
  assert (DM : st_dims st = [(nm', if vs then Some 0%Z else None); (nm, if vp then Some (if vs then 1%Z else 0%Z) else None)]).
  { rewrite Est. unfold reshape_vals. fold nm'. destruct vs, vp; cbn [holds] in Hp, Hs.
    - subst a p. reflexivity.
    - destruct Hp as (z & -> & ->). subst a. reflexivity.
    - destruct Hs as (z & -> & ->). subst p. reflexivity.
    - destruct Hp as (z & -> & ->). destruct Hs as (z' & -> & ->). reflexivity. }
  assert (SHS : shape (st_succ st) = if vs then (if vp then [length ss; 1] else [length ss]) else []).
  { rewrite Est. unfold reshape_vals. destruct vs, vp; cbn [holds] in Hp, Hs.
    - rewrite Ns, Np. subst a p. reflexivity.
    - destruct Hp as (z & -> & ->). subst a. reflexivity.
    - destruct Hs as (z & -> & ->). subst p. reflexivity.
    - destruct Hp as (z & -> & ->). destruct Hs as (z' & -> & ->). reflexivity. }
  assert (SHP : shape (st_pred st) = if vp then (if vs then [1; length ps] else [length ps]) else []).
  { rewrite Est. unfold reshape_vals. destruct vs, vp; cbn [holds] in Hp, Hs.
    - rewrite Ns, Np. subst a p. reflexivity.
    - destruct Hp as (z & -> & ->). subst a. reflexivity.
    - destruct Hs as (z & -> & ->). subst p. reflexivity.
    - destruct Hp as (z & -> & ->). destruct Hs as (z' & -> & ->). reflexivity. }
  subst st.
  assert (G1 : od_get vals nm' = Some (to_value (st_succ (reshape_vals nm p a idx)))) by (unfold vals; cbn [od_get]; rewrite String.eqb_refl; reflexivity).
  assert (G2 : od_get vals nm = Some (to_value (st_pred (reshape_vals nm p a idx)))).
  { unfold vals. cbn [od_get]. destruct (String.eqb_spec nm nm') as [C|_]; [congruence|]. rewrite String.eqb_refl. reflexivity. }
  assert (D1 : od_get (st_dims (reshape_vals nm p a idx)) nm' = Some (if vs then Some 0%Z else None)) by (rewrite DM; cbn [od_get]; rewrite String.eqb_refl; reflexivity).
  assert (D2 : od_get (st_dims (reshape_vals nm p a idx)) nm = Some (if vp then Some (if vs then 1%Z else 0%Z) else None)).
  { rewrite DM. cbn [od_get]. destruct (String.eqb_spec nm nm') as [C|_]; [congruence|]. rewrite String.eqb_refl. reflexivity. }
  assert (TV : forall b : tensor (pyval R), shape b <> [] -> to_value b = VArr (tmap (@as_num R RNum) b)) by (intros b H; unfold to_value; destruct (shape b); congruence).
  assert (TS : forall b : tensor (pyval R), shape b = [] -> to_value b = VNum (as_num (get b []))) by (intros b H; unfold to_value; rewrite H; reflexivity).
  destruct (make_pd_ok vals (st_dims (reshape_vals nm p a idx)) L [(nm', sn)] [(nm, vname nm pred)] t (spec_of (rv_pscale v)) (rv_pscale v))
    as (q & E & VP & K & M & C & PP & PS & VV).
  - cbn. constructor; [intros [C|[]]; congruence|repeat constructor; intros []].
  - discriminate.
  - cbn [vals od_keys map fst]. intros k [<-|[<-|[]]]; [apply (proj2 (primed_apart [nm] NA) nm'); left; reflexivity|apply (proj2 NA nm); left; reflexivity].
  - unfold L. destruct vs, vp; cbn; repeat constructor; cbn; try (intros [C|[]]; congruence); intros [].
  - unfold L. intros k I. cbn. destruct vs, vp; cbn in I; tauto.
  - intros k w Gk NI. destruct (String.eqb_spec k nm') as [->|N1].
    { rewrite G1 in Gk. injection Gk as <-. destruct vs; [exfalso; apply NI; left; reflexivity|]. rewrite TS by exact SHS. rewrite D1. auto. }
    destruct (String.eqb_spec k nm) as [->|N2].
    { rewrite G2 in Gk. injection Gk as <-. destruct vp; [exfalso; apply NI; unfold L; apply in_or_app; right; left; reflexivity|].
      rewrite TS by exact SHP. rewrite D2. auto. }
    exfalso. unfold vals in Gk. cbn [od_get] in Gk. destruct (String.eqb_spec k nm'); [contradiction|]. destruct (String.eqb_spec k nm); [contradiction|discriminate].
  - assert (HS1 : vs = true -> exists b, od_get vals nm' = Some (VArr b) /\ shape b <> [] /\ tsize b = list_max (shape b) /\ 0 < tsize b /\
      od_get (st_dims (reshape_vals nm p a idx)) nm' = Some (Some (Z.of_nat 0)) /\ nth_error (shape t) 0 = Some (tsize b)).
    { intros Ev. rewrite D1. rewrite ST. rewrite Ev in *. eexists. rewrite G1, TV by (rewrite SHS; destruct vp; discriminate).
      split; [reflexivity|]. cbn [tmap shape]. unfold tsize. cbn [tmap shape]. rewrite SHS. unfold pair_shape.
      destruct vp; cbn -[Nat.max]; rewrite ?Nat.mul_1_r, ?Nat.max_0_r; (split; [discriminate|]); (split; [lia|]); (split; [lia|]); auto. }
    assert (HP1 : vp = true -> exists b, od_get vals nm = Some (VArr b) /\ shape b <> [] /\ tsize b = list_max (shape b) /\ 0 < tsize b /\
      od_get (st_dims (reshape_vals nm p a idx)) nm = Some (Some (Z.of_nat (if vs then 1 else 0))) /\ nth_error (shape t) (if vs then 1 else 0) = Some (tsize b)).
    { intros Ev. rewrite D2. rewrite ST. rewrite Ev in *. eexists. rewrite G2, TV by (rewrite SHP; destruct vs; discriminate).
      split; [reflexivity|]. cbn [tmap shape]. unfold tsize. cbn [tmap shape]. rewrite SHP. unfold pair_shape.
      destruct vs; cbn -[Nat.max]; rewrite ?Nat.mul_1_r, ?Nat.add_0_r, ?Nat.max_0_r; (split; [discriminate|]); (split; [lia|]); (split; [lia|]); auto. }
    intros j k Hj. unfold L in Hj. destruct vs, vp; cbn in Hj.
    + destruct j as [|[|j]]; cbn in Hj; [injection Hj as <-; exact (HS1 eq_refl)|injection Hj as <-; exact (HP1 eq_refl)|destruct j; discriminate].
    + destruct j as [|j]; cbn in Hj; [injection Hj as <-; exact (HS1 eq_refl)|destruct j; discriminate].
    + destruct j as [|j]; cbn in Hj; [injection Hj as <-; exact (HP1 eq_refl)|destruct j; discriminate].
    + destruct j; discriminate.
  - rewrite DM. cbn. intros k I. exact I.
  - rewrite DM. cbn. constructor; [intros [C|[]]; congruence|repeat constructor; intros []].
  - rewrite ST. unfold pair_shape, L. rewrite !app_length. destruct vs, vp; reflexivity.
  - cbn [app]. constructor; [exact GS|]. constructor; [apply entry_vname|constructor].
  - cbn [app map]. unfold render. cbn [fst snd].
    constructor; [|constructor; [|constructor]]; cbn [fst snd].
    + destruct (mem_str nm' L) eqn:ML; [exact GS|]. rewrite G1. apply mem_str_false in ML.
      destruct vs; [exfalso; apply ML; left; reflexivity|]. rewrite TS by exact SHS. cbn [fmt_value]. apply entry_num; exact SK'.
    + destruct (mem_str nm L) eqn:ML; [apply entry_vname|]. rewrite G2. apply mem_str_false in ML.
      destruct vp; [exfalso; apply ML; unfold L; apply in_or_app; right; left; reflexivity|]. rewrite TS by exact SHP. cbn [fmt_value]. apply entry_num; exact SK.
  - reflexivity.
  - exact EP.
  - exact EP.
  - exists q. split.
    { unfold step. rewrite E1. cbn [bind]. rewrite E2. cbn [bind]. destruct E3 as [-> | [-> E3]]; cbn [bind].
      - rewrite EN. exact E.
      - rewrite E3. cbn [bind]. rewrite EN. exact E. }
    split; [|exact PP]. split; [exact VP|]. split; [rewrite M; reflexivity|]. split; [rewrite C; reflexivity|]. split; [exact PS|].
    split; [rewrite VV; fold nm nm'; rewrite G1|rewrite VV; fold nm; rewrite G2]; f_equal.
    + unfold column_of. destruct vs.
      * rewrite TV by (rewrite SHS; destruct vp; discriminate). cbn [var_of tmap shape]. rewrite SHS. destruct vp; f_equal; (rewrite <- Ts; exact (to_list_tmap_num _)).
      * rewrite TS by exact SHS. cbn [var_of]. do 2 f_equal. rewrite as_num_num. f_equal. rewrite <- Ts. cbn [holds] in Hs. destruct Hs as (z & -> & ->).
        unfold to_list. rewrite SHS. unfold tsize. rewrite SHS. reflexivity.
    + unfold column_of. destruct vp.
      * rewrite TV by (rewrite SHP; destruct vs; discriminate). cbn [var_of tmap shape]. rewrite SHP. destruct vs; f_equal; (rewrite <- Tp; exact (to_list_tmap_num _)).
      * rewrite TS by exact SHP. cbn [var_of]. do 2 f_equal. rewrite as_num_num. f_equal. rewrite <- Tp. cbn [holds] in Hp. destruct Hp as (z & -> & ->).
        unfold to_list. rewrite SHP. unfold tsize. rewrite SHP. reflexivity.
Qed.
End Step.

(** Constants broadcast over pairs in the other order. *)
Lemma tbin_const_pair {C} (c : C) nm pred succ idx vp vs ps ss :
  holds pred vp ps -> holds succ vs ss ->
  exists t, tbin (fun _ _ => c) (st_succ (reshape_vals nm pred succ idx)) (st_pred (reshape_vals nm pred succ idx)) = Ok t /\
    shape t = pair_shape vs vp ss ps /\ forall i, get t i = c.
Proof.
  intros Hp Hs. pose proof (holds_list _ _ _ Hp) as Lp. pose proof (holds_list _ _ _ Hs) as Ls.
  pose proof (holds_len _ _ _ Hp) as Np. pose proof (holds_len _ _ _ Hs) as Ns.
  destruct vs, vp; cbn [holds] in Hp, Hs.
  - unfold reshape_vals. rewrite Ls, Lp, Ns, Np. subst pred succ. cbn [of_list shape st_pred st_succ].
    unfold tbin, bcast_shape. cbn [shape length Nat.max pad_shape]. cbn [Nat.sub repeat app].
    change (pad_shape 2 [1%nat; length ps]) with [1%nat; length ps].
    change (pad_shape 2 [length ss; 1%nat]) with [length ss; 1%nat].
    assert (MP : merge_shape [length ss; 1] [1; length ps] = Ok [length ss; length ps]).
    { cbn. destruct (length ss) as [|[|n]], (length ps) as [|[|m]]; reflexivity. }
    rewrite MP. cbn [bind]. eexists. split; [reflexivity|]. split; reflexivity.
  - destruct Hp as (x & -> & ->). subst succ. unfold reshape_vals. cbn [of_list shape st_pred st_succ tscalar].
    unfold tbin, bcast_shape. cbn [shape length Nat.max pad_shape tscalar of_list]. unfold pad_shape. cbn.
    destruct (length ss) as [|[|n]] eqn:E; cbn; (eexists; split; [reflexivity|]; split; [rewrite ?E; reflexivity|reflexivity]).
  - destruct Hs as (x & -> & ->). subst pred. unfold reshape_vals. cbn [of_list shape st_pred st_succ tscalar].
    unfold tbin, bcast_shape. cbn [shape length Nat.max pad_shape tscalar of_list]. unfold pad_shape. cbn.
    destruct (length ps) as [|[|n]] eqn:E; cbn; (eexists; split; [reflexivity|]; split; [rewrite ?E; reflexivity|reflexivity]).
  - destruct Hs as (x & -> & ->). destruct Hp as (y & -> & ->). cbn.
    eexists. split; [reflexivity|]. split; reflexivity.
Qed.

Section Given.
Context {F : Fmt R} {TR : Trunc R}.
Variable v : rv R.
Hypothesis PR : printable F.
Hypothesis NA : named_apart [rv_name v].
Hypothesis EP : eval_pscale (spec_of (rv_pscale v)) = Ok (rv_pscale v).

(** What is held at an assignment. *)
Lemma at_axes q t vp vs ps ss g : ps <> [] -> ss <> [] -> steps_to v vp vs ps ss q -> p_prob q = Some t ->
  (forall a b, (a < length ss)%nat -> (b < length ps)%nat -> get t (pair_at vs vp a b) = g (nth b ps (PF 0%R)) (nth a ss (PF 0%R))) ->
  forall s, in_bounds q (step_axes v vp vs) s ->
    prob_at q (step_axes v vp vs) s =
      denote (spec_of (rv_pscale v)) (g (item vp ps (s (rv_name v))) (item vs ss (s (rv_name v ++ "'")%string))).
Proof.
  intros NP NS (V & M & C & PS & V1 & V2) Et G s IB. unfold prob_at. rewrite Et, PS. f_equal.
  assert (LP : (0 < length ps)%nat) by (destruct ps; [congruence|cbn; lia]). assert (LS : (0 < length ss)%nat) by (destruct ss; [congruence|cbn; lia]).
  unfold item. rewrite <- G.
  - unfold step_axes, pair_at. destruct vs, vp; reflexivity.
  - destruct vs; [|exact LS]. assert (I : In (rv_name v ++ "'")%string (step_axes v vp true)) by (left; reflexivity).
    apply IB in I. unfold size_of in I. rewrite V1 in I. cbn [column_of] in I. rewrite map_length in I. exact I.
  - destruct vp; [|exact LP]. assert (I : In (rv_name v) (step_axes v true vs)) by (unfold step_axes; apply in_or_app; right; left; reflexivity).
    apply IB in I. unfold size_of in I. rewrite V2 in I. cbn [column_of] in I. rewrite map_length in I. exact I.
Qed.

Lemma step_values dc pred succ reverse r p vp vs ps ss g :
  rv_evaluate v pred (sr_eval r) = Ok p -> holds p vp ps -> holds succ vs ss -> ps <> [] -> ss <> [] ->
  gives_tran v reverse ps ss g \/ (exists c, gives_scalar v c g) ->
  exists q, step v dc pred (SVals succ) reverse r = Ok q /\ steps_to v vp vs ps ss q /\
    forall s, in_bounds q (step_axes v vp vs) s ->
      prob_at q (step_axes v vp vs) s =
        denote (spec_of (rv_pscale v)) (g (item vp ps (s (rv_name v))) (item vs ss (s (rv_name v ++ "'")%string))).
Proof.
  intros E1 Hp Hs NP NS GT.
  set (st := reshape_vals (rv_name v) p succ None).
  assert (ES : eval_step v dc p (SVals succ) reverse r = Ok st).
  { unfold eval_step. cbn [bind]. destruct (rv_tran v); reflexivity. }
  assert (Q : exists t, (eval_tran v st reverse = Ok (Some t) \/ eval_tran v st reverse = Ok None /\ tbin (fun _ _ => n1) (st_succ st) (st_pred st) = Ok t) /\
    shape t = pair_shape vs vp ss ps /\
    forall a b, (a < length ss)%nat -> (b < length ps)%nat -> get t (pair_at vs vp a b) = g (nth b ps (PF 0%R)) (nth a ss (PF 0%R))).
  { destruct GT as [GT|(c & GT)].
    - destruct GT as [T|f T|f b T|m l vals n rank T SM VS PE INC LN RK].
      + destruct (tbin_const_pair 1%R (rv_name v) p succ None vp vs ps ss Hp Hs) as (t & Et & St & Gt).
        exists t. split; [right|split; [exact St|intros; apply Gt]]. split; [unfold eval_tran; rewrite T; reflexivity|].
        rewrite n1_R. exact Et.
      + destruct (tbin_pair (fun x y => f (as_num x) (as_num y)) (rv_name v) p succ None vp vs ps ss Hp Hs) as (t & Et & St & Gt).
        exists t. split; [left|split; [exact St|]].
        * unfold eval_tran. rewrite T. fold st in Et. rewrite Et. reflexivity.
        * intros a b Ha Hb. rewrite Gt by assumption. rewrite !as_num_num. reflexivity.
      + destruct (tbin_pair (fun x y => (if reverse then b else f) (as_num x) (as_num y)) (rv_name v) p succ None vp vs ps ss Hp Hs) as (t & Et & St & Gt).
        exists t. split; [left|split; [exact St|]].
        * unfold eval_tran. rewrite T. fold st in Et. rewrite Et. reflexivity.
        * intros i k Ha Hb. rewrite Gt by assumption. rewrite !as_num_num. reflexivity.
      + destruct (step_given v dc reverse r m l vals p succ vp vs ps ss rank n T SM VS PE INC LN Hp Hs RK) as (st' & t & Es & Et & St & Gt).
        rewrite ES in Es. injection Es as <-. exists t. split; [left; exact Et|split; [exact St|]].
        intros a b Ha Hb. apply Gt; apply nth_error_nth'; assumption.
    - destruct GT as (mem & len & T & FS & GG).
      destruct (uniform_tran v dc reverse r c p succ vp vs ps ss T Hp Hs) as (st' & t & Es & Et & St & Gt).
      rewrite ES in Es. injection Es as <-. exists t. split; [left; exact Et|split; [exact St|]].
      intros a b Ha Hb. rewrite Gt by assumption. destruct (GG (nth b ps (PF 0%R)) (nth a ss (PF 0%R))) as [G1 G0].
      pose proof (inside_set _ _ _ FS (nth b ps (PF 0%R))) as I1. pose proof (inside_set _ _ _ FS (nth a ss (PF 0%R))) as I2.
      destruct (inside_b (rv_state v) (nth b ps (PF 0%R))), (inside_b (rv_state v) (nth a ss (PF 0%R))); cbn [andb];
        symmetry; first [apply G1; tauto|apply G0; intros [X Y]; apply I1 in X; apply I2 in Y; congruence]. }
  destruct Q as (t & Et & St & Gt).
  destruct (step_made v PR NA EP dc pred (SVals succ) reverse r p st vp vs ps ss succ None t E1 Hp Hs NP NS eq_refl ES Et St) as (q & Eq & SQ & Pq).
  exists q. split; [exact Eq|]. split; [exact SQ|]. exact (at_axes q t vp vs ps ss g NP NS SQ Pq Gt).
Qed.

(** Log scales. *)
Lemma log_step_none dc pred succ reverse r p vp vs ps ss :
  rv_pscale v = Log 0%R 0%R -> rv_tran v = TRNone ->
  rv_evaluate v pred (sr_eval r) = Ok p -> holds p vp ps -> holds succ vs ss -> ps <> [] -> ss <> [] ->
  exists q, step v dc pred (SVals succ) reverse r = Ok q /\ steps_to v vp vs ps ss q /\
    forall s, in_bounds q (step_axes v vp vs) s -> prob_at q (step_axes v vp vs) s = exp 1.
Proof.
  intros L T E1 Hp Hs NP NS.
  destruct (step_values dc pred succ reverse r p vp vs ps ss (fun _ _ => 1%R) E1 Hp Hs NP NS) as (q & Eq & SQ & G).
  { left. constructor 1. exact T. }
  exists q. split; [exact Eq|]. split; [exact SQ|]. intros s IB. rewrite G by exact IB. rewrite L.
  exact (denote_log 1%R).
Qed.

Lemma log_step_outside dc pred succ reverse r p vp vs ps ss c mem len :
  rv_pscale v = Log 0%R 0%R -> rv_tran v = TRScalar c -> finite_set (rv_state v) mem len ->
  rv_evaluate v pred (sr_eval r) = Ok p -> holds p vp ps -> holds succ vs ss -> ps <> [] -> ss <> [] ->
  exists q, step v dc pred (SVals succ) reverse r = Ok q /\ steps_to v vp vs ps ss q /\
    forall s, in_bounds q (step_axes v vp vs) s ->
      let x := num (item vp ps (s (rv_name v))) in let y := num (item vs ss (s (rv_name v ++ "'")%string)) in
      (mem x /\ mem y -> prob_at q (step_axes v vp vs) s = exp c) /\
      (~ (mem x /\ mem y) -> prob_at q (step_axes v vp vs) s = 1%R).
Proof.
  intros L T FS E1 Hp Hs NP NS.
  set (g := fun x y => if inside_b (rv_state v) x && inside_b (rv_state v) y then c else 0%R).
  assert (GG : forall x y, (mem (num x) /\ mem (num y) -> g x y = c) /\ (~ (mem (num x) /\ mem (num y)) -> g x y = 0%R)).
  { intros x y. unfold g. pose proof (inside_set _ _ _ FS x) as I1. pose proof (inside_set _ _ _ FS y) as I2.
    destruct (inside_b (rv_state v) x), (inside_b (rv_state v) y); cbn [andb]; split; intros H; try reflexivity; exfalso;
      try (apply H; tauto); destruct H as [X Y]; apply I1 in X; apply I2 in Y; congruence. }
  destruct (step_values dc pred succ reverse r p vp vs ps ss g E1 Hp Hs NP NS) as (q & Eq & SQ & G).
  { right. exists c, mem, len. auto. }
  exists q. split; [exact Eq|]. split; [exact SQ|]. intros s IB. rewrite G by exact IB. rewrite L. cbv zeta.
  assert (D : forall y, denote (spec_of (Log 0%R 0%R)) y = exp y).
  { intros y. exact (denote_log y). }
  rewrite D. destruct (GG (item vp ps (s (rv_name v))) (item vs ss (s (rv_name v ++ "'")%string))) as [G1 G0].
  split; intros H; [rewrite G1 by exact H; reflexivity|rewrite G0 by exact H; apply exp_0].
Qed.
End Given.

(** Unbounded intervals. *)
Lemma unbounded_default nm (vset vt : arg R) given (v : rv R) e0 e1 :
  make_rv nm vset vt PANone given = Ok v -> rv_state v = interval e0 e1 -> infinite e0 \/ infinite e1 ->
  forall vals, exists t, eval_prob v vals = Ok t /\ shape t = shape vals /\
    forall idx, get t idx = if log_kind (spec_of (rv_pscale v)) then nni else 0%R.
Proof.
  intros H S I vals. unfold make_rv in H. destruct (make_variable (Some nm) vt vset) as [[n s]|] eqn:MV; [|discriminate]. cbn [bind] in H.
  unfold rv_set_prob in H. destruct (new_pscale given PSNone) as [ps|] eqn:NPS; [|discriminate]. cbn [bind] in H.
  assert (ES : s = interval e0 e1).
  { destruct (default_prob s ps); [|discriminate]. cbn [bind] in H. injection H as <-. exact S. }
  subst s. assert (V : vlength (interval e0 e1) None = Ok (@None (pyval R))).
  { unfold vlength, interval. cbn [vs_vset vs_vtype u_image]. destruct (atom_of e0) as [x|] eqn:A0; [|reflexivity]. destruct (atom_of e1) as [y|] eqn:A1; [|reflexivity].
    exfalso. destruct I as [I|I]; [exact (I x A0)|exact (I y A1)]. }
  assert (DP : default_prob (interval e0 e1) ps = Ok (if is_log ps then nni else 0%R)).
  { unfold default_prob, nlhv. rewrite V. cbn [bind]. rewrite n0_R. reflexivity. }
  rewrite DP in H. cbn [bind] in H. injection H as <-.
  pose proof (new_pscale_idem _ _ _ NPS) as EP.
  match goal with |- context [eval_prob ?w _] => destruct (eval_scalar w (if is_log ps then nni else 0%R) vals) as (t & E & Sh & G) end; [reflexivity|exact EP|].
  exists t. split; [exact E|]. split; [exact Sh|]. intros idx. rewrite G. cbn [rv_pscale]. rewrite (is_log_kind _ EP).
  destruct (inside_b _ _); reflexivity.
Qed.

(** set_prob(None) on a variable. *)
Lemma reset_default (v v' : rv R) given mem len :
  rv_reset_prob v given PANone = Ok v' -> finite_set (rv_state v) mem len -> (npz <= len)%R ->
  good_scale (spec_of (rv_pscale v')) ->
  (log_kind (spec_of (rv_pscale v')) = false -> / len / factor (spec_of (rv_pscale v')) <= npi)%R ->
  rv_state v' = rv_state v /\ rv_name v' = rv_name v /\ rv_def v' = true /\
  exists c, rv_tran v' = TRScalar c /\ denote (spec_of (rv_pscale v')) c = (/ len)%R.
Proof.
  unfold rv_reset_prob, rv_set_prob. intros H FS L. destruct (new_pscale given (spec_of (rv_pscale v))) as [ps|]; [|discriminate]. cbn [bind] in H.
  destruct (default_prob (rv_state v) ps) as [x|] eqn:D; [|discriminate]. cbn [bind] in H. injection H as <-. cbn. intros G B.
  destruct (default_prob_ok _ _ _ ps FS L G B) as (y & Dy & X). rewrite D in Dy. injection Dy as <-.
  split; [reflexivity|]. split; [reflexivity|]. split; [reflexivity|]. exists x. auto.
Qed.

(** set_tran with matrices. *)
Lemma tran_accepted (v : rv R) tr m : first_matrix tr m ->
  (snd (rv_set_tran v tr) = Ok tt <-> vs_vtype (rv_state v) <> Some VFloat /\ square_of v m).
Proof.
  intros FM. unfold square_of.
  assert (E : rv_set_tran v tr = (mkRV (rv_name v) (rv_state v) (rv_pscale v) (rv_prob v) tr (rv_tfun v) (rv_def v),
    match vs_vset (rv_state v) with
      | None => Err TypeError
      | Some l =>
          if is_float (rv_state v) then Err AssertionError
          else if (ndim m =? 2)%nat && forallb (Nat.eqb (length l)) (shape m) then Ok tt
          else Err AssertionError
      end)).
  { destruct tr as [| |a|a b| |]; cbn in FM; try contradiction; subst m; unfold rv_set_tran; destruct (vs_vset (rv_state v)); try reflexivity;
      destruct (is_float _); try reflexivity; destruct (_ && _); reflexivity. }
  rewrite E. cbn [snd]. unfold is_float. destruct (vs_vset (rv_state v)) as [l|]; [|split; [discriminate|intros (_ & l & C & _); discriminate]].
  destruct (vs_vtype (rv_state v)) as [[]|]; cbn [andb]; try (split; [discriminate|intros [C _]; congruence]);
  (unfold ndim; split;
  [ destruct (shape m) as [|x [|y [|z sh]]]; cbn; try discriminate; rewrite ?andb_false_r; try discriminate;
    destruct (Nat.eqb_spec (length l) x); cbn; [|discriminate]; destruct (Nat.eqb_spec (length l) y); cbn; [|discriminate];
    intros _; split; [discriminate|]; exists l; subst; auto
  | intros (_ & l' & El & ->); injection El as <-; cbn; rewrite !Nat.eqb_refl; reflexivity ]).
Qed.

Lemma tran_kept (v : rv R) tr : rv_tran (fst (rv_set_tran v tr)) = tr /\
  rv_prob (fst (rv_set_tran v tr)) = rv_prob v /\ rv_state (fst (rv_set_tran v tr)) = rv_state v.
Proof.
  unfold rv_set_tran. destruct tr; try (cbn; auto; fail); destruct (vs_vset (rv_state v)); try (cbn; auto; fail);
    destruct (is_float _); try (cbn; auto; fail); destruct (_ && _); cbn; auto.
Qed.

(** uniform_prob of several arguments. *)
Local Open Scope R_scope.

Lemma uniform_rest_fold logs ins (l : list (tensor (pyval R))) acc :
  uniform_rest logs ins acc (map Some l) =
  fold_res (fun a x => tbin (if logs then n_add else n_mul) a x) (map (uniform1 (if logs then n0 else n1) (if logs then nni else n0) ins) l) acc.
Proof.
  revert acc. induction l as [|a l IH]; intros acc; [reflexivity|]. cbn [map uniform_rest fold_res].
  destruct (tbin _ acc _) as [acc'|]; [|reflexivity]. cbn [bind]. apply IH.
Qed.

Lemma uniform_many a l (p : R) ins ps psc s :
  eval_pscale ps = Ok psc -> fold_res bcast_shape (map shape l) (shape a) = Ok s ->
  exists t, uniform_prob (map Some (a :: l)) (Some p) ins ps = Ok t /\ shape t = s /\
    forall idx, in_range s idx ->
      (all_inside ins (a :: l) idx -> get t idx = p) /\
      (~ all_inside ins (a :: l) idx -> if is_log psc then get t idx <= Rmax p 0 + nni else get t idx = 0).
Proof.
  intros E B. cbn [map]. unfold uniform_prob. rewrite E. cbn [bind].
  set (lg := is_log psc).
  assert (B' : fold_res bcast_shape (map shape (map (uniform1 (if lg then n0 else n1) (if lg then nni else n0) ins) l)) (shape (uniform1 p (if lg then nni else n0) ins a)) = Ok s).
  { rewrite map_map. cbn [uniform1 tmap shape]. exact B. }
  destruct (tbin_fold (if lg then n_add else n_mul) _ _ B') as (t & Et & St & _ & Gt).
  exists t. split; [rewrite uniform_rest_fold; exact Et|]. split; [exact St|].
  intros idx IR. pose proof (Gt idx (in_range_length IR)) as G. rewrite (bcast_idx_id IR) in G. rewrite G. clear G Gt Et B' B.
  unfold all_inside. cbn [uniform1 tmap shape get]. set (x0 := ins (get a (bcast_idx (shape a) idx))).
  assert (NN : nni < 0). { rewrite nni_eq. pose proof npi_big. lra. }
  rewrite Forall_cons_iff. fold x0. destruct lg.
  - (* logs: each one outside adds nni *)
    assert (Q : forall l0 acc, let z := fold_left (fun (a0 : R) (x : tensor R) => n_add a0 (get x (bcast_idx (shape x) idx)))
        (map (uniform1 n0 nni ins) l0) acc in
        (Forall (fun a => ins (get a (bcast_idx (shape a) idx)) = true) l0 -> z = acc) /\
        (~ Forall (fun a => ins (get a (bcast_idx (shape a) idx)) = true) l0 -> z <= acc + nni) /\ z <= acc).
    { clear -NN. induction l0 as [|b l0 IH]; intros acc; cbn zeta; cbn [map fold_left].
      - split; [auto|]. split; [intros C; exfalso; apply C; constructor|lra].
      - cbn [uniform1 tmap shape get]. destruct (IH (n_add acc (if ins (get b (bcast_idx (shape b) idx)) then n0 else nni))) as (I1 & I2 & I3).
        rewrite n0_R in *. cbn [n_add RNum] in *. rewrite Forall_cons_iff.
        destruct (ins (get b (bcast_idx (shape b) idx))).
        + split; [intros [_ H]; rewrite I1 by exact H; lra|]. split; [intros H; assert (K := I2 (fun X => H (conj eq_refl X))); lra|lra].
        + split; [intros [C _]; discriminate|]. split; [intros _; lra|lra]. }
    destruct (Q l (if x0 then p else nni)) as (Q1 & Q2 & Q3). pose proof (Rmax_l p 0). pose proof (Rmax_r p 0). destruct x0.
    + split; [intros [_ H1]; exact (Q1 H1)|]. intros H1. assert (K := Q2 (fun X => H1 (conj eq_refl X))). lra.
    + split; [intros [C _]; discriminate|]. intros _. lra.
  - assert (Q : forall l0 acc, let z := fold_left (fun (a0 : R) (x : tensor R) => n_mul a0 (get x (bcast_idx (shape x) idx)))
        (map (uniform1 n1 n0 ins) l0) acc in
        (Forall (fun a => ins (get a (bcast_idx (shape a) idx)) = true) l0 -> z = acc) /\
        (~ Forall (fun a => ins (get a (bcast_idx (shape a) idx)) = true) l0 -> z = 0) /\ (acc = 0 -> z = 0)).
    { clear. induction l0 as [|b l0 IH]; intros acc; cbn zeta; cbn [map fold_left].
      - split; [auto|]. split; [intros C; exfalso; apply C; constructor|auto].
      - cbn [uniform1 tmap shape get]. destruct (IH (n_mul acc (if ins (get b (bcast_idx (shape b) idx)) then n1 else n0))) as (I1 & I2 & I3).
        rewrite n0_R, n1_R in *. cbn [n_mul RNum] in *. rewrite Forall_cons_iff.
        destruct (ins (get b (bcast_idx (shape b) idx))).
        + split; [intros [_ H]; rewrite I1 by exact H; lra|]. split; [intros H; apply I2; intros X; apply H; auto|intros ->; apply I3; lra].
        + split; [intros [C _]; discriminate|]. split; [intros _; apply I3; lra|intros _; apply I3; lra]. }
    rewrite n0_R in *. destruct (Q l (if x0 then p else 0)) as (Q1 & Q2 & Q3). destruct x0.
    + split; [intros [_ H1]; exact (Q1 H1)|]. intros H1. apply Q2. intros X. apply H1; auto.
    + split; [intros [C _]; discriminate|]. intros _. apply Q3. reflexivity.
Qed.
