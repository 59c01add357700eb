(** ismonotonic, redim, serialise and rekey of distributions. *)
From Coq Require Import Ascii String ZArith Reals Lra Bool Arith Lia Permutation List.
From Verif Require Import Base Num Tensor TensorBcast OdLemmas TensorLemmas RNumLemmas PScales Names Names_Spec
  Names_Proofs Distr PDModel PDUtils PD_Spec PD_Simple_Spec PD_Make PD_Sums PD_Valid.
Import ListNotations.

(** *** ismonotonic *)
Section Mono.
Local Open Scope R_scope.

Lemma ge_flags_length (l : list R) : length (ge_flags l) = (length l - 1)%nat.
Proof.
  induction l as [|x l IH]; [reflexivity|]. destruct l as [|y l]; [reflexivity|].
  change (ge_flags (x :: y :: l)) with (n_leb x y :: ge_flags (y :: l)). cbn [length] in *. lia.
Qed.

Lemma ge_flags_nth (l : list R) i : (S i < length l)%nat ->
  nth_error (ge_flags l) i = Some (n_leb (nth i l 0) (nth (S i) l 0)).
Proof.
  revert i. induction l as [|x l IH]; intros i H; [cbn in H; lia|].
  destruct l as [|y l]; [cbn in H; lia|].
  change (ge_flags (x :: y :: l)) with (n_leb x y :: ge_flags (y :: l)).
  destruct i; [reflexivity|]. cbn [nth_error]. rewrite IH by (cbn in *; lia). reflexivity.
Qed.

Lemma steps_nondecr (l : list R) : nondecreasing l <-> forall i, (S i < length l)%nat -> nth i l 0 <= nth (S i) l 0.
Proof.
  split; [intros H i Hi; apply H; lia|]. intros H i j [Hij Hj].
  induction j as [|j IH]; [lia|]. destruct (Nat.eq_dec i j) as [->|Nij]; [apply H; lia|].
  eapply Rle_trans; [apply IH; lia|apply H; lia].
Qed.

Lemma steps_decr (l : list R) : strictly_decreasing l <-> forall i, (S i < length l)%nat -> nth (S i) l 0 < nth i l 0.
Proof.
  split; [intros H i Hi; apply H; lia|]. intros H i j [Hij Hj].
  induction j as [|j IH]; [lia|]. destruct (Nat.eq_dec i j) as [->|Nij]; [apply H; lia|].
  eapply Rlt_trans; [apply H; lia|apply IH; lia].
Qed.

Lemma flags_all (l : list R) b : (forall i, (S i < length l)%nat -> n_leb (nth i l 0) (nth (S i) l 0) = b) <->
  forallb (Bool.eqb b) (ge_flags l) = true.
Proof.
  rewrite forallb_forall. split.
  - intros H x I. apply In_nth_error in I. destruct I as (i & E).
    assert (Hi : (S i < length l)%nat).
    { assert (i < length (ge_flags l))%nat by (apply nth_error_Some; congruence). rewrite ge_flags_length in H0. lia. }
    rewrite ge_flags_nth in E by exact Hi. injection E as <-. rewrite H by exact Hi. apply Bool.eqb_reflx.
  - intros H i Hi. symmetry. apply Bool.eqb_prop. apply H. eapply nth_error_In. apply ge_flags_nth. exact Hi.
Qed.

Lemma monotonic_iff (v : value R) : ismonotonic v = true <->
  issingleton v = true \/
  (2 <= length (numbers v))%nat /\ (nondecreasing (numbers v) \/ strictly_decreasing (numbers v)).
Proof.
  unfold ismonotonic. destruct (issingleton v) eqn:SV; [split; auto|].
  change (raveled_value v) with (numbers v). set (l := numbers v).
  pose proof (ge_flags_length l) as GL. pose proof (flags_all l true) as FT. pose proof (flags_all l false) as FF.
  rewrite steps_nondecr, steps_decr.
  destruct (ge_flags l) as [|b fl] eqn:E.
  - cbn in GL. split; [discriminate|]. intros [C|[C _]]; [discriminate|lia].
  - cbn in GL. split.
    + intros H. right. split; [lia|].
      assert (H' : forallb (Bool.eqb b) (b :: fl) = true) by (cbn; rewrite Bool.eqb_reflx; exact H).
      destruct b; [left|right]; intros i Hi.
      * apply (proj2 FT) with (i := i) in H'; [|exact Hi]. apply Rleb_iff. exact H'.
      * apply (proj2 FF) with (i := i) in H'; [|exact Hi]. apply Rnot_le_lt. intros C.
        apply Rleb_iff in C. change (n_leb (nth i l 0) (nth (S i) l 0) = true) in C. congruence.
    + intros [C|[C [H|H]]]; [discriminate| |].
      * assert (X : forallb (Bool.eqb true) (b :: fl) = true).
        { apply FT. intros i Hi. apply Rleb_iff. apply H. exact Hi. }
        destruct b; [exact X|discriminate].
      * assert (X : forallb (Bool.eqb false) (b :: fl) = true).
        { apply FF. intros i Hi. apply not_true_is_false. intros Y. apply Rleb_iff in Y. specialize (H i Hi). lra. }
        destruct b; [discriminate|exact X].
Qed.
End Mono.

Lemma Forall2_imp {A B} (P Q : A -> B -> Prop) l m :
  (forall a b, P a b -> Q a b) -> Forall2 P l m -> Forall2 Q l m.
Proof. intros H. induction 1; constructor; auto. Qed.

Section Simple.
Context {F : Fmt R}.

(** *** redim *)
Lemma redim_never p L dims q : valid_pd p L -> L <> [] -> pd_redim p dims <> Ok q.
Proof.
  intros V NL H. unfold pd_redim in H. destruct (redim (p_d p) dims) as [d|]; cbn [bind] in H; [|discriminate].
  unfold p_issing in H. rewrite (vp_issing _ _ V) in H.
  destruct (forallb _ _) eqn:E; [|discriminate].
  destruct L as [|k L']; [contradiction|].
  assert (Hk : In k (k :: L')) by (left; reflexivity).
  destruct (vp_axis p _ V k Hk) as (a & G & _). pose proof G as G'. apply od_get_in in G.
  rewrite forallb_forall in E. apply E in G. cbn [snd] in G.
  destruct (vp_tsize p _ V k a Hk G') as (_ & S & _).
  rewrite arr_not_singleton in G by exact S. discriminate.
Qed.

Lemma redim_attribute p L dims d : valid_pd p L -> L <> [] -> redim (p_d p) dims = Ok d ->
  pd_redim p dims = Err AttributeError.
Proof.
  intros V NL H. pose proof (fun q => redim_never p L dims q V NL) as Q. unfold pd_redim in *. rewrite H in *. cbn [bind] in *.
  unfold p_issing in *. rewrite (vp_issing _ _ V) in *.
  destruct (forallb _ _) eqn:E; [|reflexivity].
  exfalso. destruct L as [|k L']; [contradiction|].
  assert (Hk : In k (k :: L')) by (left; reflexivity).
  destruct (vp_axis p _ V k Hk) as (a & G & _). pose proof G as G'. apply od_get_in in G.
  rewrite forallb_forall in E. apply E in G. cbn [snd] in G.
  destruct (vp_tsize p _ V k a Hk G') as (_ & S & _).
  rewrite arr_not_singleton in G by exact S. discriminate.
Qed.

(** *** keys as names *)
Lemma key_plain e k : good_entry e -> key_of e k -> plain_key k.
Proof.
  intros (G0 & G1 & G2 & G3 & G4) [(r & -> & NE & F0)|(-> & H)].
  - unfold plain_key, good_entry, key_of. rewrite !occurs_app in *.
    split; [tauto|]. right. split; [reflexivity|]. left. exact F0.
  - split; [repeat split; assumption|]. right. auto.
Qed.

Lemma plain_rendered k v e : plain_key k -> good_entry e -> e = (k ++ "=" ++ v)%string -> key_of e k ->
  good_entry e /\ key_of e k.
Proof. auto. Qed.

(** The distribution made again from the same values with other entries in its name. *)
Lemma make_pd_again p L marg cond : valid_pd p L ->
  Forall (fun ke => good_entry (snd ke) /\ key_of (snd ke) (fst ke)) (marg ++ cond) ->
  Permutation (od_keys marg ++ od_keys cond) (p_keylist p) ->
  exists q, make_pd (margcond_str (od_vals marg) (od_vals cond)) (p_vals p) (Some (p_dims p)) (p_prob p)
              (spec_of (p_pscale p)) = Ok q /\
    valid_pd q L /\ p_keylist q = p_keylist p /\
    od_keys (p_marg q) = od_keys marg /\ od_keys (p_cond q) = od_keys cond /\
    p_prob q = p_prob p /\ p_pscale q = p_pscale p /\
    (forall k, variable q k = variable p k).
Proof.
  intros V G PM. destruct (vp_prob _ _ V) as (t & Et & St).
  pose proof (vp_shape_sizes p L V) as Sh.
  destruct (@make_pd_ok F (p_vals p) (p_dims p) L marg cond t (spec_of (p_pscale p)) (p_pscale p)) as
    (q & E & Vq & Kq & Mq & Cq & Pq & Sq & Varq); try apply V; auto.
  - intros C. apply (vp_some _ _ V). unfold p_keylist, d_keylist. unfold p_vals in C. rewrite C. reflexivity.
  - intros k v Gk Hk. destruct (vp_scalar _ _ V k v Gk Hk). auto.
  - intros j k Hj. assert (Hk : In k L) by (eapply nth_error_In; eauto).
    destruct (vp_axis p L V k Hk) as (a & A1 & A2 & A3 & A4 & A5 & A6).
    destruct (vp_tsize p L V k a Hk A1) as (B1 & B2 & B3 & B4).
    rewrite (nth_pos k L j (vp_axes _ _ V) Hj) in *.
    exists a. do 5 (split; [auto; fail|]). rewrite St. rewrite A5. congruence.
  - rewrite St. apply V.
  - apply Forall_forall. intros ke Hke. apply in_map_iff in Hke. destruct Hke as ([k e] & <- & Hke).
    pose proof G as G'. rewrite Forall_forall in G'. specialize (G' _ Hke).
    unfold render. cbn [fst snd] in *.
    destruct (mem_str k L) eqn:M; [exact G'|].
    destruct (od_get (p_vals p) k) as [v|] eqn:Gv; [|exact G'].
    apply mem_str_false in M.
    assert (Ka : In k (p_keylist p)) by (eapply od_get_some_key; exact Gv).
    apply (vp_key_iff p L V) in Ka.
    assert (X : exists e', od_get (p_marg p ++ p_cond p) k = Some e').
    { apply od_key_get. unfold od_keys. rewrite map_app. apply in_or_app. exact Ka. }
    destruct X as (e' & Ge'). pose proof (vp_rendered _ _ V k v e' Gv M Ge') as R.
    apply od_get_in in Ge'. pose proof (vp_entries _ _ V) as VE. rewrite Forall_forall in VE.
    apply VE in Ge'. cbn [fst snd] in Ge'. rewrite <- R. exact Ge'.
  - exists q. rewrite Et. do 3 (split; [assumption|]). rewrite Mq, Cq, !render_keys.
    do 4 (split; [auto; fail|]). exact Varq.
Qed.

Lemma dims_same p q L : valid_pd p L -> valid_pd q L -> p_keylist q = p_keylist p ->
  forall k, od_get (p_dims q) k = od_get (p_dims p) k.
Proof.
  intros V V' K k. destruct (in_dec string_dec k (p_keylist p)) as [I|I].
  - pose proof (vp_dim p L V k I) as D. pose proof I as I'. rewrite <- K in I'.
    pose proof (vp_dim q L V' k I') as D'. apply od_getR_ok in D. apply od_getR_ok in D'. congruence.
  - assert (N : ~ In k (od_keys (p_dims p))) by (intros C; apply I; apply (vp_dims _ _ V); exact C).
    assert (N' : ~ In k (od_keys (p_dims q))).
    { intros C. apply I. rewrite <- K. apply (vp_dims _ _ V'); exact C. }
    apply od_get_none in N. apply od_get_none in N'. congruence.
Qed.

(** *** serialisation *)
Definition self_named (l : list string) : odict string := map (fun k => (k, k)) l.

Lemma self_keys l : od_keys (self_named l) = l.
Proof. unfold od_keys, self_named. rewrite map_map. apply map_id. Qed.
Lemma self_vals l : od_vals (self_named l) = l.
Proof. unfold od_vals, self_named. rewrite map_map. apply map_id. Qed.

Lemma reload1 p L : valid_pd p L -> exists q,
  deserialise1 (short_name p) (mkSer (p_vals p) (p_dims p) (p_prob p) (spec_of (p_pscale p))) = Ok q /\
  reloaded p q L.
Proof.
  intros V. unfold deserialise1. cbn [ser_vals ser_attrs ser_prob ser_pscale].
  destruct (make_pd_again p L (self_named (od_keys (p_marg p))) (self_named (od_keys (p_cond p))) V) as
    (q & E & Vq & Kq & Mq & Cq & Pq & Sq & Varq).
  - apply Forall_forall. intros [k e] I.
    assert (J : k = e /\ In k (od_keys (p_marg p ++ p_cond p))).
    { unfold od_keys. rewrite map_app. rewrite in_app_iff in *. unfold self_named in I.
      destruct I as [I|I]; apply in_map_iff in I; destruct I as (x & X & I); injection X as <- <-; auto. }
    destruct J as [<- J]. unfold od_keys in J. apply in_map_iff in J. destruct J as ([k' e'] & X & J). cbn in X. subst k'.
    pose proof (vp_entries _ _ V) as VE. rewrite Forall_forall in VE. apply VE in J. destruct J as [J1 J2].
    cbn [fst snd] in *. exact (key_plain e' k J1 J2).
  - rewrite !self_keys. apply (vp_names _ _ V).
  - exists q. rewrite !self_vals in E. split; [exact E|].
    rewrite self_keys in Mq, Cq. unfold reloaded. do 6 (split; [assumption|]). split; [|assumption].
    apply (dims_same p q L); assumption.
Qed.

Definition serial_of (p : pd R) : serial := mkSer (p_vals p) (p_dims p) (p_prob p) (spec_of (p_pscale p)).

Lemma serialise_snoc (ps : list (pd R)) p : serialise (ps ++ [p]) = od_set (serialise ps) (short_name p) (serial_of p).
Proof. unfold serialise. rewrite fold_left_app. reflexivity. Qed.

Lemma firsts_in l k : In k (firsts l) <-> In k l.
Proof.
  induction l as [|x l IH]; cbn; [tauto|]. rewrite filter_In, IH.
  destruct (String.eqb_spec k x); cbn; intuition congruence.
Qed.

Lemma firsts_snoc l k : firsts (l ++ [k]) = if mem_str k l then firsts l else firsts l ++ [k].
Proof.
  induction l as [|x l IH]; [reflexivity|]. cbn [app firsts mem_str existsb]. rewrite IH.
  unfold mem_str in *. cbn [existsb]. destruct (existsb (String.eqb k) l) eqn:E; cbn [orb].
  - rewrite orb_true_r. reflexivity.
  - rewrite filter_app. cbn [filter]. destruct (String.eqb_spec k x) as [->|Nk]; cbn [negb orb].
    + rewrite app_nil_r. reflexivity.
    + reflexivity.
Qed.

Lemma serialise_keys (ps : list (pd R)) : od_keys (serialise ps) = firsts (map short_name ps).
Proof.
  induction ps as [|p ps IH] using rev_ind; [reflexivity|].
  rewrite serialise_snoc, map_app. cbn [map]. rewrite firsts_snoc, <- IH.
  destruct (mem_str (short_name p) (map short_name ps)) eqn:M.
  - apply od_keys_set_old. rewrite IH, firsts_in. apply mem_str_iff. exact M.
  - apply od_keys_set_new. rewrite IH, firsts_in. apply mem_str_false. exact M.
Qed.

Lemma serialise_get (ps : list (pd R)) n s : od_get (serialise ps) n = Some s ->
  exists l p r, ps = l ++ p :: r /\ short_name p = n /\ s = serial_of p /\ ~ In n (map short_name r).
Proof.
  induction ps as [|p ps IH] using rev_ind; [discriminate|].
  rewrite serialise_snoc. destruct (string_dec (short_name p) n) as [E|E].
  - rewrite <- E, od_get_set_eq. intros H. injection H as <-. exists ps, p, []. cbn. auto.
  - rewrite od_get_set_ne by auto. intros H. destruct (IH H) as (l & p' & r & -> & A & B & C).
    exists l, p', (r ++ [p]). rewrite <- app_assoc. do 3 (split; [auto; fail|]).
    rewrite map_app, in_app_iff. cbn. tauto.
Qed.

Lemma firsts_nodup l : NoDup (firsts l).
Proof.
  induction l as [|k l IH]; cbn; constructor; [|apply filter_nodup; exact IH].
  rewrite filter_In, String.eqb_refl. cbn. intros [_ C]. discriminate.
Qed.

(** Reloading gives, in order of first appearance of the names, the last distribution
    saved under each. *)
Lemma reload_all (ps : list (pd R)) (axes : pd R -> list string) :
  (forall p, In p ps -> valid_pd p (axes p)) ->
  exists qs, deserialise (serialise ps) = Ok qs /\
    Forall2 (fun n q => exists l p r, ps = l ++ p :: r /\ short_name p = n /\
                          ~ In n (map short_name r) /\ reloaded p q (axes p))
            (firsts (map short_name ps)) qs.
Proof.
  intros V. rewrite <- serialise_keys. unfold deserialise.
  assert (H : forall n s, In (n, s) (serialise ps) -> exists q, deserialise1 n s = Ok q /\
    exists l p r, ps = l ++ p :: r /\ short_name p = n /\ ~ In n (map short_name r) /\ reloaded p q (axes p)).
  { intros n s I. apply od_in_get in I.
    - destruct (serialise_get ps n s I) as (l & p & r & E & A & -> & C).
      assert (Ip : In p ps) by (rewrite E; apply in_or_app; cbn; auto).
      destruct (reload1 p (axes p) (V p Ip)) as (q & Q1 & Q2). rewrite A in Q1.
      exists q. split; [exact Q1|]. exists l, p, r. auto.
    - rewrite serialise_keys. apply firsts_nodup. }
  clear V. induction (serialise ps) as [|[n s] d IH]; [exists []; split; [reflexivity|constructor]|].
  destruct IH as (qs & E & F2). { intros n' s' I. apply H. right. exact I. }
  destruct (H n s (or_introl eq_refl)) as (q & Q1 & Q2).
  exists (q :: qs). cbn [map_res fst snd]. rewrite Q1. cbn [bind]. rewrite E. cbn [bind].
  split; [reflexivity|]. cbn [od_keys map fst]. constructor; assumption.
Qed.

Lemma firsts_id l : NoDup l -> firsts l = l.
Proof.
  induction 1 as [|k l N ND IH]; [reflexivity|]. cbn. rewrite IH. f_equal.
  clear IH ND. induction l as [|x l IH]; [reflexivity|]. cbn.
  destruct (String.eqb_spec x k) as [->|Nx]; [exfalso; apply N; left; reflexivity|]. cbn. f_equal.
  apply IH. intros C. apply N. right. exact C.
Qed.

Lemma firsts_length l : length (firsts l) <= length l /\ (length (firsts l) = length l <-> NoDup l).
Proof.
  induction l as [|k l [IH1 IH2]]; [cbn; split; [lia|split; [constructor|reflexivity]]|].
  cbn [firsts length]. pose proof (firsts_nodup l) as ND.
  assert (Q : length (filter (fun x => negb (String.eqb x k)) (firsts l)) + (if mem_str k l then 1 else 0) = length (firsts l)).
  { assert (mem_str k l = mem_str k (firsts l)) as ->.
    { destruct (mem_str k l) eqn:M; symmetry.
      - apply mem_str_iff. apply firsts_in. apply mem_str_iff. exact M.
      - apply mem_str_false. rewrite firsts_in. apply mem_str_false. exact M. }
    clear IH1 IH2. induction (firsts l) as [|x m IHm]; [reflexivity|]. inversion ND; subst.
    unfold mem_str in *. cbn [filter existsb length]. rewrite (String.eqb_sym k x). destruct (String.eqb_spec x k) as [->|Nx]; cbn [negb orb length].
    - rewrite Nat.add_1_r. f_equal. rewrite <- IHm by assumption.
      replace (existsb (String.eqb k) m) with false; [lia|]. symmetry. apply (mem_str_false k m). assumption.
    - rewrite <- IHm by assumption. reflexivity. }
  destruct (mem_str k l) eqn:M.
  - apply mem_str_iff in M. split; [lia|]. split; [lia|]. intros C. inversion C; contradiction.
  - apply mem_str_false in M. split; [lia|]. rewrite NoDup_cons_iff. split; [intros C; split; [exact M|apply IH2; lia]|].
    intros [_ C]. apply IH2 in C. lia.
Qed.

Lemma reload_count (ps : list (pd R)) (axes : pd R -> list string) :
  (forall p, In p ps -> valid_pd p (axes p)) ->
  exists qs, deserialise (serialise ps) = Ok qs /\ length qs <= length ps /\
    (length qs = length ps <-> NoDup (map short_name ps)).
Proof.
  intros V. destruct (reload_all ps axes V) as (qs & E & F2). exists qs. split; [exact E|].
  apply Forall2_length in F2. rewrite <- F2.
  pose proof (firsts_length (map short_name ps)) as Q. rewrite map_length in Q. exact Q.
Qed.

Lemma reload_distinct (ps : list (pd R)) (axes : pd R -> list string) :
  (forall p, In p ps -> valid_pd p (axes p)) -> NoDup (map short_name ps) ->
  exists qs, deserialise (serialise ps) = Ok qs /\ Forall2 (fun p q => reloaded p q (axes p)) ps qs.
Proof.
  intros V ND. destruct (reload_all ps axes V) as (qs & E & F2). exists qs. split; [exact E|].
  rewrite firsts_id in F2 by exact ND. clear E V.
  assert (G : forall n q, (exists l p r, ps = l ++ p :: r /\ short_name p = n /\ ~ In n (map short_name r) /\ reloaded p q (axes p)) ->
    forall p, In p ps -> short_name p = n -> reloaded p q (axes p)).
  { intros n q (l & p & r & E & A & B & C) p' I A'.
    assert (p' = p); [|subst; assumption]. rewrite E in *. rewrite map_app in ND. cbn in ND.
    apply NoDup_remove_2 in ND. rewrite A, in_app_iff in ND. apply in_app_iff in I.
    destruct I as [I|[I|I]]; [|auto|]; exfalso; apply ND; [left|right]; rewrite <- A'; apply in_map; exact I. }
  assert (F3 : Forall2 (fun n q => forall p, In p ps -> short_name p = n -> reloaded p q (axes p)) (map short_name ps) qs).
  { eapply Forall2_imp; [|exact F2]. exact G. }
  assert (I0 : incl ps ps) by apply incl_refl.
  clear F2 G ND. set (ps0 := ps) in F3 at 1. change (incl ps ps0) in I0. clearbody ps0. revert qs F3. induction ps as [|p ps IH]; intros qs F3; inversion F3; subst; constructor.
  - apply H1; [apply I0; left; reflexivity|reflexivity].
  - apply IH; [|assumption]. intros x Hx. apply I0. right. exact Hx.
Qed.

End Simple.
