(** Reading back distributions and auxiliary data, and files left by calls that
    raised. *)
From Coq Require Import String Ascii ZArith Reals Bool Arith Lia List Permutation Sorted.
From Verif Require Import Base Num Tensor PScales Names Names_Spec Names_Proofs Distr PDModel PDUtils PDFile
  RNumLemmas OdLemmas TensorLemmas PD_Spec PD_Make PD_Valid PD_Simple_Spec PD_Simple PD_SimpleThm PD_File_Spec PD_File PD_FileThm
  DiskModel Disk_Spec Disk_Proofs.
Import ListNotations.
Local Open Scope nat_scope.

Section Groups.
Context {T : Type} {N : Num T} {F : Fmt T}.

Definition hgr (n : nat) (g : group T) : hgroup T :=
  (map (fun kd => (fst kd, IVal (snd kd))) (g_vals g) ++
   [("attrs"%string, IAttrs n (g_attrs g)); ("prob"%string, IProb (g_prob g)); ("pscale"%string, IScale (g_pscale g))])%list.

Lemma wvals_map (vals : odict (value T)) : forall vs acc,
  map_res (fun kv => let! d := write_value (snd kv) in Ok (fst kv, d)) vals = Ok vs ->
  write_vals vals acc = ((acc ++ map (fun kd => (fst kd, IVal (snd kd))) vs)%list, None).
Proof.
  induction vals as [|[k v] vals IH]; intros vs acc H.
  - injection H as <-. cbn. rewrite app_nil_r. reflexivity.
  - cbn [map_res fst snd] in H. cbn [write_vals]. destruct (write_value v) as [d|]; [|discriminate]. cbn [bind] in H.
    destruct (map_res _ vals) as [vs'|]; [|discriminate]. cbn [bind] in H. injection H as <-.
    rewrite (IH vs' _ eq_refl), <- app_assoc. reflexivity.
Qed.

Lemma obj_of_live (l : live T) g : write_live l = Ok (mark l, g) ->
  write_obj l = (mark l, hgr (length (l_dims l)) g, None).
Proof.
  unfold write_live. destruct (map_res _ (l_vals l)) as [vs|] eqn:V; [|discriminate]. cbn [bind].
  destruct (map_res _ (mark_dims (l_dims l))) as [at_|] eqn:A; [|discriminate]. cbn [bind].
  destruct (l_prob l) as [t|] eqn:P; [|discriminate]. cbn [bind]. intros H. injection H as _ <-.
  unfold write_obj. rewrite (wvals_map _ vs [] V), A, P. unfold mark, hgr. cbn [app g_vals g_attrs g_prob g_pscale].
  rewrite P, <- app_assoc. assert (LM : length (mark_dims (l_dims l)) = length (l_dims l)) by apply map_length. rewrite LM. reflexivity.
Qed.

Lemma read_hgr n (g : group T) s : read_group g = Ok s ->
  read_plain (hgr n g) = Ok (mkRG (ser_vals s) (RDims (ser_attrs s)) (ser_prob s) (Some (ser_pscale s))).
Proof.
  unfold read_group, read_plain. intros H.
  assert (E1 : vals_in (hgr n g) = g_vals g).
  { unfold vals_in, hgr. rewrite flat_map_app. cbn. rewrite app_nil_r. clear H. induction (g_vals g) as [|[k d] l IH]; [reflexivity|].
    cbn. rewrite IH. reflexivity. }
  assert (E2 : attrs_in (hgr n g) = Some (g_attrs g)).
  { unfold attrs_in, hgr. rewrite fold_right_app. cbn. clear. induction (g_vals g) as [|[k d] l IH]; [reflexivity|exact IH]. }
  assert (E3 : prob_in (hgr n g) = Some (g_prob g)).
  { unfold prob_in, hgr. rewrite fold_right_app. cbn. clear. induction (g_vals g) as [|[k d] l IH]; [reflexivity|exact IH]. }
  assert (E4 : scale_in (hgr n g) = Some (g_pscale g)).
  { unfold scale_in, hgr. rewrite fold_right_app. cbn. clear. induction (g_vals g) as [|[k d] l IH]; [reflexivity|exact IH]. }
  rewrite E1, E2, E3, E4. cbn [bind].
  destruct (match od_get (g_attrs g) "order" with Some (HOrder l) => Ok l | _ => Err TypeError end) as [order|]; [|discriminate].
  cbn [bind] in H |- *. destruct (map_res _ order) as [ordered|] in H |- *; [|discriminate]. cbn [bind] in H |- *.
  destruct (map_res _ ordered) as [dims|] in H |- *; [|discriminate]. cbn [bind] in H |- *.
  destruct dims as [|d0 dims]; [discriminate|]. cbn [bind] in H.
  destruct (map_res _ order) as [first|] in H |- *; [|discriminate]. cbn [bind] in H |- *. injection H as <-. reflexivity.
Qed.

(** Lists of results that are all fine, or some of which raise the same. *)
Lemma map_res_one_err {A B} (f : A -> result B) e l : (forall a, In a l -> (exists b, f a = Ok b) \/ f a = Err e) ->
  (exists a, In a l /\ f a = Err e) -> map_res f l = Err e.
Proof.
  induction l as [|a l IH]; intros H (x & I & E); [destruct I|]. cbn [map_res].
  destruct (H a (or_introl eq_refl)) as [[b Q]|Q]; rewrite Q; [|reflexivity]. cbn [bind].
  destruct I as [->|I]; [congruence|]. rewrite IH; [reflexivity| |eauto]. intros y J. apply H. right. exact J.
Qed.

(** A Distribution with dims that leave out a column. *)
Lemma missing_dims name (vals : odict (value T)) k a : NoDup (od_keys vals) -> In (k, VArr a) vals -> shape a <> [] ->
  (forall k v, In (k, v) vals -> ~ In k disallowed /\
     match v with VNum _ | VArr _ => True | VSet [SEint _] => True | _ => False end) ->
  make_dist name vals (Some []) = Err AssertionError.
Proof.
  intros ND I S H. unfold make_dist. destruct vals as [|kv0 vals0] eqn:EV; [destruct I|]. rewrite <- EV in *. clear EV.
  assert (C : clean_vals vals = Ok vals).
  { unfold clean_vals. rewrite (map_res_all _ (fun kv => kv)); [rewrite map_id; reflexivity|].
    intros [k' v'] J. destruct (H k' v' J) as [D V]. cbn [fst snd].
    assert (M : mem_str k' disallowed = false) by (apply mem_str_false; exact D). rewrite M.
    destruct v' as [x|s|l|b|]; try contradiction; try reflexivity. destruct l as [|[z|b|x| |] [|? ?]]; try contradiction; reflexivity. }
  rewrite C. cbn [bind].
  assert (G : forall l st, NoDup (od_keys l) -> incl l vals -> (forall k, In k (od_keys l) -> ~ In k (od_keys (s_dims st))) ->
    In (k, VArr a) l -> fold_res (dims_step false) l st = Err AssertionError).
  { clear - S H. induction l as [|[k' v'] l IH]; intros st ND IN FR I; [destruct I|]. cbn in ND. inversion ND as [|? ? NI ND']; subst.
    cbn [fold_res]. unfold dims_step at 1. cbn [fst snd].
    assert (GN : od_get (s_dims st) k' = None) by (apply od_get_none, FR; left; reflexivity).
    destruct (issingleton v') eqn:Sg.
    - rewrite GN. cbn [bind]. apply IH; [exact ND'|intros x X; apply IN; right; exact X| |].
      + cbn [s_dims]. intros k0 I0 J. apply od_keys_set_in in J. destruct J as [->|J].
        * apply NI. exact I0.
        * eapply FR; [right; exact I0|exact J].
      + destruct I as [Q|I]; [|exact I]. injection Q as -> ->. exfalso. unfold issingleton in Sg. cbn in Sg.
        unfold ndim in Sg. destruct (shape a); [contradiction|discriminate].
    - destruct (H k' v' (IN _ (or_introl eq_refl))) as [_ V]. destruct v' as [x|s|l'|b|]; try contradiction; try discriminate.
      + destruct l' as [|[z|b|x| |] [|? ?]]; try contradiction; discriminate.
      + destruct (tsize b =? list_max (shape b)); [|reflexivity]. cbn [assert_ bind].
        assert (M : od_mem (s_dims st) k' = false) by (apply od_mem_false, FR; left; reflexivity). rewrite M. reflexivity. }
  rewrite (G vals); [reflexivity|exact ND|apply incl_refl|intros ? _ []|exact I].
Qed.
End Groups.

Section Pds.
Context {F : Fmt R}.

Definition hfiled (p : pd R) : string * hgroup R := (short_name p, hgr (length (p_dims p)) (group_of p (the_prob p))).

Lemma obj_pd (p : pd R) L : valid_pd p L -> storable p ->
  write_obj (live_of p) = (mark (live_of p), snd (hfiled p), None).
Proof.
  intros V St. destruct (vp_prob _ _ V) as (t & Et & _). rewrite (obj_of_live _ _ (write_one p t St Et)).
  cbn [live_of l_dims]. rewrite map_length. unfold hfiled, the_prob. rewrite Et. reflexivity.
Qed.

Fixpoint numbered (i : nat) (ps : list (pd R)) : odict nat :=
  match ps with [] => [] | p :: ps' => (short_name p, i) :: numbered (S i) ps' end.

Lemma numbered_app i ps qs : numbered i (ps ++ qs) = (numbered i ps ++ numbered (i + length ps) qs)%list.
Proof.
  revert i. induction ps as [|p ps IH]; intros i; cbn; [rewrite Nat.add_0_r; reflexivity|]. rewrite IH.
  replace (S i + length ps) with (i + S (length ps)) by lia. reflexivity.
Qed.

Lemma refs_numbered (ps : list (pd R)) : NoDup (map short_name ps) ->
  serial_refs (map live_of ps) (seq 0 (length ps)) = Ok (numbered 0 ps).
Proof.
  intros ND. rewrite (refs_all ps ND).
  assert (H : forall l2 l1, map (named_ref (l1 ++ l2)) (seq (length l1) (length l2)) = numbered (length l1) l2).
  { induction l2 as [|p l2 IH]; intros l1; [reflexivity|]. cbn [length seq map numbered]. f_equal.
    - unfold named_ref. rewrite nth_error_app2, Nat.sub_diag by lia. reflexivity.
    - specialize (IH (l1 ++ [p])%list). rewrite app_length, Nat.add_comm in IH. cbn in IH. rewrite <- app_assoc in IH. exact IH. }
  exact (f_equal (@Ok _) (H ps [])).
Qed.

Lemma nth_mid {A} (l1 l2 : list A) x : nth_error (l1 ++ x :: l2) (length l1) = Some x.
Proof. rewrite nth_error_app2, Nat.sub_diag by lia. reflexivity. Qed.
Lemma set_mid {A} (l1 l2 : list A) x y : set_nth (length l1) y (l1 ++ x :: l2) = (l1 ++ y :: l2)%list.
Proof. induction l1; cbn; congruence. Qed.

(** Writing goes through distributions that can be written. *)
Lemma objs_good (axes : pd R -> list string) ps : forall h1 h2 f rest,
  (forall p, In p ps -> valid_pd p (axes p) /\ storable p) -> NoDup (map short_name ps) ->
  (forall p, In p ps -> ~ In (short_name p) (od_keys f)) ->
  write_objs (h1 ++ map live_of ps ++ h2) (numbered (length h1) ps ++ rest) f =
  write_objs (h1 ++ map mark (map live_of ps) ++ h2) rest (f ++ map hfiled ps).
Proof.
  induction ps as [|p ps IH]; intros h1 h2 f rest V ND FR; [cbn; rewrite app_nil_r; reflexivity|].
  cbn [map app numbered write_objs]. rewrite nth_mid. cbn in ND. inversion ND as [|? ? NI ND']; subst.
  assert (M : od_mem f (short_name p) = false) by (apply od_mem_false, FR; left; reflexivity). rewrite M.
  destruct (V p (or_introl eq_refl)) as [Vp Sp]. rewrite (obj_pd p (axes p) Vp Sp), set_mid.
  specialize (IH (h1 ++ [mark (live_of p)])%list h2 (f ++ [(short_name p, snd (hfiled p))])%list rest).
  rewrite app_length, Nat.add_comm in IH. cbn [length Nat.add] in IH. rewrite <- !app_assoc in IH. cbn [app] in IH.
  rewrite IH; [reflexivity| |exact ND'|].
  - intros q I. apply V. right. exact I.
  - intros q I J. unfold od_keys in J. rewrite map_app in J. apply in_app_iff in J. destruct J as [J|[J|[]]].
    + eapply FR; [right; exact I|exact J].
    + cbn in J. apply NI. rewrite J. apply in_map. exact I.
Qed.

Lemma load_pd (p : pd R) L : valid_pd p L -> storable p -> ~ In "order"%string (p_keylist p) ->
  exists r q, read_plain (snd (hfiled p)) = Ok r /\ load_one (short_name p, r) = Ok (LPd q) /\ read_back p q L.
Proof.
  intros V St NO. destruct (vp_prob _ _ V) as (t & Et & _). destruct (back_one p L t V St NO Et) as (s & q & E1 & E2 & RB).
  unfold hfiled, the_prob. rewrite Et. cbn [snd]. rewrite (read_hgr _ _ _ E1). do 2 eexists. split; [reflexivity|]. split; [|exact RB].
  unfold load_one. cbn [snd fst r_attrs r_vals r_prob r_pscale bind]. unfold deserialise1 in E2.
  assert (P : exists t', ser_prob s = Some t').
  { destruct (read_one p L t V St NO Et) as (vals & Er & _). rewrite E1 in Er. injection Er as ->. cbn. eauto. }
  destruct P as (t' & P). rewrite P in E2 |- *. cbv iota. match goal with |- bind ?m _ = _ => replace m with (@Ok (pd R) q) by (symmetry; exact E2) end. reflexivity.
Qed.

Lemma filter_perm {A} (f : A -> bool) l m : Permutation l m -> Permutation (filter f l) (filter f m).
Proof.
  induction 1; cbn; try constructor; auto.
  - destruct (f x); auto.
  - destruct (f x), (f y); auto. constructor.
  - etransitivity; eauto.
Qed.

Lemma plain_names (p : pd R) L : valid_pd p L -> plain_keys p -> has_char " " (short_name p) = false.
Proof.
  intros V K. pose proof (proj2 (no_space_iff p L V)) as Q. unfold no_space in Q. apply negb_true_iff. apply Q.
  intros k I. apply (K k I).
Qed.

(** What is read of a file with distributions and other groups with spaces in
    their names. *)
Lemma read_mixed (ps : list (pd R)) (axes : pd R -> list string) (extra : hfile R) :
  (forall p, In p ps -> valid_pd p (axes p) /\ storable p /\ plain_keys p) ->
  (forall n g, In (n, g) extra -> has_char " " n = true) ->
  exists ps' qs ser, Permutation ps ps' /\
    read_file (map hfiled ps ++ extra) = Ok (ser, map (fun ng => (fst ng, read_extra (snd ng)))
      (filter (fun ng => has_char " " (fst ng)) (by_name (map hfiled ps ++ extra)))) /\
    load (map hfiled ps ++ extra) = Ok (map LPd qs) /\ Forall2 (fun p q => read_back p q (axes p)) ps' qs.
Proof.
  intros V X. set (f := (map hfiled ps ++ extra)%list).
  assert (NP : filter (fun ng : string * hgroup R => negb (has_char " " (fst ng))) f = map hfiled ps).
  { unfold f. rewrite filter_app. rewrite filter_all.
    - rewrite filter_none; [apply app_nil_r|]. intros [n g] I. cbn. rewrite (X n g I). reflexivity.
    - intros [n g] I. apply in_map_iff in I. destruct I as (p & E & I). injection E as <- _. cbn [fst]. destruct (V p I) as (A & _ & C).
      rewrite (plain_names p (axes p) A C). reflexivity. }
  pose proof (filter_perm (fun ng : string * hgroup R => negb (has_char " " (fst ng))) _ _ (by_name_perm f)) as P. rewrite NP in P.
  destruct (Permutation_map_inv _ _ P) as (ps' & E & P').
  assert (V' : forall p, In p ps' -> valid_pd p (axes p) /\ storable p /\ plain_keys p).
  { intros p I. apply V. eapply Permutation_in; [apply Permutation_sym; exact P'|exact I]. }
  assert (R : exists qs ser, map_res (fun ng : string * hgroup R => let! r := read_plain (snd ng) in Ok (fst ng, r)) (map hfiled ps') = Ok ser /\
     map_res load_one ser = Ok (map LPd qs) /\ Forall2 (fun p q => read_back p q (axes p)) ps' qs).
  { clear - V'. induction ps' as [|p l IH].
    - exists [], []. split; [reflexivity|]. split; [reflexivity|constructor].
    - destruct IH as (qs & ser & E1 & E2 & F2); [intros q I; apply V'; right; exact I|].
      destruct (V' p (or_introl eq_refl)) as (A & B & C).
      destruct (load_pd p (axes p) A B) as (r & q & R1 & R2 & RB). { intros I. destruct (C _ I) as (_ & _ & D). congruence. }
      exists (q :: qs), ((short_name p, r) :: ser). cbn [map map_res fst]. rewrite R1. cbn [bind]. rewrite E1. cbn [bind].
      split; [reflexivity|]. split; [|constructor; assumption]. cbn [map_res]. rewrite R2. cbn [bind]. rewrite E2. reflexivity. }
  destruct R as (qs & ser & E1 & E2 & F2). exists ps', qs, ser. split; [exact P'|].
  assert (RF : read_file f = Ok (ser, map (fun ng => (fst ng, read_extra (snd ng))) (filter (fun ng => has_char " " (fst ng)) (by_name f)))).
  { unfold read_file. rewrite E, E1. reflexivity. }
  split; [exact RF|]. split; [|exact F2]. unfold load. rewrite RF. cbn [bind]. exact E2.
Qed.

(** Auxiliary data as written. *)
Definition aux_groups (data : odict (odict (tensor R))) : hfile R :=
  map (fun nd => (fst nd, map (fun kt => (fst kt, IVal (DArr (snd kt)))) (snd nd))) data.

Lemma check_given (data : odict (odict (tensor R))) : (forall n, In n (od_keys data) -> occurs " "%char n) ->
  check_aux (given data) = Ok (map (fun nd => (fst nd, map (fun kt => (fst kt, Some (snd kt))) (snd nd))) data).
Proof.
  unfold check_aux, given. induction data as [|[n d] data IH]; intros H; [reflexivity|]. cbn [map map_res fst snd].
  assert (O : has_char " " n = true) by (apply has_char_true, H; left; reflexivity). rewrite O.
  assert (S : map_res check_sub (map (fun kt : string * tensor R => (AStr (fst kt), AArr (snd kt))) d) = Ok (map (fun kt => (fst kt, Some (snd kt))) d)).
  { clear. induction d as [|[k t] d IH]; [reflexivity|]. cbn [map map_res check_sub fst snd bind]. rewrite IH. reflexivity. }
  rewrite S. cbn [bind]. rewrite IH; [reflexivity|]. intros n' I. apply H. right. exact I.
Qed.

Lemma write_given (data : odict (odict (tensor R))) : forall f, NoDup (od_keys data) ->
  (forall n, In n (od_keys data) -> ~ In n (od_keys f)) ->
  write_aux (map (fun nd => (fst nd, map (fun kt => (fst kt, Some (snd kt))) (snd nd))) data) f = ((f ++ aux_groups data)%list, None).
Proof.
  induction data as [|[n d] data IH]; intros f ND FR; [cbn; rewrite app_nil_r; reflexivity|].
  cbn [map write_aux fst snd aux_groups]. assert (M : od_mem f n = false) by (apply od_mem_false, FR; left; reflexivity). rewrite M.
  assert (W : forall g, write_arrays (map (fun kt : string * tensor R => (fst kt, Some (snd kt))) d) g =
     ((g ++ map (fun kt => (fst kt, IVal (DArr (snd kt)))) d)%list, None)).
  { clear. induction d as [|[k t] d IH]; intros g; [cbn; rewrite app_nil_r; reflexivity|]. cbn [map write_arrays fst snd].
    rewrite IH, <- app_assoc. reflexivity. }
  rewrite W. cbn [app]. cbn in ND. inversion ND as [|? ? NI ND']; subst. rewrite IH; [rewrite <- app_assoc; reflexivity|exact ND'|].
  intros n' I J. unfold od_keys in J. rewrite map_app in J. apply in_app_iff in J. destruct J as [J|[J|[]]].
  - eapply FR; [right; exact I|exact J].
  - cbn in J. subst n'. contradiction.
Qed.

Lemma extra_data (data : odict (odict (tensor R))) (plain : hfile R) : dictionary data ->
  (forall n, In n (od_keys data) -> has_char " " n = true) -> (forall n, In n (od_keys plain) -> has_char " " n = false) ->
  same_data data (map (fun ng => (fst ng, read_extra (snd ng))) (filter (fun ng => has_char " " (fst ng)) (by_name (plain ++ aux_groups data)))).
Proof.
  intros [ND NI] H1 H2.
  assert (K : filter (fun ng : string * hgroup R => has_char " " (fst ng)) (plain ++ aux_groups data) = aux_groups data).
  { rewrite filter_app. rewrite (filter_none _ plain).
    - apply filter_all. intros [n g] I. apply in_map_iff in I. destruct I as ([n' d] & E & I). injection E as <- _. cbn [fst].
      apply H1. apply (in_map fst) in I. exact I.
    - intros [n g] I. cbn [fst]. apply H2. apply (in_map fst) in I. exact I. }
  pose proof (filter_perm (fun ng : string * hgroup R => has_char " " (fst ng)) _ _ (by_name_perm (plain ++ aux_groups data))) as P.
  rewrite K in P. set (l := filter _ (by_name _)) in *. clearbody l.
  intros n. rewrite (map_snd_get read_extra l n).
  assert (KA : od_keys (aux_groups data) = od_keys data) by (unfold od_keys, aux_groups; rewrite map_map; reflexivity).
  rewrite (perm_get l (aux_groups data)); [| |exact P].
  2:{ eapply Permutation_NoDup; [apply Permutation_sym, perm_keys; exact P|]. rewrite KA. exact ND. }
  assert (GA : od_get (aux_groups data) n = option_map (fun d : odict (tensor R) => map (fun kt => (fst kt, IVal (DArr (snd kt)))) d) (od_get data n))
    by (exact (map_snd_get (fun d : odict (tensor R) => map (fun kt => (fst kt, IVal (DArr (snd kt)))) d) data n)).
  rewrite GA. clear GA.
  destruct (od_get data n) as [d|] eqn:G; cbn [option_map]; [|exact Logic.I].
  intros k. unfold read_extra. rewrite (map_snd_get read_item). set (g := map (fun kt : string * tensor R => (fst kt, IVal (DArr (snd kt)))) d).
  assert (Kg : od_keys g = od_keys d) by apply (map_snd_keys (fun t => IVal (DArr t))).
  rewrite (perm_get (by_name g) g).
  - unfold g. rewrite (map_snd_get (fun t => IVal (DArr t))). destruct (od_get d k); reflexivity.
  - eapply Permutation_NoDup; [apply Permutation_sym, perm_keys, by_name_perm|]. rewrite Kg. eapply NI. apply od_get_in. exact G.
  - apply by_name_perm.
Qed.

Lemma seq_present (ps : list (pd R)) : present (map live_of ps) (seq 0 (length ps)).
Proof. intros i I. apply in_seq in I. rewrite map_length. lia. Qed.

Lemma saved_with_data (ps : list (pd R)) (axes : pd R -> list string) (data : odict (odict (tensor R))) k path :
  (forall p, In p ps -> valid_pd p (axes p) /\ storable p /\ plain_keys p) ->
  NoDup (map (fun p => (od_keys (p_marg p), od_keys (p_cond p))) ps) ->
  dictionary data -> (forall n, In n (od_keys data) -> occurs " "%char n) ->
  exists h f ps' qs ser extra,
    save (map live_of ps) (seq 0 (length ps)) (given data) k path = (h, od_set k path f, None) /\
    read_file f = Ok (ser, extra) /\ same_data data extra /\
    load f = Ok (map LPd qs) /\ Permutation ps ps' /\ Forall2 (fun p q => read_back p q (axes p)) ps' qs.
Proof.
  intros V ND D SP. assert (ND' := distinct_names ps axes (fun p I => proj1 (V p I)) ND).
  assert (NS : forall n, In n (od_keys (map hfiled ps)) -> has_char " " n = false).
  { intros n I. unfold od_keys in I. rewrite map_map in I. apply in_map_iff in I. destruct I as (p & <- & I). destruct (V p I) as (A & _ & C).
    exact (plain_names p (axes p) A C). }
  destruct (read_mixed ps axes (aux_groups data) V) as (ps' & qs & ser & P & RF & LD & F2).
  { intros n g I. apply in_map_iff in I. destruct I as ([n' d] & E & I). injection E as <- _. apply has_char_true, SP.
    apply (in_map fst) in I. exact I. }
  do 6 eexists. split; [|split; [exact RF|]; split; [|split; [exact LD|]; split; [exact P|exact F2]]].
  - unfold save. rewrite (refs_numbered ps ND'). unfold write_serialised. rewrite (check_given data SP).
    pose proof (objs_good axes ps [] [] [] []) as O. cbn [app length] in O. rewrite !app_nil_r in O. rewrite O; clear O.
    + cbn [write_objs]. rewrite write_given; [reflexivity|apply D|]. intros n I J. apply NS in J. apply SP, has_char_true in I. congruence.
    + intros p I. destruct (V p I) as (A & B & _). auto.
    + exact ND'.
    + intros p _ [].
  - apply extra_data; [exact D|intros n I; apply has_char_true, SP, I|exact NS].
Qed.

(** A call that raises at a value leaves a file that cannot be read. *)
Lemma left_unreadable (ps rest : list (pd R)) (q : pd R) (axes : pd R -> list string) k path :
  (forall p, In p ps -> valid_pd p (axes p) /\ storable p /\ plain_keys p) -> valid_pd q (axes q) -> plain_keys q ->
  (forall p, In p rest -> valid_pd p (axes p)) ->
  NoDup (map (fun p => (od_keys (p_marg p), od_keys (p_cond p))) (ps ++ q :: rest)) -> breaks_after_column q ->
  exists f e, save (map live_of (ps ++ q :: rest)) (seq 0 (length (ps ++ q :: rest))) [] k path =
    ((map mark (map live_of ps) ++ map live_of (q :: rest))%list, od_set k path f, Some e) /\
  load f = Err AssertionError.
Proof.
  intros V Vq Kq Vr ND (before & kk & v & after & EV & U & HB & (k' & a & Ia & Sa)).
  assert (VA : forall p, In p (ps ++ q :: rest) -> valid_pd p (axes p)).
  { intros p I. apply in_app_iff in I. destruct I as [I|[<-|I]]; [apply V, I|exact Vq|apply Vr, I]. }
  assert (ND' := distinct_names _ axes VA ND). rewrite map_app in ND'. cbn in ND'.
  assert (WB : forall k v, In (k, v) before -> ~ unwritable v).
  { intros k0 v0 I C. specialize (HB k0 v0 I). destruct v0 as [x|s|l|b|]; try contradiction.
    destruct l as [|[z|b|x| |] [|? ?]]; try contradiction. destruct C as (e & [<-|[]] & C). specialize (C z eq_refl). lia. }
  destruct (wvals_fail (p_vals q) before kk v after [] EV WB U) as (e & W). cbn [app] in W.
  exists (map hfiled ps ++ [(short_name q, items before)])%list, e. split.
  - unfold save. rewrite refs_numbered by (rewrite map_app; exact ND'). unfold write_serialised. cbn [check_aux map_res].
    rewrite numbered_app, map_app. cbn [Nat.add].
    pose proof (objs_good axes ps [] (map live_of (q :: rest)) [] (numbered (length ps) (q :: rest))) as O. cbn [app length] in O. rewrite O; clear O.
    + cbn [numbered write_objs map]. replace (length ps) with (length (map mark (map live_of ps))) by (rewrite !map_length; reflexivity).
      rewrite nth_mid. assert (M : od_mem (map hfiled ps) (short_name q) = false).
      { apply od_mem_false. intros I. unfold od_keys in I. rewrite map_map in I. apply NoDup_remove_2 in ND'. apply ND'. apply in_or_app. left. exact I. }
      rewrite M. unfold write_obj. cbn [live_of l_vals]. rewrite W. rewrite set_mid. reflexivity.
    + intros p I. destruct (V p I) as (A & B & _). auto.
    + apply NoDup_remove_1 in ND'. apply nodup_app_iff in ND'. apply ND'.
    + intros p _ [].
  - unfold load, read_file. set (f := (map hfiled ps ++ _)%list).
    assert (FN : forall ng, In ng (by_name f) -> has_char " " (fst ng) = false).
    { intros ng I. apply (Permutation_in _ (by_name_perm f)) in I. apply in_app_iff in I. destruct I as [I|[<-|[]]].
      - apply in_map_iff in I. destruct I as (p & <- & I). destruct (V p I) as (A & _ & C). exact (plain_names p (axes p) A C).
      - exact (plain_names q (axes q) Vq Kq). }
    rewrite filter_all by (intros ng I; rewrite (FN ng I); reflexivity).
    assert (RQ : exists r, read_plain (items before) = Ok r /\ load_one (short_name q, r) = Err AssertionError).
    { unfold read_plain. assert (A0 : attrs_in (items before) = None).
      { unfold attrs_in, items. clear. induction before as [|[k v] l IH]; [reflexivity|exact IH]. }
      assert (P0 : prob_in (items before) = None).
      { unfold prob_in, items. clear. induction before as [|[k v] l IH]; [reflexivity|exact IH]. }
      rewrite A0, P0. eexists. split; [reflexivity|]. unfold load_one. cbn [snd r_attrs r_prob r_vals fst bind].
      assert (VI : vals_in (items before) = map (fun kv => (fst kv, wval (snd kv))) before).
      { unfold vals_in, items. clear. induction before as [|[k v] l IH]; [reflexivity|]. cbn. rewrite IH. reflexivity. }
      rewrite VI. set (m := map (fun kv => (fst kv, wval (snd kv))) before).
      assert (NB : NoDup (od_keys m)).
      { unfold m. rewrite (map_snd_keys wval). pose proof (vp_keys _ _ Vq) as NK. unfold p_keylist in NK. unfold od_keys in *.
        assert (NK' : NoDup (map fst (p_vals q))) by exact NK. rewrite EV, map_app in NK'. apply nodup_app_iff in NK'. apply NK'. }
      rewrite (missing_dims (short_name q) _ k' a); [reflexivity| | |exact Sa|].
      - rewrite (map_snd_keys (@read_value R)). eapply Permutation_NoDup; [apply Permutation_sym, perm_keys, by_name_perm|exact NB].
      - apply in_map_iff. exists (k', DArr a). split; [reflexivity|]. apply (Permutation_in _ (Permutation_sym (by_name_perm m))).
        unfold m. apply in_map_iff. exists (k', VArr a). split; [reflexivity|exact Ia].
      - intros k0 v0 I. apply in_map_iff in I. destruct I as ([k1 d] & E & I). injection E as <- <-.
        apply (Permutation_in _ (by_name_perm m)) in I. unfold m in I. apply in_map_iff in I. destruct I as ([k2 v2] & E & I). injection E as <- <-. split.
        + apply (vp_reserved _ _ Vq). change (In k2 (od_keys (p_vals q))). rewrite EV. unfold od_keys. rewrite map_app. apply in_or_app. left.
          apply (in_map fst) in I. exact I.
        + specialize (HB k2 v2 I). cbn [snd]. destruct v2 as [x|s|l|b|]; try contradiction; try exact Logic.I.
          destruct l as [|[z|b|x| |] [|? ?]]; try contradiction. unfold wval. cbn [write_value set_shape map_res].
          unfold set_shape. cbn [map_res]. rewrite (proj2 (Z.ltb_ge z 0) HB). exact Logic.I. }
    destruct RQ as (rq & RQ1 & RQ2).
    assert (RS : exists ser, map_res (fun ng : string * hgroup R => let! r := read_plain (snd ng) in Ok (fst ng, r)) (by_name f) = Ok ser /\
       (forall nr, In nr ser -> (exists b, load_one nr = Ok b) \/ load_one nr = Err AssertionError) /\
       forall ng, In ng (by_name f) -> exists r, read_plain (snd ng) = Ok r /\ In (fst ng, r) ser).
    { assert (HP : forall ng, In ng (by_name f) -> exists r, read_plain (snd ng) = Ok r /\
        ((exists b, load_one (fst ng, r) = Ok b) \/ load_one (fst ng, r) = Err AssertionError)).
      { intros ng I. apply (Permutation_in _ (by_name_perm f)) in I. apply in_app_iff in I. destruct I as [I|[<-|[]]].
        - apply in_map_iff in I. destruct I as (p & <- & I). destruct (V p I) as (A & B & C).
          destruct (load_pd p (axes p) A B) as (r & q' & R1 & R2 & _). { intros J. destruct (C _ J) as (_ & _ & E). congruence. }
          exists r. split; [exact R1|]. left. exists (LPd q'). exact R2.
        - exists rq. split; [exact RQ1|]. right. exact RQ2. }
      clear - HP. induction (by_name f) as [|ng l IH].
      - exists []. split; [reflexivity|]. split; [intros ? []|intros ? []].
      - destruct IH as (ser & E & H1 & H2); [intros x I; apply HP; right; exact I|].
        destruct (HP ng (or_introl eq_refl)) as (r & R1 & R2). exists ((fst ng, r) :: ser). cbn [map_res]. rewrite R1. cbn [bind]. rewrite E. cbn [bind].
        split; [reflexivity|]. split; [intros nr [<-|I]; auto|]. intros x [<-|I]; [exists r; split; [exact R1|left; reflexivity]|].
        destruct (H2 x I) as (r' & Q1 & Q2). exists r'. split; [exact Q1|right; exact Q2]. }
    destruct RS as (ser & E & H1 & H2). rewrite E. cbn [bind]. apply map_res_one_err; [exact H1|].
    destruct (H2 (short_name q, items before)) as (r & Q1 & Q2).
    { apply (Permutation_in _ (Permutation_sym (by_name_perm f))). unfold f. apply in_or_app. right. left. reflexivity. }
    exists (short_name q, r). split; [exact Q2|]. cbn [snd] in Q1. rewrite RQ1 in Q1. injection Q1 as <-. exact RQ2.
Qed.

Lemma left_and_changed (ps rest : list (pd R)) (q : pd R) (axes : pd R -> list string) k path :
  (forall p, In p ps -> valid_pd p (axes p) /\ storable p /\ plain_keys p) -> valid_pd q (axes q) -> plain_keys q ->
  (forall p, In p rest -> valid_pd p (axes p)) ->
  NoDup (map (fun p => (od_keys (p_marg p), od_keys (p_cond p))) (ps ++ q :: rest)) -> breaks_after_column q ->
  exists changed f e, save (map live_of (ps ++ q :: rest)) (seq 0 (length (ps ++ q :: rest))) [] k path =
    ((changed ++ map live_of (q :: rest))%list, od_set k path f, Some e) /\
  load f = Err AssertionError /\ Forall2 marked (map live_of ps) changed.
Proof.
  intros V Vq Kq Vr ND B. destruct (left_unreadable ps rest q axes k path V Vq Kq Vr ND B) as (f & e & S & L).
  exists (map mark (map live_of ps)), f, e. split; [exact S|]. split; [exact L|].
  clear. induction (map live_of ps) as [|l m IH]; constructor; [apply mark_marked|exact IH].
Qed.

(** Distributions with a space in a name turn into auxiliary data. *)
Lemma become_data (p : pd R) L k path : valid_pd p L -> storable p -> (exists v, In v (p_keylist p) /\ occurs " "%char v) ->
  exists h f d, save [live_of p] [0] [] k path = (h, od_set k path f, None) /\
  load f = Ok [] /\ read_file f = Ok ([], [(short_name p, d)]) /\
  od_get d "prob"%string = option_map ADArr (p_prob p) /\
  forall v a, In (v, VArr a) (p_vals p) -> od_get d v = Some (ADArr a).
Proof.
  intros V St (vv & Iv & Ov).
  assert (SN : has_char " " (short_name p) = true).
  { destruct (has_char " " (short_name p)) eqn:E; [reflexivity|exfalso]. pose proof (proj1 (no_space_iff p L V)) as Q. unfold no_space in Q.
    rewrite E in Q. exact (Q eq_refl vv Iv Ov). }
  do 3 eexists. split.
  - unfold save. change (serial_refs [live_of p] [0]) with (@Ok (odict nat) [(short_name p, 0)]).
    unfold write_serialised. cbn [check_aux map_res write_objs nth_error od_mem od_get].
    rewrite (obj_pd p L V St). reflexivity.
  - assert (RF : read_file [(short_name p, snd (hfiled p))] = Ok ([], [(short_name p, read_extra (snd (hfiled p)))])).
    { unfold read_file. cbn [by_name fold_right insert_name filter fst]. rewrite SN. reflexivity. }
    unfold load. cbn [app]. rewrite RF. split; [reflexivity|]. split; [reflexivity|].
    destruct (vp_prob _ _ V) as (t & Et & _). unfold hfiled, the_prob. rewrite Et. cbn [snd].
    assert (NK : NoDup (od_keys (hgr (length (p_dims p)) (group_of p t)))).
    { unfold hgr, od_keys. rewrite map_app, map_map. cbn [group_of g_vals map fst]. rewrite map_map. cbn [fst].
      assert (NV : NoDup (map fst (p_vals p))) by exact (vp_keys _ _ V). apply nodup_app_iff. split; [exact NV|]. split; [repeat constructor; cbn; intuition discriminate|].
      intros x I J. apply (vp_reserved _ _ V x); [exact I|]. cbn in J |- *. tauto. }
    unfold read_extra. split.
    + rewrite (map_snd_get read_item), (perm_get _ (hgr (length (p_dims p)) (group_of p t))); [| |apply by_name_perm].
      2:{ eapply Permutation_NoDup; [apply Permutation_sym, perm_keys, by_name_perm|exact NK]. }
      erewrite (od_in_get _ "prob"%string (IProb t)); [reflexivity|exact NK|]. unfold hgr. apply in_or_app. right. cbn. auto.
    + intros v a I. rewrite (map_snd_get read_item), (perm_get _ (hgr (length (p_dims p)) (group_of p t))); [| |apply by_name_perm].
      2:{ eapply Permutation_NoDup; [apply Permutation_sym, perm_keys, by_name_perm|exact NK]. }
      erewrite (od_in_get _ v (IVal (DArr a))); [reflexivity|exact NK|]. unfold hgr. apply in_or_app. left. apply in_map_iff.
      exists (v, DArr a). split; [reflexivity|]. cbn [group_of g_vals]. apply in_map_iff. exists (v, VArr a). split; [reflexivity|exact I].
Qed.
End Pds.
