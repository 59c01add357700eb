(** What write_dist changes, and what read_dist gives back. *)
From Coq Require Import String Ascii ZArith Reals Bool Arith Lia List Permutation Sorted.
From Verif Require Import Base Num Tensor PScales PScales_Spec Names Names_Spec Names_Proofs Distr PDModel PDUtils PDFile
  RNumLemmas OdLemmas TensorLemmas PD_Spec PD_Make PD_Valid PD_Sort PD_Simple_Spec PD_Simple PD_SimpleEx PD_SimpleThm
  PD_Examples PD_Rekey PD_File_Spec PD_File.
Import ListNotations.
Local Open Scope nat_scope.

(** *** Effect on the objects *)
Lemma mark_get dims k : od_get (mark_dims dims) k =
  match od_get dims k with Some PyNone => Some (PyStr "None") | d => d end.
Proof.
  unfold mark_dims. rewrite (map_snd_get none_to_str). destruct (od_get dims k) as [[z| |s]|]; reflexivity.
Qed.

Lemma write_effect {T} {N : Num T} {F : Fmt T} (heap heap' : list (live T)) refs f :
  write_dist heap refs = Ok (heap', f) ->
  length heap' = length heap /\
  forall i l, nth_error heap i = Some l -> exists l', nth_error heap' i = Some l' /\
    l_name l' = l_name l /\ l_short l' = l_short l /\ l_vals l' = l_vals l /\ l_prob l' = l_prob l /\
    l_pscale l' = l_pscale l /\ od_keys (l_dims l') = od_keys (l_dims l) /\
    (~ last_of_name heap refs i -> l' = l) /\
    (last_of_name heap refs i -> forall k, od_get (l_dims l') k =
       match od_get (l_dims l) k with Some PyNone => Some (PyStr "None") | d => d end).
Proof.
  intros H. destruct (write_inv _ _ _ _ H) as (names & E & Len & HH & _). split; [exact Len|].
  destruct (serial_refs_ok _ _ _ E) as (_ & _ & _ & HW).
  intros i l G. destruct (HH i l G) as [H1 H2].
  destruct (in_dec Nat.eq_dec i (map snd names)) as [I|I].
  - exists (mark l). split; [auto|]. cbn. do 5 (split; [reflexivity|]). split; [apply mark_keys|].
    split; [intros C; exfalso; apply C, HW, I|]. intros _ k. apply mark_get.
  - exists l. split; [auto|]. do 6 (split; [reflexivity|]). split; [reflexivity|].
    intros C. exfalso. apply I, HW, C.
Qed.

Section Files.
Context {F : Fmt R}.

Lemma write_single (p : pd R) L : valid_pd p L -> storable p ->
  exists f, write_dist [live_of p] [0] = Ok ([mark (live_of p)], f).
Proof.
  intros V St. destruct (vp_prob _ _ V) as (t & Et & _). exists [(short_name p, group_of p t)].
  unfold write_dist, serial_refs. cbn [fold_res nth_R nth_error bind].
  cbn [od_set fold_res fst snd nth_R nth_error]. unfold nth_R. cbn [nth_error bind].
  rewrite (write_one p t St Et). reflexivity.
Qed.

Lemma write_unchanged_iff (p : pd R) L : valid_pd p L -> storable p ->
  exists l' f, write_dist [live_of p] [0] = Ok ([l'], f) /\ (l' = live_of p <-> ~ has_scalar p).
Proof.
  intros V St. destruct (write_single p L V St) as (f & E). exists (mark (live_of p)), f. split; [exact E|].
  unfold has_scalar. split.
  - intros Q (k & _ & G). apply (f_equal (@l_dims R)) in Q. cbn in Q.
    apply (f_equal (fun d => od_get d k)) in Q. rewrite mark_get in Q.
    rewrite (map_snd_get pydim_of) in Q. rewrite G in Q. cbn in Q. discriminate.
  - intros NS. unfold mark, live_of. cbn. f_equal. unfold mark_dims. rewrite map_map. apply map_ext_in.
    intros [k [z|]] I; [reflexivity|]. exfalso. apply NS. exists k.
    destruct (vp_dims _ _ V) as [DI DN]. split.
    + apply DI. apply (in_map fst) in I. exact I.
    + apply od_in_get; assumption.
Qed.

Lemma dims_ints_marked (dims : odict (option Z)) :
  dims_ints (mark_dims (map (fun kd => (fst kd, pydim_of (snd kd))) dims)) =
  if existsb (fun kd => match snd kd with None => true | Some _ => false end) dims then Err TypeError else Ok dims.
Proof.
  unfold dims_ints, mark_dims. rewrite map_map.
  induction dims as [|[k [z|]] dims IH]; [reflexivity| |reflexivity].
  cbn [map map_res fst snd pydim_of none_to_str existsb orb bind] in IH |- *. rewrite IH.
  destruct (existsb _ dims); reflexivity.
Qed.

Lemma dims_ints_live (dims : odict (option Z)) :
  dims_ints (map (fun kd => (fst kd, pydim_of (snd kd))) dims) = Ok dims.
Proof.
  unfold dims_ints. induction dims as [|[k [z|]] dims IH]; [reflexivity| |];
    cbn [map map_res fst snd pydim_of bind] in IH |- *; rewrite IH; reflexivity.
Qed.

(** Before writing, a copy can be made; afterwards none can. *)
Lemma written_unusable (p : pd R) L : valid_pd p L -> storable p -> has_scalar p ->
  (exists q, rebuild (live_of p) (p_name p) (p_prob p) (spec_of (p_pscale p)) = Ok q) /\
  exists l' f, write_dist [live_of p] [0] = Ok ([l'], f) /\
  forall name prob ps, rebuild l' name prob ps = Err TypeError.
Proof.
  intros V St (k & Ik & G). split.
  - unfold rebuild. cbn [live_of l_dims l_vals]. rewrite dims_ints_live. cbn [bind].
    destruct (vp_prob _ _ V) as (t & Et & Sh).
    destruct (remake p (length L) (p_vals p) t (spec_of (p_pscale p)) (p_pscale p) (valid_laid_out p L V)) as (q & E & _).
    + reflexivity.
    + auto.
    + intros k0 a C. exists a. auto.
    + exact Sh.
    + apply (vp_pscale _ _ V).
    + apply (vp_pscale _ _ V).
    + exists q. rewrite Et. exact E.
  - destruct (write_single p L V St) as (f & E). exists (mark (live_of p)), f. split; [exact E|].
    intros name prob ps. unfold rebuild. cbn [mark live_of l_dims]. rewrite dims_ints_marked.
    replace (existsb _ (p_dims p)) with true; [reflexivity|]. symmetry. apply existsb_exists.
    exists (k, None). split; [|reflexivity]. apply od_get_in. exact G.
Qed.

(** *** Several distributions *)

Definition the_prob (p : pd R) : tensor R := match p_prob p with Some t => t | None => tscalar 0%R end.
Definition filed (p : pd R) : string * group R := (short_name p, group_of p (the_prob p)).
Definition named_ref (ps : list (pd R)) (i : nat) : string * nat :=
  (match nth_error ps i with Some p => short_name p | None => ""%string end, i).

Lemma refs_all (ps : list (pd R)) : NoDup (map short_name ps) ->
  serial_refs (map live_of ps) (seq 0 (length ps)) = Ok (map (named_ref ps) (seq 0 (length ps))).
Proof.
  intros ND. unfold serial_refs.
  destruct (@fold_res_ok nat (odict nat) (fun (acc : odict nat) (i : nat) => let! l := nth_R (map live_of ps) i in Ok (od_set acc (l_short l) i))
     (fun (pre : list nat) (st : odict nat) => st = map (named_ref ps) pre) (seq 0 (length ps)) []) as (s & E & ->); [reflexivity| |exact E].
  intros pre i post s1 Es ->. assert (Hi : i < length ps) by (apply (in_seq (length ps) 0); rewrite Es; apply in_or_app; cbn; auto).
  destruct (nth_error ps i) as [p|] eqn:Ep; [|apply nth_error_None in Ep; lia].
  unfold nth_R at 1. rewrite nth_error_map, Ep. cbn [option_map bind live_of l_short].
  eexists. split; [reflexivity|]. rewrite od_set_new.
  - rewrite map_app. cbn [map]. unfold named_ref at 3. rewrite Ep. reflexivity.
  - intros I. unfold od_keys in I. rewrite map_map in I. apply in_map_iff in I. destruct I as (j & Ej & I). cbn in Ej.
    assert (Hj : j < length ps) by (apply (in_seq (length ps) 0); rewrite Es; apply in_or_app; auto).
    destruct (nth_error ps j) as [pj|] eqn:Epj; [|apply nth_error_None in Epj; lia].
    assert (j = i).
    { apply (proj1 (NoDup_nth_error (map short_name ps)) ND).
      - rewrite map_length. exact Hj.
      - rewrite !nth_error_map, Ep, Epj. cbn. congruence. }
    subst j. pose proof (seq_NoDup (length ps) 0) as NS. rewrite Es in NS. apply NoDup_remove_2 in NS. rewrite in_app_iff in NS. tauto.
Qed.

Lemma write_all (ps : list (pd R)) (axes : pd R -> list string) :
  (forall p, In p ps -> valid_pd p (axes p) /\ storable p) -> NoDup (map short_name ps) ->
  exists heap', write_dist (map live_of ps) (seq 0 (length ps)) = Ok (heap', map filed ps).
Proof.
  intros V ND.
  assert (W : exists st, write_dist (map live_of ps) (seq 0 (length ps)) = Ok st).
  { unfold write_dist. rewrite (refs_all ps ND). cbn [bind].
    match goal with |- exists st, fold_res ?f ?l ?s = _ =>
      destruct (@fold_res_ok _ _ f (fun pre st => forall i p, nth_error ps i = Some p -> ~ In i (map snd pre) ->
         nth_error (fst st) i = Some (live_of p)) l s) as (st & E & _) end.
    - intros i p G _. cbn [fst]. rewrite nth_error_map, G. reflexivity.
    - intros pre [n i] post [h f] Es P. cbn [fst snd] in *.
      assert (In (n, i) (map (named_ref ps) (seq 0 (length ps)))) as I by (rewrite Es; apply in_or_app; cbn; auto).
      apply in_map_iff in I. destruct I as (j & Ej & I). unfold named_ref in Ej. injection Ej as _ ->. apply in_seq in I.
      destruct (nth_error ps i) as [p|] eqn:Ep; [|apply nth_error_None in Ep; lia].
      assert (NI : ~ In i (map snd pre)).
      { apply (f_equal (map snd)) in Es. rewrite map_map in Es. unfold named_ref in Es. cbn [snd] in Es. rewrite map_id, map_app in Es.
        pose proof (seq_NoDup (length ps) 0) as NS. rewrite Es in NS. cbn in NS. apply NoDup_remove_2 in NS. rewrite in_app_iff in NS. tauto. }
      assert (Ip : In p ps) by (eapply nth_error_In; eauto). destruct (V p Ip) as [Vp Sp].
      destruct (vp_prob _ _ Vp) as (t & Et & _).
      unfold nth_R at 1. rewrite (P i p Ep NI). cbn [bind]. rewrite (write_one p t Sp Et). cbn [bind].
      eexists. split; [reflexivity|]. intros j pj Gj NJ. cbn [fst]. rewrite map_app, in_app_iff in NJ. cbn in NJ.
      rewrite nth_error_set_nth_ne by (intros ->; apply NJ; auto). apply P; tauto.
    - eauto. }
  destruct W as ([heap' f] & W). exists heap'. rewrite W. f_equal. f_equal.
  destruct (write_inv _ _ _ _ W) as (names & En & _ & _ & F2). rewrite (refs_all ps ND) in En. injection En as <-.
  clear W ND. revert f F2.
  assert (Q : forall l, (forall i, In i l -> i < length ps) -> forall f,
    Forall2 (fun ni ng => fst ng = fst ni /\ exists l l', nth_error (map live_of ps) (snd ni) = Some l /\
        write_live l = Ok (l', snd ng)) (map (named_ref ps) l) f ->
    f = map (fun i => match nth_error ps i with Some p => filed p | None => (""%string, mkGroup [] [] (tscalar 0%R) PSNone) end) l).
  { induction l as [|i l IH]; intros Hl f F2; inversion F2 as [|? ng ? f' [Hn (lv & lv' & G & Wl)] F2' E1 E2]; subst; [reflexivity|].
    cbn [map]. f_equal; [|apply IH; [intros; apply Hl; right; assumption|exact F2']].
    assert (Hi : i < length ps) by (apply Hl; left; reflexivity).
    destruct (nth_error ps i) as [p|] eqn:Ep; [|apply nth_error_None in Ep; lia].
    cbn [named_ref snd] in G. rewrite nth_error_map, Ep in G. injection G as <-.
    destruct (V p) as [Vp Sp]; [eapply nth_error_In; eauto|]. destruct (vp_prob _ _ Vp) as (t & Et & _).
    rewrite (write_one p t Sp Et) in Wl. injection Wl as _ Wg.
    destruct ng as [n g]. cbn [fst snd] in *. unfold filed, the_prob. rewrite Et. unfold named_ref in Hn. rewrite Ep in Hn. cbn in Hn.
    congruence. }
  intros f F2. rewrite (Q (seq 0 (length ps)) (fun i I => proj2 (proj1 (in_seq (length ps) 0 i) I)) f F2).
  clear. generalize (mkGroup (T := R) [] [] (tscalar 0%R) PSNone). intros g. assert (H : forall l2 l1, map (fun i => match nth_error (l1 ++ l2) i with Some p => filed p | None => (""%string, g) end) (seq (length l1) (length l2)) = map filed l2).
  { induction l2 as [|p l2 IH]; intros l1; [reflexivity|]. cbn [length seq map].
    rewrite nth_error_app2, Nat.sub_diag by lia. cbn [nth_error]. f_equal.
    specialize (IH (l1 ++ [p])). rewrite app_length, Nat.add_comm in IH. cbn in IH. rewrite <- app_assoc in IH. exact IH. }
  exact (H ps []).
Qed.

Definition no_space (p : pd R) : bool := negb (has_char " " (short_name p)).

Lemma sorted_map_inv (l : list (pd R)) : Sorted name_le (map filed l) ->
  Sorted (fun p q => String.leb (short_name p) (short_name q) = true) l.
Proof.
  induction l as [|p l IH]; intros H; [constructor|]. inversion H as [|? ? H1 H2]; subst. constructor; [auto|].
  destruct l as [|q l]; [constructor|]. inversion H2; subst. constructor. assumption.
Qed.

Lemma filter_map_filed (l : list (pd R)) :
  filter (fun ng => negb (has_char " " (fst ng))) (map filed l) = map filed (filter no_space l).
Proof.
  induction l as [|p l IH]; [reflexivity|]. cbn [map filter]. unfold no_space at 1. cbn [filed fst].
  destruct (negb (has_char " " (short_name p))); cbn; rewrite IH; reflexivity.
Qed.

Lemma file_round_trip (ps : list (pd R)) (axes : pd R -> list string) :
  (forall p, In p ps -> valid_pd p (axes p) /\ storable p /\ (no_space p = true -> ~ In "order"%string (p_keylist p))) ->
  NoDup (map short_name ps) ->
  exists heap' f ps' qs,
    write_dist (map live_of ps) (seq 0 (length ps)) = Ok (heap', f) /\ read_dist f = Ok qs /\
    Permutation ps ps' /\ Sorted (fun p q => String.leb (short_name p) (short_name q) = true) ps' /\
    Forall2 (fun p q => read_back p q (axes p)) (filter no_space ps') qs.
Proof.
  intros V ND. destruct (write_all ps axes) as (heap' & W); [intros p I; destruct (V p I) as (A & B & _); auto|exact ND|].
  destruct (Permutation_map_inv _ _ (by_name_perm (map filed ps))) as (ps' & E & P).
  exists heap', (map filed ps), ps'.
  assert (R : exists qs, read_dist (map filed ps) = Ok qs /\ Forall2 (fun p q => read_back p q (axes p)) (filter no_space ps') qs).
  { unfold read_dist, read_serialised. rewrite E, filter_map_filed.
    assert (V' : forall p, In p (filter no_space ps') -> valid_pd p (axes p) /\ storable p /\ ~ In "order"%string (p_keylist p)).
    { intros p I. apply filter_In in I. destruct I as [I1 I2]. destruct (V p) as (A & B & C); auto.
      eapply Permutation_in; [apply Permutation_sym; exact P|exact I1]. }
    revert V'. generalize (filter no_space ps'). intros l V'. clear - V'. induction l as [|p l IH].
    - exists []. split; [reflexivity|constructor].
    - destruct IH as (qs & Eq & F2); [intros q I; apply V'; right; exact I|].
      destruct (V' p (or_introl eq_refl)) as (A & B & C). destruct (vp_prob _ _ A) as (t & Et & _).
      destruct (back_one p (axes p) t A B C Et) as (s & q & E1 & E2 & RB).
      exists (q :: qs). split; [|constructor; assumption].
      cbn [map map_res filed fst snd]. unfold the_prob. rewrite Et, E1. cbn [bind].
      destruct (map_res _ (map filed l)) as [d|] eqn:Ed; [|discriminate]. cbn [bind] in *.
      unfold deserialise in *. cbn [map_res fst snd]. rewrite E2. cbn [bind]. rewrite Eq. reflexivity. }
  destruct R as (qs & Eq & F2). exists qs. split; [exact W|]. split; [exact Eq|].
  split; [exact P|]. split; [|exact F2].
  apply sorted_map_inv. rewrite <- E. apply by_name_sorted.
Qed.
End Files.

Section Claims.
Context {F : Fmt R}.

Lemma occurs_join c sep l : ~ occurs c sep -> occurs c (join sep l) <-> exists s, In s l /\ occurs c s.
Proof.
  intros NS. induction l as [|s l IH].
  - cbn. split; [intros []|intros (s & [] & _)].
  - destruct l as [|s' l].
    + cbn [join]. split; [intros H; exists s; cbn; auto|intros (x & [<-|[]] & H); exact H].
    + change (join sep (s :: s' :: l)) with (s ++ sep ++ join sep (s' :: l))%string.
      rewrite !occurs_app, IH. split.
      * intros [H|[H|(x & I & H)]]; [exists s; cbn; auto|tauto|exists x; cbn in *; auto].
      * intros (x & [<-|I] & H); [auto|right; right; exists x; auto].
Qed.

Lemma no_space_iff (p : pd R) L : valid_pd p L ->
  (no_space p = true <-> forall k, In k (p_keylist p) -> ~ occurs " "%char k).
Proof.
  intros V. unfold no_space. rewrite negb_true_iff, has_char_false. unfold short_name, margcond_str.
  assert (Q : occurs " "%char (if String.eqb (join "," (od_keys (p_cond p))) "" then join "," (od_keys (p_marg p))
     else join "|" [join "," (od_keys (p_marg p)); join "," (od_keys (p_cond p))]) <->
     occurs " "%char (join "," (od_keys (p_marg p))) \/ occurs " "%char (join "," (od_keys (p_cond p)))).
  { destruct (String.eqb_spec (join "," (od_keys (p_cond p))) "") as [->|_].
    - assert (Q0 : ~ occurs " "%char "") by (intros []). tauto.
    - cbn [join]. rewrite !occurs_app. assert (Q1 : ~ occurs " "%char "|") by (intros [C|[]]; discriminate). tauto. }
  rewrite Q, !occurs_join by (unfold occurs; cbn; intuition discriminate).
  pose proof (vp_names _ _ V) as PN. split.
  - intros H k I O. eapply Permutation_in in I; [|apply Permutation_sym; exact PN]. apply H.
    apply in_app_iff in I. destruct I as [I|I]; [left|right]; exists k; auto.
  - intros H [(k & I & O)|(k & I & O)]; apply (H k); auto; eapply Permutation_in; try exact PN; apply in_or_app; auto.
Qed.

Lemma distinct_names (ps : list (pd R)) (axes : pd R -> list string) :
  (forall p, In p ps -> valid_pd p (axes p)) -> NoDup (map (fun p => (od_keys (p_marg p), od_keys (p_cond p))) ps) ->
  NoDup (map short_name ps).
Proof.
  intros V ND. refine (proj2 (NoDup_map_iff _ _ ps _) ND). intros x y Ix Iy.
  rewrite (short_name_eq x y (axes x) (axes y) (V x Ix) (V y Iy)). split; [intros [Q1 Q2]; congruence|].
  intros Q. injection Q. auto.
Qed.

Lemma filter_all {A} (f : A -> bool) l : (forall a, In a l -> f a = true) -> filter f l = l.
Proof. induction l as [|a l IH]; cbn; intros H; [reflexivity|]. rewrite H by auto. f_equal. apply IH. auto. Qed.

Lemma saved_and_loaded (ps : list (pd R)) (axes : pd R -> list string) :
  (forall p, In p ps -> valid_pd p (axes p) /\ storable p /\ plain_keys p) ->
  NoDup (map (fun p => (od_keys (p_marg p), od_keys (p_cond p))) ps) ->
  exists heap' f ps' qs,
    write_dist (map live_of ps) (seq 0 (length ps)) = Ok (heap', f) /\ read_dist f = Ok qs /\
    Permutation ps ps' /\ Sorted (fun p q => String.leb (short_name p) (short_name q) = true) ps' /\
    Forall2 (fun p q => read_back p q (axes p)) ps' qs.
Proof.
  intros V ND. assert (ND' := distinct_names ps axes (fun p I => proj1 (V p I)) ND).
  destruct (file_round_trip ps axes) as (h & f & ps' & qs & W & R & P & So & F2).
  - intros p I. destruct (V p I) as (A & B & C). split; [exact A|]. split; [exact B|]. intros _ J. destruct (C _ J) as (_ & _ & D). congruence.
  - exact ND'.
  - exists h, f, ps', qs. rewrite filter_all in F2; [auto 8|]. intros p I.
    apply (Permutation_in _ (Permutation_sym P)) in I. destruct (V p I) as (A & B & C).
    apply (no_space_iff p (axes p) A). intros k J. apply (C k J).
Qed.

Lemma forall2_len {A B} (P : A -> B -> Prop) l m : Forall2 P l m -> length l = length m.
Proof. induction 1; cbn; auto. Qed.

Lemma filter_len_le {A} (f : A -> bool) l : length (filter f l) <= length l.
Proof. induction l as [|a l IH]; cbn; [lia|]. destruct (f a); cbn; lia. Qed.

(** Distributions with a space in a name are left out. *)
Lemma spaces_left_out (ps : list (pd R)) (axes : pd R -> list string) :
  (forall p, In p ps -> valid_pd p (axes p) /\ storable p /\ ~ In "order"%string (p_keylist p)) ->
  NoDup (map (fun p => (od_keys (p_marg p), od_keys (p_cond p))) ps) ->
  exists heap' f qs, write_dist (map live_of ps) (seq 0 (length ps)) = Ok (heap', f) /\ read_dist f = Ok qs /\
    (length qs <= length ps)%nat /\
    (length qs = length ps <-> forall p k, In p ps -> In k (p_keylist p) -> ~ occurs " "%char k).
Proof.
  intros V ND. assert (ND' := distinct_names ps axes (fun p I => proj1 (V p I)) ND).
  destruct (file_round_trip ps axes) as (h & f & ps' & qs & W & R & P & So & F2).
  - intros p I. destruct (V p I) as (A & B & C). auto.
  - exact ND'.
  - exists h, f, qs. split; [exact W|]. split; [exact R|]. assert (Q0 := forall2_len _ _ _ F2). rewrite <- Q0.
    assert (Q : length ps = length ps') by (apply Permutation_length; exact P). rewrite Q.
    split; [apply filter_len_le|].
    assert (Q2 : length (filter no_space ps') = length ps' <-> forall p, In p ps' -> no_space p = true).
    { clear. induction ps' as [|p l IH]; cbn; [split; [intros _ ? []|reflexivity]|].
      pose proof (filter_len_le no_space l) as Le. destruct (no_space p) eqn:E; cbn.
      - split; intros H; [|f_equal; apply IH; auto]. assert (length (filter no_space l) = length l) by lia.
        intros q [<-|I]; [exact E|apply IH; auto].
      - split; intros H; [lia|]. rewrite H in E by auto. discriminate. }
    rewrite Q2. split.
    + intros H p k I. assert (I' := Permutation_in _ P I). apply (no_space_iff p (axes p)); [apply V, I|auto].
    + intros H p I. apply (Permutation_in _ (Permutation_sym P)) in I. apply (no_space_iff p (axes p)); [apply V, I|].
      intros k J. eauto.
Qed.

(** A variable called order: the file can be written but not read. *)
Lemma order_unreadable (p : pd R) L : valid_pd p L -> storable p -> In "order"%string (p_keylist p) ->
  (forall k, In k (p_keylist p) -> ~ occurs " "%char k) ->
  exists heap' f, write_dist [live_of p] [0] = Ok (heap', f) /\ read_dist f = Err KeyError.
Proof.
  intros V St IO NS. destruct (vp_prob _ _ V) as (t & Et & _).
  destruct (write_all [p] (fun _ => L)) as (h & W); [intros q [<-|[]]; auto|repeat constructor; cbn; tauto|].
  exists h, (map filed [p]). split; [exact W|]. unfold read_dist, read_serialised.
  cbn [map by_name fold_right insert_name filter filed fst].
  apply (no_space_iff p L V) in NS. unfold no_space in NS. cbn [filed fst] in *. rewrite NS.
  assert (R : read_group (group_of p (the_prob p)) = Err KeyError); [|cbn [map_res snd fst filed]; rewrite R; reflexivity].
  unfold read_group, group_of. cbn [g_attrs]. rewrite od_get_set_eq. cbn [bind].
  set (at_ := map (fun kd => (fst kd, wdim (snd kd))) (p_dims p)).
  destruct (vp_dims _ _ V) as [DI DN].
  assert (Kat : od_keys at_ = od_keys (p_dims p)) by apply map_snd_keys.
  assert (IO' : In "order"%string (od_keys (p_dims p))).
  { eapply Permutation_in; [apply Permutation_sym, (dims_keys p L V)|exact IO]. }
  assert (E : map_res (fun k => let! h := od_getR (od_del (od_set at_ "order" (HOrder (od_keys (p_dims p)))) "order") k in Ok (k, h))
    (od_keys (p_dims p)) = Err KeyError); [|rewrite E; reflexivity].
  assert (ND2 : NoDup (od_keys (od_set at_ "order" (HOrder (od_keys (p_dims p)))))).
  { apply od_keys_set_nodup. rewrite Kat. exact DN. }
  set (d := od_del _ _).
  assert (GO : od_get d "order"%string = None).
  { unfold d. rewrite od_del_filter by exact ND2. apply od_get_none. intros I. unfold od_keys in I.
    apply in_map_iff in I. destruct I as ([k v] & E & I). apply filter_In in I. cbn in E, I. subst k. destruct I as [_ I].
    rewrite ?String.eqb_refl in I. discriminate. }
  clearbody d. clear - IO' GO. revert IO'. generalize (od_keys (p_dims p)). induction l as [|k l IH]; [intros []|intros [->|I]].
  - cbn. unfold od_getR. rewrite GO. reflexivity.
  - cbn [map_res]. unfold od_getR at 1. destruct (od_get d k); cbn [bind]; [|reflexivity]. rewrite (IH I). reflexivity.
Qed.

End Claims.

(** *** Examples *)
Section Ex.
Let F : Fmt R := fmt_ex.
Existing Instance F.
Local Open Scope R_scope.

Lemma storable_var (p : pd R) L : valid_pd p L ->
  (forall k v, variable p k = Some (Scal v) -> ~ In k L -> (exists x, v = VNum x) \/ exists z, (0 <= z)%Z /\ v = VSet [SEint z]) ->
  storable p.
Proof.
  intros V H k v I. assert (G : od_get (p_vals p) k = Some v) by (apply od_in_get; [apply (vp_keys _ _ V)|exact I]).
  destruct (in_dec string_dec k L) as [J|J].
  - apply In_nth_error in J. destruct J as (j & J). destruct (vp_column _ _ V j k J) as (a & n & Ga & _).
    assert (v = VArr a) by congruence. subst. exact Logic.I.
  - destruct (vp_scalar _ _ V k v G J) as [S _].
    destruct v as [x|s|l|a|]; try exact Logic.I.
    + destruct (H k (VStr s)) as [(x & C)|(z & _ & C)]; auto; try discriminate. unfold variable. rewrite G. reflexivity.
    + destruct (H k (VSet l)) as [(x & C)|(z & Z0 & C)]; auto; try discriminate; [unfold variable; rewrite G; reflexivity|].
      injection C as ->. exact Z0.
    + discriminate.
Qed.

Lemma plain_keysb (p : pd R) : forallb (fun k => negb (has_char " " k) && negb (has_char "/" k) && negb (String.eqb k "order")) (p_keylist p) = true ->
  plain_keys p.
Proof.
  intros H k I. rewrite forallb_forall in H. apply H in I. rewrite !andb_true_iff, !negb_true_iff in I.
  destruct I as ((A & B) & C). rewrite has_char_false in *. apply String.eqb_neq in C. auto.
Qed.

Lemma ex_file : exists p q : pd R, ex_make = Ok p /\ ext_make = Ok q /\
  (forall r, In r [p; q] -> valid_pd r (if String.eqb (short_name r) "x,y" then ["y"; "x"]%string else ["x"; "y"; "z"]%string) /\
      storable r /\ plain_keys r) /\
  NoDup (map (fun p => (od_keys (p_marg p), od_keys (p_cond p))) [p; q]) /\ has_scalar p.
Proof.
  destruct ex_ok as (p & E & V & K & M & C & P & S & Vx & Vy & Vz & Vw).
  destruct ext_ok as (q & E' & V' & K' & M' & S').
  assert (C' : od_keys (p_cond q) = []).
  { pose proof (vp_names _ _ V') as PN. rewrite M', K' in PN. apply Permutation_length in PN. rewrite app_length in PN. cbn in PN.
    destruct (od_keys (p_cond q)); [reflexivity|cbn in PN; lia]. }
  exists p, q. split; [exact E|]. split; [exact E'|]. split; [|split].
  - intros r [<-|[<-|[]]].
    + unfold short_name. rewrite M, C. cbn [margcond_str join String.eqb]. split; [exact V|]. split.
      * apply (storable_var p _ V). intros k v Hv J. left.
        assert (Ik : In k (p_keylist p)).
        { unfold variable in Hv. destruct (od_get (p_vals p) k) eqn:G; [|discriminate]. eapply od_get_some_key; exact G. }
        rewrite K in Ik. cbn in Ik, J. assert (k = "w"%string) by intuition congruence. subst. rewrite Vw in Hv. injection Hv as <-. eauto.
      * apply plain_keysb. rewrite K. reflexivity.
    + unfold short_name. rewrite M', C'. cbn. split; [exact V'|]. split.
      * apply (storable_var q _ V'). intros k v Hv J. exfalso.
        assert (Ik : In k (p_keylist q)).
        { unfold variable in Hv. destruct (od_get (p_vals q) k) eqn:G; [|discriminate]. eapply od_get_some_key; exact G. }
        rewrite K' in Ik. cbn in Ik, J. tauto.
      * apply plain_keysb. rewrite K'. reflexivity.
  - cbn. rewrite M, C, M', C'. repeat constructor; cbn; intuition discriminate.
  - exists "w"%string. split; [rewrite K; cbn; auto|].
    assert (Ik : In "w"%string (p_keylist p)) by (rewrite K; cbn; auto). apply od_key_get in Ik. destruct Ik as (v & G).
    apply (vp_scalar _ _ V "w"%string v G). cbn. intuition discriminate.
Qed.

(** A distribution over one column with a given name. *)
Lemma named_ok k : good_entryb k = true -> str2key k = k -> ~ In k disallowed -> exists p : pd R,
  make_pd k [(k, VArr (of_list 0 [1; 2]))] (Some [(k, Some 0%Z)]) (Some (mkT [2%nat] (fun _ => / 2))) (PSFloat 1) = Ok p /\
  valid_pd p [k] /\ p_keylist p = [k] /\ storable p.
Proof.
  intros G Sk ND.
  assert (GK : good_entry k /\ key_of k k) by (split; [apply good_entryb_ok; exact G|rewrite <- Sk at 2; apply str2key_key_of]).
  assert (One : eval_pscale (PSFloat 1) = Ok (Lin 1)).
  { cbn. assert (H : n_eqb 1 n1 = true) by (apply Reqb_iff; reflexivity). rewrite H. reflexivity. }
  destruct (@make_pd_ok F [(k, VArr (of_list 0 [1; 2]))] [(k, Some 0%Z)] [k] [(k, k)] []
              (mkT [2%nat] (fun _ => / 2)) (PSFloat 1) (Lin 1)) as (q & E & V & K & M & C & P & S & Vr).
  - repeat constructor; cbn; tauto.
  - discriminate.
  - cbn. intros k' [<-|[]]. exact ND.
  - repeat constructor; cbn; tauto.
  - intros k' Hk. exact Hk.
  - intros k' v Gk Hk. exfalso. apply Hk. apply od_get_some_key in Gk. exact Gk.
  - intros [|j] k' Hj; cbn in Hj; [|destruct j; discriminate]. injection Hj as <-.
    exists (of_list 0 [1; 2]). cbn [od_get]. rewrite String.eqb_refl. cbn. repeat split; auto; try discriminate; lia.
  - intros k' Hk. exact Hk.
  - repeat constructor; cbn; tauto.
  - reflexivity.
  - constructor; [exact GK|constructor].
  - constructor; [|constructor]. unfold render, mem_str. cbn [fst snd existsb]. rewrite String.eqb_refl. exact GK.
  - cbn. repeat constructor.
  - exact One.
  - exact One.
  - exists q. cbn in E. split; [exact E|]. split; [exact V|]. split; [exact K|].
    apply (storable_var q _ V). intros k' v Hv J. exfalso. apply J. cbn. left.
    unfold variable in Hv. destruct (od_get (p_vals q) k') eqn:G'; [|discriminate]. apply od_get_some_key in G'.
    change (In k' (p_keylist q)) in G'. rewrite K in G'. destruct G' as [C0|[]]. exact C0.
Qed.

Lemma ex_order : exists p : pd R, valid_pd p ["order"]%string /\ storable p /\ In "order"%string (p_keylist p) /\
  (forall k, In k (p_keylist p) -> ~ occurs " "%char k).
Proof.
  destruct (named_ok "order") as (p & _ & V & K & St); [reflexivity|reflexivity|cbn; intuition discriminate|].
  exists p. split; [exact V|]. split; [exact St|]. rewrite K. split; [cbn; auto|].
  intros k [<-|[]]. apply has_char_false. reflexivity.
Qed.

Lemma ex_space : exists p q : pd R, (forall r, In r [p; q] -> valid_pd r (p_keylist r) /\ storable r /\ ~ In "order"%string (p_keylist r)) /\
  NoDup (map (fun p => (od_keys (p_marg p), od_keys (p_cond p))) [p; q]) /\
  p_keylist p = ["my var"]%string /\ p_keylist q = ["x"]%string.
Proof.
  destruct (named_ok "my var") as (p & _ & V & K & St); [reflexivity|reflexivity|cbn; intuition discriminate|].
  destruct (named_ok "x") as (q & _ & V' & K' & St'); [reflexivity|reflexivity|cbn; intuition discriminate|].
  exists p, q. split; [|split; [|auto]].
  - intros r [<-|[<-|[]]]; [rewrite K|rewrite K']; (split; [assumption|split; [assumption|cbn; intuition discriminate]]).
  - constructor; [|repeat constructor; tauto]. cbn. intros [C|[]]. injection C as C1 C2.
    pose proof (vp_names _ _ V) as P1. pose proof (vp_names _ _ V') as P2. rewrite C1, C2, K' in P2. rewrite K in P1.
    rewrite P1 in P2. apply Permutation_length_1 in P2. discriminate.
Qed.
End Ex.
