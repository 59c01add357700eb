(** Writing distributions to a file and reading them back. *)
From Coq Require Import String Ascii ZArith Reals Bool Arith Lia List Permutation Sorted.
From Verif Require Import Base Num Tensor PScales PScales_Spec Names Names_Spec Names_Proofs Distr PDModel PDUtils PDFile
  RNumLemmas OdLemmas TensorLemmas PD_Spec PD_Make PD_Valid PD_Simple_Spec PD_Simple PD_File_Spec.
Import ListNotations.
Local Open Scope nat_scope.

(** *** names in order *)

Lemma insert_name_perm {A} (kv : string * A) d : Permutation (insert_name kv d) (kv :: d).
Proof.
  induction d as [|kv' d IH]; cbn; auto. destruct (String.leb _ _); auto.
  rewrite IH. apply perm_swap.
Qed.

Lemma by_name_perm {A} (d : odict A) : Permutation (by_name d) d.
Proof. induction d as [|kv d IH]; cbn; auto. rewrite insert_name_perm, IH. reflexivity. Qed.

Definition name_le {A} (x y : string * A) : Prop := String.leb (fst x) (fst y) = true.

Lemma insert_name_sorted {A} (kv : string * A) d : Sorted name_le d -> Sorted name_le (insert_name kv d).
Proof.
  induction 1 as [|kv' d S IH H]; cbn; [repeat constructor|].
  destruct (String.leb (fst kv) (fst kv')) eqn:E.
  - constructor; constructor; auto.
  - constructor; [exact IH|]. destruct d as [|kv2 d]; cbn.
    + constructor. unfold name_le. destruct (String.leb_total (fst kv) (fst kv')); congruence.
    + destruct (String.leb (fst kv) (fst kv2)); constructor.
      * unfold name_le. destruct (String.leb_total (fst kv) (fst kv')); congruence.
      * inversion H; assumption.
Qed.

Lemma by_name_sorted {A} (d : odict A) : Sorted name_le (by_name d).
Proof. induction d as [|kv d IH]; cbn; [constructor|]. apply insert_name_sorted. exact IH. Qed.

Lemma perm_get {A} (d e : odict A) k : NoDup (od_keys d) -> Permutation d e -> od_get d k = od_get e k.
Proof.
  intros ND P.
  assert (NE : NoDup (od_keys e)) by (eapply Permutation_NoDup; [apply Permutation_map; exact P|exact ND]).
  destruct (od_get d k) as [v|] eqn:G.
  - symmetry. apply od_in_get; [exact NE|]. eapply Permutation_in; [exact P|]. apply od_get_in. exact G.
  - symmetry. apply od_get_none. apply od_get_none in G. intros I. apply G.
    eapply Permutation_in; [apply Permutation_map, Permutation_sym; exact P|exact I].
Qed.

Lemma perm_keys {A} (d e : odict A) : Permutation d e -> Permutation (od_keys d) (od_keys e).
Proof. intros P. apply Permutation_map. exact P. Qed.

(** *** what writing does to the objects *)

Section Heap.
Context {T : Type} {N : Num T} {F : Fmt T}.

Definition mark (l : live T) : live T :=
  mkLive (l_name l) (l_short l) (l_vals l) (mark_dims (l_dims l)) (l_prob l) (l_pscale l).

Lemma write_live_mark (l l' : live T) g : write_live l = Ok (l', g) -> l' = mark l.
Proof.
  unfold write_live. destruct (map_res _ (l_vals l)); [|discriminate]. cbn [bind].
  destruct (map_res _ (mark_dims _)); [|discriminate]. cbn [bind].
  destruct (l_prob l) eqn:E; [|discriminate]. cbn [bind]. intros H. injection H as <- <-.
  unfold mark. rewrite E. reflexivity.
Qed.

Lemma nth_R_ok {A} (l : list A) i x : nth_R l i = Ok x <-> nth_error l i = Some x.
Proof. unfold nth_R. destruct (nth_error l i); split; intros H; congruence. Qed.

Lemma serial_refs_ok (heap : list (live T)) refs names : serial_refs heap refs = Ok names ->
  NoDup (od_keys names) /\ NoDup (map snd names) /\
  (forall n i, In (n, i) names -> exists l, nth_error heap i = Some l /\ l_short l = n) /\
  (forall i, In i (map snd names) <-> last_of_name heap refs i).
Proof.
  revert names. induction refs as [|i refs IH] using rev_ind; intros names H.
  - injection H as <-. cbn. repeat split; try constructor; try tauto.
    intros (r1 & r2 & l & E & _). destruct r1; discriminate.
  - unfold serial_refs in H. rewrite fold_res_app in H.
    fold (serial_refs heap refs) in H. destruct (serial_refs heap refs) as [d|] eqn:E; [|discriminate]. cbn [bind fold_res] in H.
    destruct (nth_R heap i) as [l|] eqn:El; [|discriminate]. cbn [bind] in H. injection H as <-.
    apply nth_R_ok in El. destruct (IH d eq_refl) as (ND & NS & HL & HW).
    assert (HL' : forall n j, In (n, j) (od_set d (l_short l) i) -> exists l, nth_error heap j = Some l /\ l_short l = n).
    { intros n j I. apply od_in_get in I; [|apply od_keys_set_nodup; exact ND].
      destruct (string_dec n (l_short l)) as [->|Nn].
      - rewrite od_get_set_eq in I. injection I as <-. eauto.
      - rewrite od_get_set_ne in I by auto. apply HL, od_get_in, I. }
    assert (HW' : forall j, In j (map snd (od_set d (l_short l) i)) <-> last_of_name heap (refs ++ [i]) j).
    { intros j. split.
      - intros I. apply in_map_iff in I. destruct I as ([n j'] & Ej & I). cbn in Ej. subst j'.
        pose proof I as I0. apply od_in_get in I; [|apply od_keys_set_nodup; exact ND].
        destruct (string_dec n (l_short l)) as [->|Nn].
        + rewrite od_get_set_eq in I. injection I as <-. exists refs, [], l. repeat split; auto.
        + rewrite od_get_set_ne in I by auto.
          assert (Ij : In j (map snd d)) by (apply in_map_iff; exists (n, j); split; [reflexivity|apply od_get_in; exact I]).
          apply HW in Ij. destruct Ij as (r1 & r2 & lj & -> & Gj & Hj).
          exists r1, (r2 ++ [i]), lj. rewrite <- app_assoc. repeat split; auto.
          intros j' l' I' G'. apply in_app_iff in I'. destruct I' as [I'|[<-|[]]]; [eauto|].
          apply od_get_in, HL in I. destruct I as (l2 & G2 & S2). assert (l2 = lj) by congruence. subst.
          assert (l' = l) by congruence. subst. auto.
      - intros (r1 & r2 & lj & Er & Gj & Hj). destruct r2 as [|j2 r2] using rev_ind.
        + apply app_inj_tail in Er. destruct Er as [<- <-]. apply in_map_iff. exists (l_short l, i). split; [reflexivity|].
          apply od_get_in, od_get_set_eq.
        + clear IHr2. rewrite app_comm_cons, app_assoc in Er. apply app_inj_tail in Er. destruct Er as [-> <-].
          assert (W : last_of_name heap (r1 ++ j :: r2) j).
          { exists r1, r2, lj. repeat split; auto. intros j' l' I' G'. apply (Hj j'); [apply in_or_app; auto|exact G']. }
          apply HW in W. apply in_map_iff in W. destruct W as ([n j'] & Ej & I). cbn in Ej. subst j'.
          assert (Nn : n <> l_short l).
          { destruct (HL n j I) as (l2 & G2 & <-). assert (l2 = lj) by congruence. subst l2.
            intros C. apply (Hj i l); [apply in_or_app; cbn; auto|exact El|congruence]. }
          apply in_map_iff. exists (n, j). split; [reflexivity|]. apply od_get_in.
          rewrite od_get_set_ne by auto. apply od_in_get; assumption. }
    split; [apply od_keys_set_nodup; exact ND|]. split; [|split; assumption].
    assert (ND' : NoDup (od_keys (od_set d (l_short l) i))) by (apply od_keys_set_nodup; exact ND).
    revert ND' HL'. generalize (od_set d (l_short l) i). clear. intros d ND HL.
    induction d as [|[n j] d IH]; cbn in *; constructor.
    + intros I. apply in_map_iff in I. destruct I as ([n' j'] & Ej & I). cbn in Ej. subst j'.
      inversion ND; subst. destruct (HL n j) as (l1 & G1 & S1); auto. destruct (HL n' j) as (l2 & G2 & S2); auto.
      apply H1. apply in_map_iff. exists (n', j). split; [cbn; congruence|exact I].
    + inversion ND; subst. apply IH; auto.
Qed.

(** The step of write_dist. *)
Lemma write_inv (heap heap' : list (live T)) refs f : write_dist heap refs = Ok (heap', f) ->
  exists names, serial_refs heap refs = Ok names /\ length heap' = length heap /\
  (forall i l, nth_error heap i = Some l ->
     (In i (map snd names) -> nth_error heap' i = Some (mark l)) /\
     (~ In i (map snd names) -> nth_error heap' i = Some l)) /\
  Forall2 (fun ni ng => fst ng = fst ni /\
     exists l l', nth_error heap (snd ni) = Some l /\ write_live l = Ok (l', snd ng)) names f.
Proof.
  unfold write_dist. destruct (serial_refs heap refs) as [names|] eqn:E; [|discriminate]. cbn [bind]. intros H.
  exists names. split; [reflexivity|].
  destruct (serial_refs_ok _ _ _ E) as (ND & NS & HL & _).
  apply (fold_res_inv _ (fun pre st => length (fst st) = length heap /\
    (forall i l, nth_error heap i = Some l ->
       (In i (map snd pre) -> nth_error (fst st) i = Some (mark l)) /\
       (~ In i (map snd pre) -> nth_error (fst st) i = Some l)) /\
    Forall2 (fun ni ng => fst ng = fst ni /\
     exists l l', nth_error heap (snd ni) = Some l /\ write_live l = Ok (l', snd ng)) pre (snd st))) in H.
  - exact H.
  - cbn. split; [reflexivity|]. split; [|constructor]. intros i l G. split; [tauto|auto].
  - intros pre [n i] post [h1 f1] [h2 f2] En (HLen & HH & HF) Hs. cbn [fst snd] in *.
    destruct (nth_R h1 i) as [l|] eqn:El; [|discriminate]. cbn [bind] in Hs. apply nth_R_ok in El.
    destruct (write_live l) as [[l' g]|] eqn:Ew; [|discriminate]. cbn [bind] in Hs. injection Hs as <- <-.
    pose proof (write_live_mark _ _ _ Ew) as ->.
    rewrite En, map_app in NS. cbn in NS. apply NoDup_remove_2 in NS. rewrite in_app_iff in NS.
    destruct (HL n i) as (l0 & G0 & _). { rewrite En. apply in_or_app. cbn. auto. }
    assert (l0 = l). { destruct (HH i l0 G0) as [_ HN]. rewrite HN in El by tauto. congruence. } subst l0.
    assert (Hi : i < length h1) by (apply nth_error_Some; congruence).
    split; [rewrite set_nth_length; exact HLen|]. split.
    + intros j lj Gj. rewrite map_app. cbn [map snd]. rewrite in_app_iff. cbn [In].
      destruct (Nat.eq_dec i j) as [->|Nij].
      * rewrite nth_error_set_nth_eq by exact Hi. assert (lj = l) by congruence. subst. tauto.
      * rewrite nth_error_set_nth_ne by auto. destruct (HH j lj Gj). split; intros; [apply H0|apply H1]; tauto.
    + rewrite od_set_new.
      * apply Forall2_app; [exact HF|]. constructor; [|constructor]. cbn. eauto.
      * assert (Kf : od_keys f1 = od_keys pre).
        { clear - HF. induction HF as [|ni ng pre f1 [E _] HF IH]; [reflexivity|]. cbn. unfold od_keys in IH. congruence. }
        rewrite Kf. rewrite En in ND. unfold od_keys in ND. rewrite map_app in ND. cbn in ND.
        apply NoDup_remove_2 in ND. rewrite in_app_iff in ND. tauto.
Qed.

End Heap.

(** *** writing and reading one distribution *)

Section One.
Context {F : Fmt R}.

Definition wv (v : value R) : dset R :=
  match v with
  | VArr a => DArr a
  | VSet [SEint z] => DSet [Z.to_nat z; 0]
  | VNum x => DArr (tscalar x)
  | _ => DSet []
  end.

Definition wdim (d : option Z) : hattr := match d with Some z => HInt z | None => HStr "None" end.

Definition group_of (p : pd R) (t : tensor R) : group R :=
  mkGroup (map (fun kv => (fst kv, wv (snd kv))) (p_vals p))
          (od_set (map (fun kd => (fst kd, wdim (snd kd))) (p_dims p)) "order" (HOrder (od_keys (p_dims p))))
          t (spec_of (p_pscale p)).

Lemma mark_keys dims : od_keys (mark_dims dims) = od_keys dims.
Proof. unfold od_keys, mark_dims. rewrite map_map. reflexivity. Qed.

Lemma map_snd_keys {A B} (f : A -> B) (d : odict A) : od_keys (map (fun kv => (fst kv, f (snd kv))) d) = od_keys d.
Proof. unfold od_keys. rewrite map_map. reflexivity. Qed.

Lemma map_snd_get {A B} (f : A -> B) (d : odict A) k :
  od_get (map (fun kv => (fst kv, f (snd kv))) d) k = option_map f (od_get d k).
Proof.
  induction d as [|[k' v] d IH]; [reflexivity|]. cbn [map fst snd od_get].
  destruct (String.eqb k k'); [reflexivity|exact IH].
Qed.

Lemma write_one (p : pd R) t : storable p -> p_prob p = Some t ->
  write_live (live_of p) = Ok (mark (live_of p), group_of p t).
Proof.
  intros St Ep. unfold write_live. cbn [l_vals l_dims l_prob l_pscale l_name l_short live_of].
  rewrite (map_res_all _ (fun kv => (fst kv, wv (snd kv)))).
  - cbn [bind]. rewrite (map_res_all _ (fun kd : string * pydim => (fst kd, match snd kd with PyInt z => HInt z | PyNone => HStr "None" | PyStr s => HStr s end))).
    + cbn [bind]. rewrite Ep. cbn [bind]. unfold mark, group_of. cbn. rewrite Ep, mark_keys.
      f_equal. f_equal. f_equal. f_equal.
      * unfold mark_dims. rewrite !map_map. apply map_ext. intros [k [z|]]; reflexivity.
      * f_equal. unfold od_keys. rewrite map_map. reflexivity.
    + intros [k d] I. unfold mark_dims in I. rewrite map_map in I. apply in_map_iff in I.
      destruct I as ([k' [z|]] & X & I); injection X as <- <-; reflexivity.
  - intros [k v] I. cbn [fst snd]. specialize (St k v I). destruct v as [x|s|l|a|]; try destruct St; try reflexivity.
    destruct l as [|[z|b|x| |] [|? ?]]; try contradiction.
    unfold write_value, set_shape. cbn [map_res]. rewrite (proj2 (Z.ltb_ge z 0) St). reflexivity.
Qed.

Lemma od_del_snoc {A} (d : odict A) k v : ~ In k (od_keys d) -> od_del (d ++ [(k, v)]) k = d.
Proof.
  induction d as [|[k' v'] d IH]; cbn; intros H.
  - rewrite String.eqb_refl. reflexivity.
  - destruct (String.eqb_spec k k') as [->|]; [tauto|]. rewrite IH by tauto. reflexivity.
Qed.

Lemma select_ok {A} (d : odict A) (dflt : A) ks : incl ks (od_keys d) ->
  exists e, map_res (fun k => let! h := od_getR d k in Ok (k, h)) ks = Ok e /\ od_keys e = ks /\
    (NoDup ks -> forall k, In k ks -> od_get e k = od_get d k).
Proof.
  intros I. exists (map (fun k => (k, match od_get d k with Some v => v | None => dflt end)) ks). split; [|split].
  - apply map_res_all. intros k Ik. apply I, od_key_get in Ik. destruct Ik as (v & G). unfold od_getR. rewrite G. reflexivity.
  - unfold od_keys. rewrite map_map. apply map_id.
  - intros ND k Ik. pose proof (I k Ik) as G. apply od_key_get in G. destruct G as (v & G). rewrite G.
    apply od_in_get.
    + unfold od_keys. rewrite map_map, map_id. exact ND.
    + apply in_map_iff. exists k. rewrite G. auto.
Qed.

Lemma select_self {A} (d : odict A) : NoDup (od_keys d) ->
  map_res (fun k => let! h := od_getR d k in Ok (k, h)) (od_keys d) = Ok d.
Proof.
  intros ND. apply map_res_ok.
  assert (H : forall d0 e : odict A, (forall k v, In (k, v) e -> od_get d0 k = Some v) ->
    Forall2 (fun k b => (let! h := od_getR d0 k in Ok (k, h)) = Ok b) (od_keys e) e).
  { intros d0 e. induction e as [|[k v] e IH]; intros H; [constructor|]. cbn [od_keys map fst]. constructor.
    - unfold od_getR. rewrite (H k v) by (left; reflexivity). reflexivity.
    - apply IH. intros k' v' I. apply H. right. exact I. }
  apply H. intros. apply od_in_get; assumption.
Qed.

(** The value read back of one written. *)
Definition rv (v : value R) : value R := read_value (wv v).

Lemma rv_is v : issingleton v = true \/ (exists a, v = VArr a) ->
  match v with VNum _ | VArr _ => True | VSet [SEint z] => (0 <= z)%Z | _ => False end ->
  issingleton (rv v) = issingleton v /\ fmt_value (rv v) = fmt_value v /\ var_of (rv v) = as_read (var_of v) /\
  (forall a, v = VArr a -> rv v = VArr a).
Proof.
  intros _ S. destruct v as [x|s|l|a|]; try contradiction.
  - repeat split; try reflexivity. discriminate.
  - destruct l as [|[z|b|x| |] [|? ?]]; try contradiction. unfold rv. cbn. rewrite Z2Nat.id by exact S.
    repeat split; try reflexivity. discriminate.
  - unfold rv, wv, read_value. repeat split; try reflexivity; auto. cbn. destruct (shape a); reflexivity.
Qed.

Definition reordered (p : pd R) (vals : odict (value R)) : pd R :=
  mkPD (mkDist (p_name p) vals (p_dims p) (d_ndim (p_d p)) (d_sizes (p_d p)) (p_shape p) (d_size (p_d p))
          (map (fun kv => issingleton (snd kv)) vals) (Some (forallb (fun kv => issingleton (snd kv)) vals)))
       (p_marg p) (p_cond p) (p_prob p) (p_pscale p).

Lemma dims_keys (p : pd R) L : valid_pd p L -> Permutation (od_keys (p_dims p)) (p_keylist p).
Proof.
  intros V. destruct (vp_dims _ _ V) as [I ND]. apply NoDup_Permutation; [exact ND|apply (vp_keys _ _ V)|].
  intros k. split; [apply I|]. intros Ik. destruct (in_dec string_dec k L) as [J|J].
  - apply In_nth_error in J. destruct J as (j & J). destruct (vp_column _ _ V j k J) as (a & n & _ & _ & _ & _ & D).
    eapply od_get_some_key; eauto.
  - apply od_key_get in Ik. destruct Ik as (v & G). destruct (vp_scalar _ _ V k v G J) as [_ D].
    eapply od_get_some_key; eauto.
Qed.

Lemma reordered_valid (p : pd R) L vals : valid_pd p L -> storable p ->
  od_keys vals = od_keys (p_dims p) ->
  (forall k, od_get vals k = option_map rv (od_get (p_vals p) k)) ->
  valid_pd (reordered p vals) L.
Proof.
  intros V St K G. pose proof (dims_keys p L V) as PK.
  assert (PK' : Permutation (od_keys vals) (p_keylist p)) by (rewrite K; exact PK).
  assert (S1 : forall k v, od_get (p_vals p) k = Some v ->
    match v with VNum _ | VArr _ => True | VSet [SEint z] => (0 <= z)%Z | _ => False end).
  { intros k v H. apply (St k v). apply od_get_in. exact H. }
  destruct V as [V1 V2 V3 V4 V5 V6 V7 V8 V9 V10 V11 V12 V13 V14 V15 V16 V17 V18].
  split; unfold p_keylist, p_vals, p_dims, p_shape, p_name, d_keylist in *; cbn [reordered p_d p_marg p_cond p_prob p_pscale d_vals d_dims d_shape d_ndim d_aresing d_issing d_name] in *; auto.
  - eapply Permutation_NoDup; [apply Permutation_sym; exact PK'|exact V1].
  - intros E. rewrite E in PK'. apply Permutation_nil in PK'. auto.
  - intros k I. apply V3. eapply Permutation_in; eassumption.
  - intros k I. eapply Permutation_in; [apply Permutation_sym; exact PK'|]. apply V5. exact I.
  - intros k v H J. rewrite G in H. destruct (od_get (d_vals (p_d p)) k) as [w|] eqn:E; [|discriminate].
    cbn in H. injection H as <-. destruct (V6 k w E J) as [A B]. split; [|exact B].
    destruct (rv_is w) as (Q & _); [left; exact A|exact (S1 k w E)|]. congruence.
  - intros j k H. destruct (V7 j k H) as (a & n & A & B). exists a, n. split; [|exact B].
    rewrite G, A. cbn. reflexivity.
  - split; [|apply V8]. intros k I. rewrite K. exact I.
  - rewrite V15. apply Permutation_sym. exact PK'.
  - intros k v e H J Ge. rewrite G in H. destruct (od_get (d_vals (p_d p)) k) as [w|] eqn:E; [|discriminate].
    cbn in H. injection H as <-. destruct (V6 k w E J) as [A B].
    destruct (rv_is w) as (_ & Q & _); [left; exact A|exact (S1 k w E)|]. rewrite Q. eapply V17; eauto.
Qed.

Lemma filter_none {A} (f : A -> bool) l : (forall a, In a l -> f a = false) -> filter f l = [].
Proof. induction l as [|a l IH]; cbn; intros H; [reflexivity|]. rewrite H by auto. apply IH. auto. Qed.

Lemma read_one (p : pd R) L t : valid_pd p L -> storable p -> ~ In "order"%string (p_keylist p) -> p_prob p = Some t ->
  exists vals, read_group (group_of p t) = Ok (mkSer vals (p_dims p) (Some t) (spec_of (p_pscale p))) /\
    od_keys vals = od_keys (p_dims p) /\ (forall k, od_get vals k = option_map rv (od_get (p_vals p) k)).
Proof.
  intros V St NO Ep. pose proof (dims_keys p L V) as PK. destruct (vp_dims _ _ V) as [DI DN].
  assert (NO' : ~ In "order"%string (od_keys (p_dims p))) by (intros I; apply NO, DI, I).
  set (at_ := map (fun kd => (fst kd, wdim (snd kd))) (p_dims p)).
  assert (Kat : od_keys at_ = od_keys (p_dims p)) by apply map_snd_keys.
  unfold read_group, group_of. cbn [g_attrs g_vals g_prob g_pscale]. fold at_.
  rewrite od_get_set_eq. cbn [bind]. rewrite od_set_new by (rewrite Kat; exact NO').
  rewrite od_del_snoc by (rewrite Kat; exact NO'). rewrite <- Kat. rewrite select_self by (rewrite Kat; exact DN). cbn [bind].
  rewrite (map_res_all _ (fun kh : string * hattr => (fst kh, match snd kh with HInt z => Some z | _ => None end))).
  2:{ intros [k h] I. apply in_map_iff in I. destruct I as ([k' [z|]] & X & I); injection X as <- <-; reflexivity. }
  cbn [bind].
  assert (Ed : map (fun kh : string * hattr => (fst kh, match snd kh with HInt z => Some z | _ => None end)) at_ = p_dims p).
  { unfold at_. rewrite map_map. rewrite <- (map_id (p_dims p)) at 2. apply map_ext. intros [k [z|]]; reflexivity. }
  rewrite Ed.
  assert (NE : p_dims p <> []).
  { intros E. rewrite E in PK. cbn in PK. apply Permutation_nil in PK. apply (vp_some _ _ V). exact PK. }
  destruct (p_dims p) as [|d0 dims] eqn:Edims; [congruence|]. rewrite <- Edims in *. cbn [bind].
  set (vs := map (fun kd => (fst kd, read_value (snd kd))) (by_name (map (fun kv => (fst kv, wv (snd kv))) (p_vals p)))).
  assert (KP : Permutation (od_keys vs) (p_keylist p)).
  { unfold vs. rewrite map_snd_keys. unfold od_keys. rewrite by_name_perm. rewrite map_map. reflexivity. }
  assert (Gv : forall k, od_get vs k = option_map rv (od_get (p_vals p) k)).
  { intros k. unfold vs. rewrite map_snd_get.
    rewrite (perm_get _ (map (fun kv => (fst kv, wv (snd kv))) (p_vals p))).
    - rewrite map_snd_get. destruct (od_get (p_vals p) k); reflexivity.
    - unfold od_keys. rewrite by_name_perm, map_map. apply (vp_keys _ _ V).
    - apply by_name_perm. }
  destruct (select_ok vs (VNum 0%R) (od_keys at_)) as (e & Ee & Ke & Ge).
  { intros k I. rewrite Kat in I. eapply Permutation_in; [apply Permutation_sym; exact KP|]. apply DI. exact I. }
  rewrite Ee. cbn [bind]. rewrite filter_none, app_nil_r.
  - exists e. split; [reflexivity|]. split; [congruence|]. intros k. rewrite <- Gv.
    destruct (in_dec string_dec k (od_keys at_)) as [I|I]; [apply Ge; [rewrite Kat; exact DN|exact I]|].
    rewrite (proj2 (od_get_none e k)) by (rewrite Ke; exact I). symmetry. apply od_get_none. intros J. apply I.
    rewrite Kat. eapply Permutation_in; [apply Permutation_sym; exact PK|]. eapply Permutation_in; [exact KP|exact J].
  - intros [k v] I. cbn [fst]. apply negb_false_iff, mem_str_iff. rewrite Kat.
    eapply Permutation_in; [apply Permutation_sym; exact PK|]. eapply Permutation_in; [exact KP|].
    apply (in_map fst) in I. exact I.
Qed.

Lemma back_one (p : pd R) L t : valid_pd p L -> storable p -> ~ In "order"%string (p_keylist p) -> p_prob p = Some t ->
  exists s q, read_group (group_of p t) = Ok s /\ deserialise1 (short_name p) s = Ok q /\ read_back p q L.
Proof.
  intros V St NO Ep. destruct (read_one p L t V St NO Ep) as (vals & Er & K & G).
  pose proof (reordered_valid p L vals V St K G) as V2.
  destruct (reload1 (reordered p vals) L V2) as (q & Eq & R1 & R2 & R3 & R4 & R5 & R6 & R7 & R8).
  exists (mkSer vals (p_dims p) (Some t) (spec_of (p_pscale p))), q. split; [exact Er|]. split.
  - rewrite <- Ep. exact Eq.
  - unfold read_back. split; [exact R1|]. split; [rewrite R2; exact K|]. do 5 (split; [assumption|]).
    intros k. rewrite R8. unfold variable. change (p_vals (reordered p vals)) with vals. rewrite G.
    destruct (od_get (p_vals p) k) as [v|] eqn:E; [|reflexivity]. cbn. f_equal.
    apply od_get_in in E. pose proof (St k v E) as S.
    destruct v as [x|s|l|a|]; try contradiction.
    + reflexivity.
    + destruct l as [|[z|b|x| |] [|? ?]]; try contradiction. unfold rv. cbn. rewrite Z2Nat.id by exact S. reflexivity.
    + unfold rv. cbn. destruct (shape a); reflexivity.
Qed.

End One.
