From Coq Require Import String ZArith Bool Arith Lia List.
From Verif Require Import Base Num Tensor OdLemmas TensorBcast TensorLemmas Distr Distr_Spec PD_Make.
Import ListNotations.
Local Open Scope nat_scope.

Section Proofs.
Context {T : Type}.
Implicit Types (v : value T) (a : tensor T) (vals : odict (value T)) (dims : odict (option Z)).

Lemma ndim_acc_gen dims : forall m,
  let r := fold_left (fun n (kd : string * option Z) => match snd kd with
                       | Some d => Z.to_nat (Z.max (Z.of_nat n) (d + 1))
                       | None => n end) dims m in
  (m <= r)%nat /\ (forall k d, In (k, Some d) dims -> (d < Z.of_nat r)%Z) /\
  (r = m \/ exists k d, In (k, Some d) dims /\ (d + 1 = Z.of_nat r)%Z).
Proof.
  induction dims as [|[k [d|]] dims IH]; intros m; cbn [fold_left snd].
  - cbn. repeat split; auto; intros; contradiction.
  - specialize (IH (Z.to_nat (Z.max (Z.of_nat m) (d + 1)))). cbv zeta in IH |- *.
    set (r := fold_left _ dims _) in *. destruct IH as (A & B & C). split; [lia|]. split.
    + intros k' d' [E|H]; [|eapply B; exact H]. inversion E; subst. lia.
    + destruct C as [C|(k' & d' & H & E)].
      * destruct (Z.max_spec (Z.of_nat m) (d + 1)) as [[H1 H2]|[H1 H2]].
        -- right. exists k, d. split; [left; reflexivity|]. lia.
        -- left. lia.
      * right. exists k', d'. split; [right; exact H|exact E].
  - specialize (IH m). cbv zeta in IH |- *. destruct IH as (A & B & C). split; [exact A|]. split.
    + intros k' d' [E|H]; [discriminate|eapply B; exact H].
    + destruct C as [C|(k' & d' & H & E)]; [left; exact C|]. right. exists k', d'. split; [right; exact H|exact E].
Qed.

Lemma naxes_iff dims n : naxes dims n <-> ndim_of_dims dims = n.
Proof.
  pose proof (ndim_acc_gen dims 0) as H. cbv zeta in H. fold (ndim_of_dims dims) in H.
  destruct H as (_ & B & C). split.
  - intros [A1 A2]. destruct A2 as [-> |(k & d & H & E)].
    + destruct C as [C|(k & d & H & E)]; [exact C|]. apply A1 in H. lia.
    + apply B in H. destruct C as [C|(k' & d' & H' & E')].
      * lia.
      * apply A1 in H'. lia.
  - intros <-. split; [exact B|]. destruct C as [C|C]; [left; exact C|right; exact C].
Qed.

Lemma py_index_on n d j : py_index n d = Some j <->
  ((0 <= d)%Z /\ d = Z.of_nat j \/ (d < 0)%Z /\ (d + Z.of_nat n)%Z = Z.of_nat j) /\ j < n.
Proof.
  unfold py_index. destruct (Z.leb_spec 0 d).
  - destruct (Z.ltb_spec d (Z.of_nat n)); split.
    + intros E. injection E as <-. lia.
    + intros [[[A B]|[A B]] C]; [|lia]. subst. f_equal. lia.
    + discriminate.
    + intros [[[A B]|[A B]] C]; lia.
  - destruct (Z.leb_spec (- Z.of_nat n) d); split.
    + intros E. injection E as <-. lia.
    + intros [[[A B]|[A B]] C]; [lia|]. rewrite B. f_equal. lia.
    + discriminate.
    + intros [[[A B]|[A B]] C]; lia.
Qed.

Lemma on_axis_iff n dims k j : on_axis n dims k j <-> exists d, od_get dims k = Some (Some d) /\ py_index n d = Some j.
Proof.
  unfold on_axis. split; intros (d & A & B); exists d; (split; [exact A|]); apply py_index_on; exact B.
Qed.

(** *** cleaning *)
Lemma clean_iff vals : (exists vals1, clean_vals vals = Ok vals1) <-> (forall k, In k (od_keys vals) -> ~ In k disallowed).
Proof.
  induction vals as [|[k v] vals IH].
  - split; [intros _ k []|]. intros _. exists []. reflexivity.
  - unfold clean_vals in *. cbn [map_res fst snd od_keys map]. destruct (mem_str k disallowed) eqn:M.
    + split; [intros (x & E); discriminate|]. intros H. apply mem_str_iff in M. destruct (H k (or_introl eq_refl) M).
    + match goal with |- context [bind ?X _] => assert (E : exists w, X = Ok (k, w)) end.
      { destruct v as [| |[|[] []]| |]; eauto. }
      destruct E as (w & E). rewrite E. cbn [bind]. apply mem_str_false in M. split.
      * intros (x & Ex). destruct (map_res _ vals) as [m|] eqn:Em; cbn [bind] in Ex; [|discriminate].
        intros k' [<-|H]; [exact M|]. apply IH; eauto.
      * intros H. destruct (proj2 IH) as (m & Em). { intros k' Hk'. apply H. right. exact Hk'. }
        rewrite Em. cbn. eauto.
Qed.

Lemma clean_inv vals vals1 : clean_vals vals = Ok vals1 -> vals1 = map (fun kv => (fst kv, kept (snd kv))) vals.
Proof.
  revert vals1. induction vals as [|[k v] vals IH]; intros vals1; unfold clean_vals in *; cbn [map_res fst snd map].
  - intros E. injection E as <-. reflexivity.
  - destruct (mem_str k disallowed); [discriminate|].
    match goal with |- context [bind ?X _] => assert (E : X = Ok (k, kept v)) end.
    { destruct v as [| |[|[] []]| |]; reflexivity. }
    rewrite E. cbn [bind]. destruct (map_res _ vals) as [m|]; cbn [bind]; [|discriminate].
    intros H. injection H as <-. rewrite (IH m eq_refl). reflexivity.
Qed.

Lemma kept_sing v : issingleton (kept v) = true <-> scalar_value v.
Proof.
  unfold scalar_value. destruct v as [| |[|[] []]| |]; cbn; split; intros H; try discriminate; auto;
  destruct H; discriminate || auto.
Qed.

Lemma kept_arr v a : kept v = VArr a <-> v = VArr a.
Proof. destruct v as [| |[|[] []]| |]; cbn; split; intros; congruence. Qed.

Lemma od_get_kept vals k : od_get (map (fun kv => (fst kv, kept (snd kv))) vals) k = option_map kept (od_get vals k).
Proof. induction vals as [|[k' v] vals IH]; cbn; [reflexivity|]. destruct (String.eqb k k'); auto. Qed.

(** *** the loop with given dims *)
Section Loop.
Variables (vals : odict (value T)) (dims : odict (option Z)) (n : nat).
Hypothesis ND : NoDup (od_keys vals).

Definition fits k v : Prop :=
  issingleton v = true /\ no_axis dims k \/
  exists a j, v = VArr a /\ one_axis a /\ on_axis n dims k j.

Definition placed (st : @dstate T) k v : Prop :=
  issingleton v = true /\ no_axis dims k /\ od_get (s_vals st) k = Some v /\ od_get (s_dims st) k = Some None \/
  exists a j a', v = VArr a /\ one_axis a /\ on_axis n dims k j /\ od_get (s_vals st) k = Some (VArr a') /\
    shape a' = axis_shape n j (tsize a) /\ to_list a' = to_list a /\ od_get (s_dims st) k = od_get dims k.

Definition last_on (pre : list (string * value T)) (j : nat) (o : option nat) : Prop :=
  match o with
  | None => forall k a, In (k, VArr a) pre -> shape a <> [] -> ~ on_axis n dims k j
  | Some s => exists l k a r, pre = (l ++ (k, VArr a) :: r)%list /\ shape a <> [] /\ tsize a = s /\ on_axis n dims k j /\
      forall k' a', In (k', VArr a') r -> shape a' <> [] -> ~ on_axis n dims k' j
  end.

Definition Inv (pre : list (string * value T)) (st : @dstate T) : Prop :=
  od_keys (s_vals st) = od_keys vals /\ s_ndim st = n /\ length (s_shape st) = n /\
  (forall k, ~ In k (od_keys pre) -> od_get (s_vals st) k = od_get vals k /\ od_get (s_dims st) k = od_get dims k) /\
  (forall k v, In (k, v) pre -> placed st k v) /\
  (forall j, j < n -> exists o, nth_error (s_shape st) j = Some o /\ last_on pre j o).

Lemma regrid j a : j < n -> exists a',
  (if negb (n =? ndim a) || negb (list_eqb Nat.eqb (shape a) (axis_shape n j (tsize a)))
   then let! a' := reshape (axis_shape n j (tsize a)) a in Ok (VArr a') else Ok (VArr a)) = Ok (VArr a') /\
  shape a' = axis_shape n j (tsize a) /\ to_list a' = to_list a.
Proof.
  intros J. destruct (negb (n =? ndim a) || negb (list_eqb Nat.eqb (shape a) (axis_shape n j (tsize a)))) eqn:B.
  - destruct (reshape_ok (axis_shape n j (tsize a)) a) as (a' & E1 & E2 & E3); [apply prod_axis_shape; exact J|].
    exists a'. rewrite E1. cbn. auto.
  - apply orb_false_iff in B. destruct B as [_ B]. apply negb_false_iff, list_eqb_nat in B. exists a. auto.
Qed.

Lemma last_on_snoc pre j o k v :
  last_on pre j o -> (forall a, v = VArr a -> shape a <> [] -> ~ on_axis n dims k j) -> last_on (pre ++ [(k, v)]) j o.
Proof.
  intros H NA. destruct o as [s|]; cbn in *.
  - destruct H as (l & k0 & a & r & -> & Sh & Ts & On & No). exists l, k0, a, (r ++ [(k, v)])%list.
    rewrite <- app_assoc. do 4 (split; [auto; fail|]). intros k' a' I S'. apply in_app_iff in I.
    destruct I as [I|[I|[]]]; [eapply No; eauto|]. injection I as -> ->. apply (NA a' eq_refl S').
  - intros k' a' I S'. apply in_app_iff in I.
    destruct I as [I|[I|[]]]; [eapply H; eauto|]. injection I as -> ->. apply (NA a' eq_refl S').
Qed.

Lemma on_axis_fun k j j' : on_axis n dims k j -> on_axis n dims k j' -> j = j'.
Proof. rewrite !on_axis_iff. intros (d & A & B) (d' & A' & B'). congruence. Qed.

Lemma loop_step pre k v post st :
  vals = (pre ++ (k, v) :: post)%list -> Inv pre st ->
  (fits k v -> exists st', dims_step false st (k, v) = Ok st') /\
  (forall st', dims_step false st (k, v) = Ok st' -> fits k v /\ Inv (pre ++ [(k, v)]) st').
Proof.
  intros E (K & Hn & Ls & Hout & Hin & Hsh).
  assert (Kp : ~ In k (od_keys pre)).
  { rewrite E in ND. unfold od_keys in ND. rewrite map_app in ND. cbn in ND.
    apply NoDup_remove_2 in ND. rewrite in_app_iff in ND. unfold od_keys. tauto. }
  assert (Gv : od_get vals k = Some v).
  { apply od_in_get; auto. rewrite E. apply in_or_app. cbn. auto. }
  assert (Kv : In k (od_keys vals)) by (eapply od_get_some_key; eauto).
  destruct (Hout k Kp) as [Gsv Gsd].
  assert (KS : forall x, In x (od_keys (pre ++ [(k, v)])) <-> In x (od_keys pre) \/ x = k).
  { intros x. unfold od_keys. rewrite map_app, in_app_iff. cbn. intuition congruence. }
  unfold dims_step. cbn [fst snd]. destruct (issingleton v) eqn:SV.
  - (* scalar *)
    rewrite Gsd.
    assert (NEXT : forall st', s_vals st' = s_vals st -> s_ndim st' = s_ndim st -> s_shape st' = s_shape st ->
       no_axis dims k -> od_get (s_dims st') k = Some None ->
       (forall x, x <> k -> od_get (s_dims st') x = od_get (s_dims st) x) -> fits k v /\ Inv (pre ++ [(k, v)]) st').
    { intros st' E1 E2 E3 NA E4 E5. split; [left; auto|]. unfold Inv. rewrite E1, E2, E3.
      do 3 (split; [auto; fail|]). split; [|split].
      - intros x Hx. rewrite KS in Hx. rewrite E5 by (intros ->; tauto). apply Hout. tauto.
      - intros k' v' I. apply in_app_iff in I. destruct I as [I|[I|[]]].
        + assert (Nk : k' <> k) by (intros ->; apply Kp; apply in_map_iff; exists (k, v'); auto).
          unfold placed. rewrite E1, E5 by exact Nk. apply (Hin k' v' I).
        + injection I as <- <-. left. rewrite E1, Gsv. auto.
      - intros j J. destruct (Hsh j J) as (o & A & B). exists o. split; [exact A|].
        apply last_on_snoc; [exact B|]. intros a -> NE. rewrite arr_not_singleton in SV by exact NE. discriminate. }
    split.
    + intros [[_ [NA|NA]]|(a & j & -> & [NE _] & _)].
      * rewrite NA. eauto.
      * rewrite NA. eauto.
      * rewrite arr_not_singleton in SV by exact NE. discriminate.
    + intros st'. destruct (od_get dims k) as [[d|]|] eqn:Dk; [discriminate| |]; intros H; injection H as <-.
      * apply NEXT; auto. right. exact Dk.
      * apply NEXT; auto; cbn [s_dims]; [left; exact Dk|apply od_get_set_eq|]. intros x Nx. apply od_get_set_ne. auto.
  - (* column *)
    destruct v as [x|s|s|a|]; try (split; [intros [[C _]|(a & j & C & _)]; congruence|intros st' C; discriminate]).
    cbn zeta.
    assert (SH : shape a <> []). { intros C. unfold issingleton in SV. cbn in SV. rewrite C in SV. discriminate. }
    destruct (Nat.eqb_spec (tsize a) (list_max (shape a))) as [Ma|Ma].
    2:{ cbn [assert_ bind]. split; [|discriminate].
        intros [[C _]|(a' & j & C & [_ M] & _)]; [congruence|]. injection C as <-. contradiction. }
    cbn [assert_ bind]. unfold od_mem. rewrite Gsd.
    destruct (od_get dims k) as [[d|]|] eqn:Dk; cbn [assert_ bind].
    2:{ rewrite Gsd. split; [|discriminate].
        intros [[C _]|(a' & j & C & _ & (d & D1 & _))]; congruence. }
    2:{ split; [|discriminate].
        intros [[C _]|(a' & j & C & _ & (d & D1 & _))]; congruence. }
    rewrite Gsd. rewrite Ls, Hn. unfold py_indexR. destruct (py_index n d) as [j|] eqn:Pj; cbn [bind].
    2:{ split; [|discriminate].
        intros [[C _]|(a' & j & C & _ & O)]; [congruence|]. apply on_axis_iff in O. destruct O as (d' & D1 & D2). congruence. }
    assert (J : j < n) by (eapply py_index_lt; eauto).
    assert (On : on_axis n dims k j) by (apply on_axis_iff; exists d; auto).
    destruct (regrid j a J) as (a' & Q1 & Q2 & Q3). rewrite Q1. cbn [bind].
    split; [eauto|]. intros st' H. injection H as <-. split; [right; exists a, j; repeat split; auto|].
    unfold Inv; cbn [s_vals s_dims s_ndim s_shape].
    split; [rewrite od_keys_set_old; [exact K|rewrite K; exact Kv]|]. split; [reflexivity|].
    split; [rewrite set_nth_length; exact Ls|]. split; [|split].
    + intros y Hy. rewrite KS in Hy. rewrite od_get_set_ne by (intros ->; tauto). apply Hout. tauto.
    + intros k' v' I. apply in_app_iff in I. destruct I as [I|[I|[]]].
      * assert (Nk : k' <> k) by (intros ->; apply Kp; apply in_map_iff; exists (k, v'); auto).
        unfold placed. cbn [s_vals s_dims]. rewrite od_get_set_ne by auto. apply (Hin k' v' I).
      * injection I as <- <-. right. exists a, j, a'. cbn [s_vals s_dims].
        rewrite od_get_set_eq. split; [auto|]. split; [split; auto|]. rewrite Gsd. auto.
    + intros j' J'. destruct (Nat.eq_dec j' j) as [->|NE].
      * exists (Some (tsize a)). split; [apply nth_error_set_nth_eq; lia|].
        exists pre, k, a, []. do 4 (split; [auto; fail|]). intros k' a0 [].
      * destruct (Hsh j' J') as (o & A & B). exists o.
        rewrite nth_error_set_nth_ne by auto. split; [exact A|].
        apply last_on_snoc; [exact B|]. intros _ _ _ O. apply NE. eapply on_axis_fun; eauto.
Qed.

Lemma Inv0 : Inv [] (mkDS vals dims n (repeat None n) [] 0).
Proof.
  unfold Inv; cbn [s_vals s_dims s_ndim s_shape]. rewrite repeat_length.
  do 3 (split; [auto; fail|]). split; [auto|]. split; [intros k v []|].
  intros j J. exists None. split; [apply nth_error_repeat; exact J|]. intros k a [].
Qed.

Lemma loop_ok : (forall k v, In (k, v) vals -> fits k v) ->
  exists st, fold_res (dims_step false) vals (mkDS vals dims n (repeat None n) [] 0) = Ok st /\ Inv vals st.
Proof.
  intros H. apply fold_res_ok; [apply Inv0|]. intros pre [k v] post st E P.
  destruct (loop_step pre k v post st E P) as [A B].
  destruct A as (st' & E'). { apply H. rewrite E. apply in_or_app. cbn. auto. }
  exists st'. split; [exact E'|]. apply B. exact E'.
Qed.

Lemma loop_inv st : fold_res (dims_step false) vals (mkDS vals dims n (repeat None n) [] 0) = Ok st ->
  (forall k v, In (k, v) vals -> fits k v) /\ Inv vals st.
Proof.
  intros H.
  pose (P := fun (pre : list (string * value T)) st => (forall k v, In (k, v) pre -> fits k v) /\ Inv pre st).
  change (P vals st). refine (@fold_res_inv _ _ (dims_step false) P vals _ st _ _ H).
  - split; [intros k v []|apply Inv0].
  - intros pre [k v] post s1 s2 E [Q1 Q2] E2.
    destruct (loop_step pre k v post s1 E Q2) as [_ B]. destruct (B s2 E2) as [B1 B2]. split; [|exact B2].
    intros k' v' I. apply in_app_iff in I. destruct I as [I|[I|[]]]; [auto|]. injection I as <- <-. exact B1.
Qed.
End Loop.

(** *** construction with given dims *)
Lemma full_shape_inv l shp : full_shape l = Ok shp -> l = map Some shp.
Proof.
  revert shp. induction l as [|[x|] l IH]; intros shp; unfold full_shape in *; cbn [map_res].
  - intros E. injection E as <-. reflexivity.
  - cbn [bind]. destruct (map_res _ l) as [m|]; cbn [bind]; [|discriminate]. intros E. injection E as <-.
    cbn. rewrite (IH m eq_refl). reflexivity.
  - discriminate.
Qed.

Lemma full_shape_some l : (forall o, In o l -> o <> None) -> exists shp, full_shape l = Ok shp.
Proof.
  induction l as [|[x|] l IH]; intros H; unfold full_shape in *; cbn [map_res].
  - eauto.
  - cbn [bind]. destruct IH as (m & E). { intros o Ho. apply H. right. exact Ho. }
    rewrite E. cbn. eauto.
  - destruct (H None (or_introl eq_refl) eq_refl).
Qed.

Notation cleaned vals := (map (fun kv => (fst kv, kept (snd kv))) vals).

Lemma cleaned_keys vals : od_keys (cleaned vals) = od_keys vals.
Proof. unfold od_keys. rewrite map_map. reflexivity. Qed.

Lemma column_cleaned vals k a : od_get (cleaned vals) k = Some (VArr a) <-> od_get vals k = Some (VArr a).
Proof.
  rewrite od_get_kept. destruct (od_get vals k) as [v|]; cbn; [|split; discriminate].
  split; intros H; injection H as H; [apply (proj1 (kept_arr v a)) in H; congruence|]. subst v. reflexivity.
Qed.

Lemma fits_describes vals dims n : NoDup (od_keys vals) ->
  (forall k v, In (k, v) (cleaned vals) -> fits dims n k v) <->
  (forall k v, od_get vals k = Some v ->
     scalar_value v /\ no_axis dims k \/ exists a j, column vals k a /\ on_axis n dims k j).
Proof.
  intros ND. split.
  - intros H k v G. destruct (H k (kept v)) as [[A B]|(a & j & A & B & C)].
    + apply od_get_in. rewrite od_get_kept, G. reflexivity.
    + left. split; [apply kept_sing; exact A|exact B].
    + right. apply (proj1 (kept_arr v a)) in A. subst v. exists a, j. split; [split; auto|exact C].
  - intros H k v I. apply od_in_get in I; [|rewrite cleaned_keys; exact ND].
    rewrite od_get_kept in I. destruct (od_get vals k) as [w|] eqn:G; [|discriminate]. cbn in I. injection I as <-.
    destruct (H k w G) as [[A B]|(a & j & [A B] & C)].
    + left. split; [apply kept_sing; exact A|exact B].
    + right. exists a, j. rewrite G in A. injection A as ->. auto.
Qed.

Lemma last_on_some vals dims n j : NoDup (od_keys vals) -> forall o,
  last_on dims n (cleaned vals) j o -> (exists k a, column vals k a /\ on_axis n dims k j) -> o <> None.
Proof.
  intros ND o H (k & a & [A [B _]] & C) ->. cbn in H. apply (H k a); [|exact B|exact C].
  apply od_get_in. apply column_cleaned. exact A.
Qed.

Lemma nth_error_all {A} (l : list A) (P : A -> Prop) :
  (forall j, j < length l -> exists o, nth_error l j = Some o /\ P o) -> forall o, In o l -> P o.
Proof.
  intros H o I. apply In_nth_error in I. destruct I as (j & E).
  destruct (H j) as (o' & E' & Q); [apply nth_error_Some; congruence|]. congruence.
Qed.

Lemma make_dist_iff name vals dims n : NoDup (od_keys vals) -> vals <> [] -> naxes dims n ->
  (exists d, make_dist name vals (Some dims) = Ok d) <-> describes vals dims n.
Proof.
  intros ND NE NA. apply naxes_iff in NA.
  assert (ND' : NoDup (od_keys (cleaned vals))) by (rewrite cleaned_keys; exact ND).
  assert (U : make_dist name vals (Some dims) =
    let! vals1 := clean_vals vals in
    let! st := fold_res (dims_step false) vals1 (mkDS vals1 dims (ndim_of_dims dims) (repeat None (ndim_of_dims dims)) [] 0) in
    let! shp := full_shape (s_shape st) in
    Ok (mkDist name (s_vals st) (s_dims st) (Some (s_ndim st)) (s_sizes st) shp
          (Some (prod_list shp)) (map (fun kv => issingleton (snd kv)) vals1)
          (Some (forallb (fun b => b) (map (fun kv => issingleton (snd kv)) vals1))))).
  { unfold make_dist. destruct vals; [contradiction|reflexivity]. }
  rewrite U, NA. clear U. unfold describes. split.
  - intros (d & H). destruct (clean_vals vals) as [vals1|] eqn:CV; cbn [bind] in H; [|discriminate].
    pose proof (clean_inv _ _ CV) as ->.
    destruct (fold_res _ _ _) as [st|] eqn:FR; cbn [bind] in H; [|discriminate].
    destruct (full_shape (s_shape st)) as [shp|] eqn:FS; cbn [bind] in H; [|discriminate]. clear H.
    destruct (loop_inv _ _ _ ND' _ FR) as [F (K & Hn & Ls & Hout & Hin & Hsh)].
    split; [|split].
    + apply (proj1 (clean_iff vals)). eauto.
    + apply fits_describes; [exact ND|exact F].
    + intros j J. destruct (Hsh j J) as (o & A & B). apply full_shape_inv in FS. rewrite FS in A.
      rewrite nth_error_map in A. destruct (nth_error shp j) as [s|]; cbn in A; [|discriminate]. injection A as <-.
      cbn in B. destruct B as (l & k & a & r & E & Sh & Ts & On & _).
      assert (G : od_get (cleaned vals) k = Some (VArr a)).
      { apply od_in_get; [exact ND'|]. rewrite E. apply in_or_app. cbn. auto. }
      destruct (F k (VArr a)) as [[C _]|(a0 & j0 & C & O1 & _)].
      * apply od_get_in. exact G.
      * rewrite arr_not_singleton in C by exact Sh. discriminate.
      * injection C as <-. exists k, a. split; [split; [apply column_cleaned; exact G|exact O1]|exact On].
  - intros (A & B & C). destruct (proj2 (clean_iff vals) A) as (vals1 & CV). rewrite CV. cbn [bind].
    pose proof (clean_inv _ _ CV) as ->.
    destruct (loop_ok (cleaned vals) dims n ND') as (st & FR & (K & Hn & Ls & Hout & Hin & Hsh)).
    { apply fits_describes; auto. }
    rewrite FR. cbn [bind].
    destruct (full_shape_some (s_shape st)) as (shp & FS).
    { apply nth_error_all. intros j J. rewrite Ls in J. destruct (Hsh j J) as (o & E & L). exists o. split; [exact E|].
      apply (last_on_some vals dims n j ND o L (C j J)). }
    rewrite FS. cbn. eauto.
Qed.

Lemma make_dist_result name vals dims n d : NoDup (od_keys vals) -> vals <> [] -> naxes dims n ->
  make_dist name vals (Some dims) = Ok d ->
  d_name d = name /\ d_keylist d = od_keys vals /\ d_ndim d = Some n /\ length (d_shape d) = n /\
  d_size d = Some (prod_list (d_shape d)) /\
  (forall k v, od_get vals k = Some v -> scalar_value v ->
     od_get (d_vals d) k = Some (kept v) /\ od_get (d_dims d) k = Some None) /\
  (forall k a j, column vals k a -> on_axis n dims k j ->
     od_get (d_dims d) k = od_get dims k /\
     exists a', od_get (d_vals d) k = Some (VArr a') /\ shape a' = along n j (tsize a) /\ to_list a' = to_list a) /\
  (forall j, j < n -> exists k a, column vals k a /\ on_axis n dims k j /\
     nth_error (d_shape d) j = Some (tsize a) /\
     forall k' a', column vals k' a' -> on_axis n dims k' j -> ~ after vals k' k).
Proof.
  intros ND NE NA H. apply naxes_iff in NA.
  assert (ND' : NoDup (od_keys (cleaned vals))) by (rewrite cleaned_keys; exact ND).
  unfold make_dist in H. destruct vals as [|kv0 vals0] eqn:EV; [contradiction|]. rewrite <- EV in *. clear NE.
  destruct (clean_vals vals) as [vals1|] eqn:CV; cbn [bind] in H; [|discriminate].
  pose proof (clean_inv _ _ CV) as ->. rewrite NA in H.
  destruct (fold_res _ _ _) as [st|] eqn:FR; cbn [bind] in H; [|discriminate].
  destruct (full_shape (s_shape st)) as [shp|] eqn:FS; cbn [bind] in H; [|discriminate]. injection H as <-.
  destruct (loop_inv _ _ _ ND' _ FR) as [F (K & Hn & Ls & Hout & Hin & Hsh)].
  cbn [d_name d_keylist d_vals d_dims d_ndim d_shape d_size]. apply full_shape_inv in FS.
  split; [reflexivity|]. split; [unfold d_keylist; cbn [d_vals]; rewrite K; apply cleaned_keys|].
  split; [rewrite Hn; reflexivity|]. split; [rewrite <- Ls, FS, map_length; reflexivity|].
  split; [reflexivity|]. split; [|split].
  - intros k v G SV. apply kept_sing in SV.
    assert (I : In (k, kept v) (cleaned vals)) by (apply od_get_in; rewrite od_get_kept, G; reflexivity).
    destruct (Hin k (kept v) I) as [(_ & _ & A & B)|(a & j & a' & A & [B _] & _)]; [auto|].
    rewrite A in SV. rewrite arr_not_singleton in SV by exact B. discriminate.
  - intros k a j [G OA] O.
    assert (I : In (k, VArr a) (cleaned vals)) by (apply od_get_in, column_cleaned; exact G).
    destruct (Hin k (VArr a) I) as [(C & _)|(a0 & j0 & a' & A & _ & O' & B1 & B2 & B3 & B4)].
    + rewrite arr_not_singleton in C by apply OA. discriminate.
    + injection A as <-. assert (j0 = j) by (eapply on_axis_fun; eauto). subst j0.
      split; [exact B4|]. exists a'. split; [exact B1|]. split; [|exact B3]. rewrite B2.
      unfold along, axis_shape. apply set_nth_repeat. destruct O as (dz & _ & _ & J). exact J.
  - intros j J. destruct (Hsh j J) as (o & A & B). rewrite FS, nth_error_map in A.
    destruct (nth_error shp j) as [s|]; cbn in A; [|discriminate]. injection A as <-.
    cbn in B. destruct B as (l & k & a & r & E & Sh & Ts & On & Nr).
    assert (G : od_get (cleaned vals) k = Some (VArr a)).
    { apply od_in_get; [exact ND'|]. rewrite E. apply in_or_app. cbn. auto. }
    assert (OA : one_axis a).
    { destruct (F k (VArr a)) as [[C _]|(a0 & j0 & C & O1 & _)].
      - apply od_get_in. exact G.
      - rewrite arr_not_singleton in C by exact Sh. discriminate.
      - injection C as <-. exact O1. }
    exists k, a. split; [split; [apply column_cleaned; exact G|exact OA]|]. split; [exact On|]. split; [congruence|].
    intros k' a' [G' [Sh' _]] O' (l' & m' & r' & E').
    apply column_cleaned in G'. apply od_get_in in G'.
    apply (Nr k' a'); [|exact Sh'|exact O'].
    (* k' is in r *)
    assert (EK : od_keys vals = od_keys l ++ k :: od_keys r).
    { rewrite <- (cleaned_keys vals), E. unfold od_keys. rewrite map_app. reflexivity. }
    assert (EQ : od_keys l = l' /\ od_keys r = (m' ++ k' :: r')%list).
    { rewrite EK in E'. rewrite EK in ND. clear -E' ND. revert l' E'.
      induction (od_keys l) as [|x ol IH]; intros [|y l'] E'; cbn in *.
      - injection E' as E'. auto.
      - injection E' as <- E'. exfalso. inversion ND as [|? ? N1 N2]; subst.
        apply N1. rewrite E'. apply in_or_app. cbn. auto.
      - injection E' as <- E'. exfalso. inversion ND as [|? ? N1 N2]; subst.
        apply N1. apply in_or_app. cbn. auto.
      - injection E' as <- E'. inversion ND as [|? ? N1 N2]; subst.
        destruct (IH N2 l' E') as [-> ->]. auto. }
    destruct EQ as [_ ER]. rewrite E in G'. apply in_app_iff in G'.
    destruct G' as [G'|[G'|G']].
    + exfalso. apply (in_map fst) in G'. cbn in G'. rewrite EK, ER in ND. 
      apply nodup_app_iff in ND. destruct ND as (_ & _ & D). apply (D k' G'). right. apply in_or_app. cbn. auto.
    + exfalso. injection G' as E1 _. rewrite EK, ER in ND. apply nodup_app_iff in ND. destruct ND as (_ & N2 & _).
      inversion N2 as [|? ? N3 _]; subst. apply N3. apply in_or_app. cbn. auto.
    + exact G'.
Qed.

(** *** the loop without dims *)
Section Loop2.
Variables (vals : odict (value T)).
Hypothesis ND : NoDup (od_keys vals).

Definition fits2 v : Prop := issingleton v = true \/ exists a, v = VArr a /\ one_axis a.

Definition Inv2 (pre : list (string * value T)) (st : @dstate T) : Prop :=
  od_keys (s_vals st) = od_keys vals /\ s_ndim st = length (columns pre) /\ s_count st = length (columns pre) /\
  length (s_shape st) = length (columns pre) /\
  (forall k, ~ In k (od_keys pre) -> od_get (s_vals st) k = od_get vals k /\ od_get (s_dims st) k = None) /\
  (forall k v, In (k, v) pre -> issingleton v = true -> od_get (s_vals st) k = Some v /\ od_get (s_dims st) k = Some None) /\
  (forall k a, In (k, VArr a) pre -> shape a <> [] -> exists j a', nth_error (columns pre) j = Some k /\
     od_get (s_dims st) k = Some (Some (Z.of_nat j)) /\ od_get (s_vals st) k = Some (VArr a') /\
     shape a' = along (S j) j (tsize a) /\ to_list a' = to_list a /\
     nth_error (s_shape st) j = Some (Some (tsize a))).

Lemma columns_app pre post : columns (pre ++ post) = (@columns T pre ++ columns post)%list.
Proof. unfold columns. rewrite filter_app, map_app. reflexivity. Qed.

Lemma columns_in (l : list (string * value T)) k : In k (columns l) <-> exists a, In (k, VArr a) l /\ shape a <> [].
Proof.
  unfold columns. rewrite in_map_iff. split.
  - intros ([k' v] & <- & I). apply filter_In in I. destruct I as [I C]. cbn [snd fst] in *.
    destruct v as [| | |a|]; try discriminate. exists a. split; [exact I|]. intros E. unfold ndim in C. rewrite E in C. discriminate.
  - intros (a & I & S). exists (k, VArr a). split; [reflexivity|]. apply filter_In. split; [exact I|].
    cbn. unfold ndim. destruct (shape a); [contradiction|reflexivity].
Qed.

Lemma loop2_step pre k v post st :
  vals = (pre ++ (k, v) :: post)%list -> Inv2 pre st ->
  (fits2 v -> exists st', dims_step true st (k, v) = Ok st') /\
  (forall st', dims_step true st (k, v) = Ok st' -> fits2 v /\ Inv2 (pre ++ [(k, v)]) st').
Proof.
  intros E (K & Hn & Hc & Ls & Hout & Hsc & Har).
  assert (Kp : ~ In k (od_keys pre)).
  { rewrite E in ND. unfold od_keys in ND. rewrite map_app in ND. cbn in ND.
    apply NoDup_remove_2 in ND. rewrite in_app_iff in ND. unfold od_keys. tauto. }
  assert (Gv : od_get vals k = Some v).
  { apply od_in_get; auto. rewrite E. apply in_or_app. cbn. auto. }
  assert (Kv : In k (od_keys vals)) by (eapply od_get_some_key; eauto).
  destruct (Hout k Kp) as [Gsv Gsd].
  assert (KS : forall x, In x (od_keys (pre ++ [(k, v)])) <-> In x (od_keys pre) \/ x = k).
  { intros x. unfold od_keys. rewrite map_app, in_app_iff. cbn. intuition congruence. }
  assert (PK : forall k' v', In (k', v') pre -> k' <> k).
  { intros k' v' I ->. apply Kp. apply in_map_iff. exists (k, v'). auto. }
  unfold dims_step. cbn [fst snd]. destruct (issingleton v) eqn:SV.
  - split; [eauto|]. intros st' H. injection H as <-. split; [left; exact SV|].
    assert (CE : columns (pre ++ [(k, v)]) = columns pre).
    { rewrite columns_app. replace (columns [(k, v)]) with (@nil string); [apply app_nil_r|].
      unfold columns. cbn. destruct v as [| | |a|]; try reflexivity. unfold ndim. unfold issingleton in SV. cbn in SV.
      destruct (shape a); [reflexivity|discriminate]. }
    unfold Inv2. cbn [s_vals s_dims s_ndim s_shape s_count]. rewrite CE.
    do 4 (split; [auto; fail|]). split; [|split].
    + intros x Hx. rewrite KS in Hx. rewrite od_get_set_ne by (intros ->; tauto). apply Hout. tauto.
    + intros k' v' I S'. apply in_app_iff in I. destruct I as [I|[I|[]]].
      * rewrite od_get_set_ne by (intros C; apply (PK _ _ I); auto). apply (Hsc k' v' I S').
      * injection I as <- <-. rewrite od_get_set_eq, Gsv. auto.
    + intros k' a I S'. apply in_app_iff in I. destruct I as [I|[I|[]]].
      * rewrite od_get_set_ne by (intros C; apply (PK _ _ I); auto). apply (Har k' a I S').
      * injection I as <- ->. rewrite arr_not_singleton in SV by exact S'. discriminate.
  - destruct v as [x|s|s|a|]; try (split; [intros [C|(a & C & _)]; congruence|intros st' C; discriminate]).
    cbn zeta.
    assert (SH : shape a <> []). { intros C. unfold issingleton in SV. cbn in SV. rewrite C in SV. discriminate. }
    destruct (Nat.eqb_spec (tsize a) (list_max (shape a))) as [Ma|Ma].
    2:{ cbn [assert_ bind]. split; [|discriminate].
        intros [C|(a' & C & [_ M])]; [congruence|]. injection C as <-. contradiction. }
    cbn [assert_ bind]. rewrite Ls, Hc, Nat.eqb_refl. cbn [bind].
    rewrite od_get_set_eq. rewrite app_length, Ls. cbn [length].
    set (m := length (columns pre)) in *. rewrite !py_indexR_nat by lia. cbn [bind].
    replace (m + 1) with (S m) by lia.
    destruct (regrid (S m) m a (Nat.lt_succ_diag_r m)) as (a' & Q1 & Q2 & Q3). rewrite Q1. cbn [bind].
    split; [eauto|]. intros st' H. injection H as <-. split; [right; exists a; repeat split; auto|].
    assert (CE : columns (pre ++ [(k, VArr a)]) = (columns pre ++ [k])%list).
    { rewrite columns_app. f_equal. unfold columns. cbn. unfold ndim. destruct (shape a); [contradiction|reflexivity]. }
    unfold Inv2; cbn [s_vals s_dims s_ndim s_shape s_count]. rewrite CE, app_length. cbn [length]. fold m.
    split; [rewrite od_keys_set_old; [exact K|rewrite K; exact Kv]|]. split; [lia|]. split; [lia|].
    split; [rewrite set_nth_length, app_length; cbn; lia|]. split; [|split].
    + intros y Hy. rewrite KS in Hy. rewrite !od_get_set_ne by (intros ->; tauto). apply Hout. tauto.
    + intros k' v' I S'. apply in_app_iff in I. destruct I as [I|[I|[]]].
      * rewrite !od_get_set_ne by (intros C; apply (PK _ _ I); auto). apply (Hsc k' v' I S').
      * injection I as <- <-. congruence.
    + intros k' b I S'. apply in_app_iff in I. destruct I as [I|[I|[]]].
      * rewrite !od_get_set_ne by (intros C; apply (PK _ _ I); auto).
        destruct (Har k' b I S') as (j & b' & B1 & B2 & B3 & B4 & B5 & B6). exists j, b'.
        assert (J : j < m) by (apply nth_error_Some; congruence).
        rewrite nth_error_app1 by exact J. do 5 (split; [auto; fail|]).
        rewrite nth_error_set_nth_ne by lia. rewrite nth_error_app1 by lia. exact B6.
      * injection I as <- <-. exists m, a'. rewrite !od_get_set_eq.
        rewrite nth_error_app2 by lia. rewrite Nat.sub_diag. do 3 (split; [auto; fail|]).
        split; [rewrite Q2; unfold axis_shape, along; apply set_nth_repeat; lia|]. split; [exact Q3|].
        apply nth_error_set_nth_eq. rewrite app_length. cbn. lia.
Qed.

Lemma Inv20 : Inv2 [] (mkDS vals [] 0 [] [] 0).
Proof.
  unfold Inv2; cbn. do 4 (split; [auto; fail|]). split; [auto|]. split; [intros k v []|intros k a []].
Qed.

Lemma loop2_ok : (forall k v, In (k, v) vals -> fits2 v) ->
  exists st, fold_res (dims_step true) vals (mkDS vals [] 0 [] [] 0) = Ok st /\ Inv2 vals st.
Proof.
  intros H. apply fold_res_ok; [apply Inv20|]. intros pre [k v] post st E P.
  destruct (loop2_step pre k v post st E P) as [A B].
  destruct A as (st' & E'). { apply (H k). rewrite E. apply in_or_app. cbn. auto. }
  exists st'. split; [exact E'|]. apply B. exact E'.
Qed.

Lemma loop2_inv st : fold_res (dims_step true) vals (mkDS vals [] 0 [] [] 0) = Ok st ->
  (forall k v, In (k, v) vals -> fits2 v) /\ Inv2 vals st.
Proof.
  intros H.
  pose (P := fun (pre : list (string * value T)) st => (forall k v, In (k, v) pre -> fits2 v) /\ Inv2 pre st).
  change (P vals st). refine (@fold_res_inv _ _ (dims_step true) P vals _ st _ _ H).
  - split; [intros k v []|apply Inv20].
  - intros pre [k v] post s1 s2 E [Q1 Q2] E2.
    destruct (loop2_step pre k v post s1 E Q2) as [_ B]. destruct (B s2 E2) as [B1 B2]. split; [|exact B2].
    intros k' v' I. apply in_app_iff in I. destruct I as [I|[I|[]]]; [eauto|]. injection I as <- <-. exact B1.
Qed.
End Loop2.

Lemma columns_cleaned vals : columns (cleaned vals) = columns vals.
Proof.
  induction vals as [|[k v] vals IH]; [reflexivity|]. unfold columns in *. cbn [map filter fst snd].
  assert (E : match kept v with VArr a => negb (ndim a =? 0) | _ => false end =
              match v with VArr a => negb (ndim a =? 0) | _ => false end).
  { destruct v as [| |[|[] []]| |]; reflexivity. }
  rewrite E. destruct (match v with VArr a => _ | _ => _ end); cbn; rewrite IH; reflexivity.
Qed.

Lemma make_dist_none_unfold name vals : vals <> [] -> make_dist name vals None =
    let! vals1 := clean_vals vals in
    let! st := fold_res (dims_step true) vals1 (mkDS vals1 [] 0 [] [] 0) in
    let! shp := full_shape (s_shape st) in
    Ok (mkDist name (s_vals st) (s_dims st) (Some (s_ndim st)) (s_sizes st) shp
          (Some (prod_list shp)) (map (fun kv => issingleton (snd kv)) vals1)
          (Some (forallb (fun b => b) (map (fun kv => issingleton (snd kv)) vals1)))).
Proof. unfold make_dist. destruct vals; [contradiction|reflexivity]. Qed.

Lemma fits2_describes vals : NoDup (od_keys vals) ->
  (forall k v, In (k, v) (cleaned vals) -> fits2 v) <->
  (forall k v, od_get vals k = Some v -> scalar_value v \/ exists a, v = VArr a /\ one_axis a).
Proof.
  intros ND. split.
  - intros H k v G. destruct (H k (kept v)) as [A|(a & A & B)].
    + apply od_get_in. rewrite od_get_kept, G. reflexivity.
    + left. apply kept_sing. exact A.
    + right. apply (proj1 (kept_arr v a)) in A. eauto.
  - intros H k v I. apply od_in_get in I; [|rewrite cleaned_keys; exact ND].
    rewrite od_get_kept in I. destruct (od_get vals k) as [w|] eqn:G; [|discriminate]. cbn in I. injection I as <-.
    destruct (H k w G) as [A|(a & -> & B)].
    + left. apply kept_sing. exact A.
    + right. exists a. auto.
Qed.

Lemma shape_full vals st : NoDup (od_keys vals) -> Inv2 vals vals st -> exists shp, full_shape (s_shape st) = Ok shp.
Proof.
  intros ND (K & Hn & Hc & Ls & Hout & Hsc & Har). apply full_shape_some. apply nth_error_all.
  intros j J. rewrite Ls in J. destruct (nth_error (columns vals) j) as [k|] eqn:E; [|apply nth_error_None in E; lia].
  assert (I : In k (columns vals)) by (eapply nth_error_In; eauto).
  apply columns_in in I. destruct I as (a & I & S). destruct (Har k a I S) as (j' & a' & B1 & _ & _ & _ & _ & B6).
  assert (NC : NoDup (columns vals)).
  { clear -ND. unfold columns. induction vals as [|[k v] vals IH]; cbn [filter map]; [constructor|].
    inversion ND as [|? ? N1 N2]; subst. specialize (IH N2).
    destruct (match snd (k, v) with VArr a => _ | _ => _ end); [|exact IH]. cbn [map fst]. constructor; [|exact IH].
    intros C. apply N1. apply in_map_iff in C. destruct C as (x & <- & C). apply filter_In in C. apply in_map. apply C. }
  assert (j' = j) by (eapply nth_error_inj; eauto). subst j'. eexists. split; [exact B6|discriminate].
Qed.

Lemma make_dist_none name vals : NoDup (od_keys vals) -> vals <> [] ->
  ((exists d, make_dist name vals None = Ok d) <->
   (forall k, In k (od_keys vals) -> ~ In k ["attrs"; "prob"; "pscale"]%string) /\
   (forall k v, od_get vals k = Some v -> scalar_value v \/ exists a, v = VArr a /\ one_axis a)) /\
  (forall d, make_dist name vals None = Ok d ->
    d_name d = name /\ d_keylist d = od_keys vals /\ d_ndim d = Some (length (columns vals)) /\
    length (d_shape d) = length (columns vals) /\ d_size d = Some (prod_list (d_shape d)) /\
    (forall k v, od_get vals k = Some v -> scalar_value v ->
       od_get (d_vals d) k = Some (kept v) /\ od_get (d_dims d) k = Some None) /\
    (forall j k, nth_error (columns vals) j = Some k ->
       exists a a', column vals k a /\ od_get (d_dims d) k = Some (Some (Z.of_nat j)) /\
         nth_error (d_shape d) j = Some (tsize a) /\
         od_get (d_vals d) k = Some (VArr a') /\ shape a' = along (S j) j (tsize a) /\ to_list a' = to_list a)).
Proof.
  intros ND NE.
  assert (ND' : NoDup (od_keys (cleaned vals))) by (rewrite cleaned_keys; exact ND).
  rewrite (make_dist_none_unfold name vals NE). split; [split|].
  - intros (d & H). destruct (clean_vals vals) as [vals1|] eqn:CV; cbn [bind] in H; [|discriminate].
    pose proof (clean_inv _ _ CV) as ->.
    destruct (fold_res _ _ _) as [st|] eqn:FR; cbn [bind] in H; [|discriminate].
    destruct (loop2_inv _ ND' _ FR) as [F _].
    split; [apply (proj1 (clean_iff vals)); eauto|apply fits2_describes; assumption].
  - intros (A & B). destruct (proj2 (clean_iff vals) A) as (vals1 & CV). rewrite CV. cbn [bind].
    pose proof (clean_inv _ _ CV) as ->.
    destruct (loop2_ok (cleaned vals) ND') as (st & FR & I).
    { apply fits2_describes; auto. }
    rewrite FR. cbn [bind]. destruct (shape_full _ _ ND' I) as (shp & FS). rewrite FS. cbn. eauto.
  - intros d H. destruct (clean_vals vals) as [vals1|] eqn:CV; cbn [bind] in H; [|discriminate].
    pose proof (clean_inv _ _ CV) as ->.
    destruct (fold_res _ _ _) as [st|] eqn:FR; cbn [bind] in H; [|discriminate].
    destruct (full_shape (s_shape st)) as [shp|] eqn:FS; cbn [bind] in H; [|discriminate]. injection H as <-.
    destruct (loop2_inv _ ND' _ FR) as [F (K & Hn & Hc & Ls & Hout & Hsc & Har)].
    cbn [d_name d_keylist d_vals d_dims d_ndim d_shape d_size]. apply full_shape_inv in FS.
    rewrite columns_cleaned in *.
    split; [reflexivity|]. split; [unfold d_keylist; cbn [d_vals]; rewrite K; apply cleaned_keys|].
    split; [rewrite Hn; reflexivity|]. split; [rewrite <- Ls, FS, map_length; reflexivity|].
    split; [reflexivity|]. split.
    + intros k v G SV. apply kept_sing in SV. apply (Hsc k (kept v)); [|exact SV].
      apply od_get_in. rewrite od_get_kept, G. reflexivity.
    + intros j k E. assert (I : In k (columns vals)) by (eapply nth_error_In; eauto).
      rewrite <- columns_cleaned in I. apply columns_in in I. destruct I as (a & I & S).
      destruct (Har k a I S) as (j' & a' & B1 & B2 & B3 & B4 & B5 & B6).
      assert (G : od_get vals k = Some (VArr a)) by (apply column_cleaned, od_in_get; assumption).
      assert (j' = j).
      { assert (NC : NoDup (columns vals)).
        { clear -ND. unfold columns. induction vals as [|[k v] l IH]; cbn [filter map]; [constructor|].
          inversion ND as [|? ? N1 N2]; subst. specialize (IH N2).
          destruct (match snd (k, v) with VArr a => _ | _ => _ end); [|exact IH]. cbn [map fst]. constructor; [|exact IH].
          intros C. apply N1. apply in_map_iff in C. destruct C as (x & <- & C). apply filter_In in C. apply in_map. apply C. }
        eapply nth_error_inj; eauto. }
      subst j'. exists a, a'. split.
      { split; [exact G|]. destruct (F k (VArr a) I) as [C|(a0 & C & O)].
        - rewrite arr_not_singleton in C by exact S. discriminate.
        - injection C as <-. exact O. }
      split; [exact B2|]. split; [|auto]. rewrite FS, nth_error_map in B6.
      destruct (nth_error shp j); cbn in B6; congruence.
Qed.

Lemma make_dist_distinct name vals dims n d : NoDup (od_keys vals) -> vals <> [] -> naxes dims n ->
  (forall k k' a a' j, column vals k a -> column vals k' a' -> on_axis n dims k j -> on_axis n dims k' j -> k = k') ->
  make_dist name vals (Some dims) = Ok d ->
  forall k a j, column vals k a -> on_axis n dims k j -> nth_error (d_shape d) j = Some (tsize a).
Proof.
  intros ND NE NA DJ H k a j C O.
  destruct (make_dist_result name vals dims n d ND NE NA H) as (_ & _ & _ & _ & _ & _ & _ & Hs).
  assert (J : j < n) by (destruct O as (z & _ & _ & J); exact J).
  destruct (Hs j J) as (k' & a' & C' & O' & S & _).
  assert (k = k') by (eapply DJ; eauto). subst k'.
  destruct C as [C _], C' as [C' _]. rewrite C in C'. injection C' as <-. exact S.
Qed.

Lemma after_total vals k k' : In k (od_keys vals) -> In k' (od_keys vals) -> k = k' \/ after vals k k' \/ after vals k' k.
Proof.
  unfold after. intros I I'. apply in_split in I. destruct I as (l & r & E). rewrite E in *.
  apply in_app_iff in I'. destruct I' as [I'|[I'|I']]; [|auto|].
  - apply in_split in I'. destruct I' as (l1 & l2 & ->). right; left. exists l1, l2, r. rewrite <- app_assoc. reflexivity.
  - apply in_split in I'. destruct I' as (l1 & l2 & ->). right; right. exists l, l1, l2. reflexivity.
Qed.

Lemma make_dist_shared name vals dims n k k' a a' j : NoDup (od_keys vals) -> naxes dims n ->
  describes vals dims n -> column vals k a -> column vals k' a' -> on_axis n dims k j -> on_axis n dims k' j ->
  (forall x b, column vals x b -> on_axis n dims x j -> x = k \/ x = k') -> after vals k' k ->
  exists d, make_dist name vals (Some dims) = Ok d /\ nth_error (d_shape d) j = Some (tsize a').
Proof.
  intros ND NA D C C' O O' Only Af.
  assert (NE : vals <> []). { intros ->. destruct C as [C _]. discriminate. }
  destruct (proj2 (make_dist_iff name vals dims n ND NE NA) D) as (d & E). exists d. split; [exact E|].
  destruct (make_dist_result name vals dims n d ND NE NA E) as (_ & _ & _ & _ & _ & _ & _ & Hs).
  assert (J : j < n) by (destruct O as (z & _ & _ & J); exact J).
  destruct (Hs j J) as (x & b & Cx & Ox & S & Last).
  destruct (Only x b Cx Ox) as [-> | ->].
  - exfalso. exact (Last k' a' C' O' Af).
  - destruct Cx as [G _], C' as [G' _]. rewrite G in G'. injection G' as <-. exact S.
Qed.

Lemma describes_resize vals dims n k a a' : column vals k a -> one_axis a' ->
  describes vals dims n -> describes (od_set vals k (VArr a')) dims n.
Proof.
  intros C O' (A & B & D).
  assert (Kk : In k (od_keys vals)) by (destruct C as [C _]; eapply od_get_some_key; eauto).
  assert (CC : forall x b, column vals x b -> x <> k -> column (od_set vals k (VArr a')) x b).
  { intros x b [G Ob] Nx. split; [rewrite od_get_set_ne; auto|exact Ob]. }
  assert (Ck : column (od_set vals k (VArr a')) k a') by (split; [apply od_get_set_eq|exact O']).
  split; [|split].
  - intros x Hx. apply A. rewrite od_keys_set_old in Hx; assumption.
  - intros x v G. destruct (String.string_dec x k) as [->|Nx].
    + rewrite od_get_set_eq in G. injection G as <-. right. destruct C as [C Oa].
      destruct (B k _ C) as [[SV _]|(b & j & Cb & Ob)].
      * exfalso. destruct SV as [SV|SV]; [|discriminate].
        rewrite arr_not_singleton in SV by apply Oa. discriminate.
      * exists a', j. auto.
    + rewrite od_get_set_ne in G by auto. destruct (B x v G) as [L|(b & j & Cb & Ob)]; [auto|].
      right. exists b, j. auto.
  - intros j J. destruct (D j J) as (x & b & Cb & Ob). destruct (String.string_dec x k) as [->|Nx]; eauto.
Qed.

Lemma make_dist_resize name vals dims n k a a' : NoDup (od_keys vals) -> naxes dims n ->
  column vals k a -> one_axis a' ->
  (exists d, make_dist name (od_set vals k (VArr a')) (Some dims) = Ok d) <->
  (exists d, make_dist name vals (Some dims) = Ok d).
Proof.
  intros ND NA C O'.
  assert (Kk : In k (od_keys vals)) by (destruct C as [C _]; eapply od_get_some_key; eauto).
  assert (NE : vals <> []) by (intros ->; contradiction).
  assert (NE' : od_set vals k (VArr a') <> []).
  { intros E. pose proof (od_get_set_eq vals k (VArr a')) as Q. rewrite E in Q. discriminate. }
  assert (ND' : NoDup (od_keys (od_set vals k (VArr a')))) by (rewrite od_keys_set_old; assumption).
  rewrite (make_dist_iff name _ dims n ND' NE' NA), (make_dist_iff name vals dims n ND NE NA).
  split; intros D; [|eapply describes_resize; eauto].
  assert (Ck : column (od_set vals k (VArr a')) k a') by (split; [apply od_get_set_eq|exact O']).
  destruct C as [C Oa]. pose proof (describes_resize _ _ _ _ _ a Ck Oa D) as Q.
  replace (od_set (od_set vals k (VArr a')) k (VArr a)) with vals in Q; [exact Q|].
  symmetry. apply od_ext_eq.
  - rewrite !od_keys_set_old; try assumption; try reflexivity; rewrite ?od_keys_set_old; assumption.
  - rewrite !od_keys_set_old; try assumption; try reflexivity; rewrite ?od_keys_set_old; assumption.
  - intros x _. destruct (String.string_dec x k) as [->|Nx].
    + rewrite od_get_set_eq. symmetry. exact C.
    + rewrite !od_get_set_ne by auto. reflexivity.
Qed.
End Proofs.

(** Reading a component of what was constructed. *)
Lemma made {A B} (r : result A) (f : A -> B) b :
  match r with Ok a => Some (f a) | Err _ => None end = Some b -> exists a, r = Ok a /\ f a = b.
Proof. destruct r; intros H; [injection H as <-; eauto|discriminate]. Qed.
