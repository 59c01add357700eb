(** Proofs about conditioned summaries and iterdict. *)
From Coq Require Import String ZArith Reals Bool Arith Lia List Permutation.
From Verif Require Import Base Num Tensor OdLemmas PScales PScales_Spec Names Distr PDModel PD_Spec PDUtils VariableModel RVModel FieldModel RFModel
  RF_Spec SDModel SPModel OmcModel Omc_Spec Omc_Thm SumModel Sum_Spec.
Import ListNotations.
Local Open Scope list_scope.

Section Cond.
Context {F : Fmt R}.

Lemma zmin_le l : forall d, (zmin_list l d <= d)%Z /\ (forall z, In z l -> (zmin_list l d <= z)%Z).
Proof.
  unfold zmin_list. induction l as [|x l IH]; intros d; cbn; [split; [lia|tauto]|]. destruct (IH (Z.min d x)) as [A B].
  split; [lia|]. intros z [<-|I]; [lia|auto].
Qed.
Lemma zmax_ge l : forall d, (d <= fold_left Z.max l d)%Z.
Proof. induction l as [|x l IH]; intros d; cbn; [lia|]. specialize (IH (Z.max d x)). lia. Qed.

Lemma lower_max dims dims' m : lower_dims dims = (dims', m) -> (0 <= m)%Z.
Proof.
  unfold lower_dims. destruct (some_dims dims) as [|z l]; intros H; injection H as _ <-; [lia|]. apply zmax_ge.
Qed.

(** A key at dimension 0 goes behind the others. *)
Lemma behind (p : pd R) keys dims m dims' k : append_key_dims p keys dims m = Ok dims' -> (0 <= m)%Z ->
  (forall k, In k keys -> od_get (p_dims p) k = Some (Some 0%Z)) -> In k keys ->
  exists n, od_get dims' k = Some (Some n) /\ (1 <= n)%Z.
Proof.
  intros H M D I. unfold append_key_dims in H. apply bind_ok in H as (kd & K & H). injection H as <-.
  assert (KD : kd = map (fun k => (k, Some 0%Z)) keys).
  { clear -K D. revert kd K D. induction keys as [|x l IH]; intros kd K D; cbn in K; [injection K as <-; reflexivity|].
    unfold od_getR in K. rewrite (D x (or_introl eq_refl)) in K. cbn in K. apply bind_ok in K as (r & Kr & K). injection K as <-.
    cbn. rewrite (IH r Kr) by (intros y Iy; apply D; right; exact Iy). reflexivity. }
  set (z := zmin_list _ _). assert (Z0 : (z <= 0)%Z).
  { subst z. apply (proj2 (zmin_le _ _)). rewrite KD. unfold some_dims. apply in_flat_map. exists (k, Some 0%Z). split; [apply in_map_iff; eauto|left; reflexivity]. }
  exists (0 - z + m + 1)%Z. split; [|lia]. clearbody z. subst kd. clear -I. revert dims.
  assert (G : forall keys dims, (In k keys \/ od_get dims k = Some (Some (0 - z + m + 1)%Z)) ->
    od_get (fold_left (fun acc e => match snd e with Some d => od_set acc (fst e) (Some (d - z + m + 1)%Z) | None => acc end)
      (map (fun k => (k, Some 0%Z)) keys) dims) k = Some (Some (0 - z + m + 1)%Z)).
  { clear. induction keys as [|x l IH]; intros dims [H|H]; [destruct H|exact H| |]; cbn [map fold_left fst snd]; apply IH.
    - destruct H as [->|H]; [right; apply od_get_set_eq|left; exact H].
    - destruct (string_dec k x) as [->|NE]; [right; apply od_get_set_eq|right; rewrite od_get_set_ne by exact NE; exact H]. }
  intros dims. apply G. left. exact I.
Qed.

Lemma conditioned_columns p ps marg cond pts y keys : columns p ps marg cond pts y -> marg <> [] ->
  (forall k, In k keys <-> In k marg) -> exists e, conditionalise p keys = Err e.
Proof.
  intros (KM & KC & KL & _ & V & t & PT & ST & _) NM KS. destruct (conditionalise p keys) as [q|e] eqn:E; [|eauto]. exfalso.
  unfold conditionalise in E. apply bind_ok in E as (u & _ & E). apply bind_ok in E as (st & _ & E).
  destruct (lower_dims (c_dims st)) as [dims1 m] eqn:LD. apply bind_ok in E as (dims & AK & E). apply bind_ok in E as (dv & _ & E).
  apply bind_ok in E as ([[od nd] sa] & CA & E). apply bind_ok in E as (t' & PR & E). apply bind_ok in E as (t1 & MV & _).
  unfold p_probR in PR. rewrite PT in PR. injection PR as <-.
  destruct marg as [|k0 marg]; [congruence|].
  assert (D : forall k, In k (k0 :: marg ++ cond) -> od_get (p_dims p) k = Some (Some 0%Z)).
  { intros k I. apply In_nth_error in I as (i & I). exact (proj1 (V i k I)). }
  assert (DK : forall k, In k keys -> od_get (p_dims p) k = Some (Some 0%Z)).
  { intros k I. apply D. apply KS in I. destruct I as [->|I]; [left; reflexivity|right; apply in_or_app; left; exact I]. }
  destruct (behind p keys dims1 m dims k0 AK (lower_max _ _ _ LD) DK (proj2 (KS k0) (or_introl eq_refl))) as (n & N & N1).
  assert (ND : nd = [n]).
  { unfold cond_axes in CA. rewrite KL in CA. cbn [app fold_res] in CA.
    unfold od_getR at 1 in CA. rewrite (D k0 (or_introl eq_refl)) in CA. cbn [bind Zmem existsb] in CA. unfold od_getR at 1 in CA. rewrite N in CA. cbn [bind] in CA.
    match type of CA with fold_res _ _ (_, _, ?s) = _ => generalize dependent s end. intros s CA.
    assert (G : forall l s, (forall k, In k l -> od_get (p_dims p) k = Some (Some 0%Z)) ->
      fold_res (fun acc key => let '(old, new, sum) := acc in let! od := od_getR (p_dims p) key in
        match od with None => Ok acc | Some o => if Zmem o old then Ok acc else
          let! nd := od_getR dims key in match nd with None => Err TypeError | Some n =>
            Ok (old ++ [o], new ++ [n], if negb (mem_str key keys) && od_mem (p_marg p) key then set_addZ sum n else sum) end end) l ([0%Z], [n], s) = Ok ([0%Z], [n], s)).
    { clear. induction l as [|k l IH]; intros s D; [reflexivity|]. cbn [fold_res]. unfold od_getR at 1. rewrite (D k (or_introl eq_refl)). cbn [bind Zmem existsb Z.eqb orb]. apply IH.
      intros x I. apply D. right. exact I. }
    rewrite G in CA by (intros k I; apply D; right; exact I). injection CA as _ <- _. reflexivity. }
  unfold moveaxis in MV. apply bind_ok in MV as (s & _ & MV). apply bind_ok in MV as (dd & X & _). rewrite ND in X.
  unfold norm_axes in X. cbn [map_res] in X. unfold norm_axis at 1, py_index, ndim in X. rewrite ST in X. cbn [length Z.of_nat] in X.
  rewrite (proj2 (Z.leb_le 0 n)) in X by lia. rewrite (proj2 (Z.ltb_ge n _)) in X by (cbn; lia). discriminate X.
Qed.

Lemma summary_cond {TR : Trunc R} (leafs roots : list (rv R)) h ps gd score ss pts keys : leafs <> [] ->
  Forall2 (sample_of (names_of leafs) (names_of roots) ps h gd score) ss pts -> Permutation keys (names_of leafs) ->
  ((exists sm, summarise_cond (@od_pd R) true keys (map inr ss) = Ok sm) <-> accepted h gd score pts = []).
Proof.
  intros NL H PK. destruct (summary_ok leafs roots h ps gd score ss pts NL H) as (sm & E & So & Sr & _ & M).
  unfold summarise_cond. rewrite E. cbn [bind]. rewrite So. cbn [cond_total bind].
  destruct (accepted h gd score pts) as [|a l] eqn:A.
  - destruct M as (-> & _ & -> & _). cbn. split; eauto.
  - split; [|discriminate]. intros (sm' & X). exfalso. destruct M as (p & q & EP & _ & _ & C & _). rewrite EP in X.
    destruct (conditioned_columns p ps (names_of leafs) (names_of roots) (a :: l) h keys C) as (e & Q).
    + destruct leafs; [congruence|discriminate].
    + intros k. split; apply Permutation_in; [exact PK|apply Permutation_sym; exact PK].
    + cbn [cond_total] in X. rewrite Q in X. discriminate X.
Qed.

Lemma dists_cond {TR : Trunc R} (leafs roots : list (rv R)) h ps (ds : list (pd R)) pts keys : leafs <> [] -> ds <> [] ->
  Forall2 (fun d x => stands_at d ps (names_of leafs) (names_of roots) x (h (map PF x))) ds pts -> Permutation keys (names_of leafs) ->
  (exists p, sum_dists keys false ds = Ok (Some p) /\ columns p ps (names_of leafs) (names_of roots) (map (fun x => (x, 0%R)) pts) h) /\
  (exists e, sum_dists keys true ds = Err e).
Proof.
  intros NL ND H PK.
  assert (X : exists p, summate ds = Ok (Some p) /\ columns p ps (names_of leafs) (names_of roots) (map (fun x => (x, 0%R)) pts) h).
  { destruct (total_columns (map (fun d => mkOD d []) ds) (map (fun x => (x, 0%R)) pts) (names_of leafs) (names_of roots) ps h) as (p & E & C).
    - destruct ds; [congruence|discriminate].
    - destruct leafs; [congruence|discriminate].
    - clear -H. induction H; constructor; auto.
    - exists p. split; [|exact C]. unfold total in E. rewrite map_map in E. cbn in E. rewrite map_id in E. exact E. }
  destruct X as (p & E & C). unfold sum_dists. rewrite E. cbn [bind]. split; [eauto|].
  destruct (conditioned_columns p ps _ _ _ h keys C) as (e & Q).
  - destruct leafs; [congruence|discriminate].
  - intros k. split; apply Permutation_in; [exact PK|apply Permutation_sym; exact PK].
  - exists e. cbn [cond_total]. rewrite Q. reflexivity.
Qed.
End Cond.

(** ** iterdict *)
Section Iter.
Context {V : Type}.
Implicit Types (d : odict V) (ds : list (odict V)).

Lemma iter_get order ds k : In k order ->
  od_get (map (fun k => (k, flat_map (fun d => match od_get d k with Some v => [v] | None => [] end) ds)) order) k =
  Some (flat_map (fun d => match od_get d k with Some v => [v] | None => [] end) ds).
Proof.
  induction order as [|x l IH]; intros I; [destruct I|]. cbn. destruct (String.eqb k x) eqn:Q; [apply String.eqb_eq in Q; subst; reflexivity|].
  destruct I as [->|I]; [rewrite String.eqb_refl in Q; discriminate|auto].
Qed.

Lemma gathered_is ds k vs : gathered k ds vs <-> vs = flat_map (fun d => match od_get d k with Some v => [v] | None => [] end) ds.
Proof.
  split.
  - induction 1 as [|d v ds vs G _ ->|d ds vs NI _ ->]; cbn; [reflexivity|rewrite G; reflexivity|].
    destruct (od_get d k) eqn:Q; [|reflexivity]. exfalso. apply NI. apply od_get_some_key in Q. exact Q.
  - intros ->. induction ds as [|d ds IH]; cbn; [constructor|]. destruct (od_get d k) as [v|] eqn:Q.
    + cbn. apply g_has; assumption.
    + cbn. apply g_not; [|exact IH]. apply od_get_none. exact Q.
Qed.

Lemma iter_ok ds order : ds <> [] -> orders ds order ->
  exists r, iterdict order ds = Ok r /\ od_keys r = order /\
    forall k vs, In k order -> (od_get r k = Some vs <-> gathered k ds vs).
Proof.
  intros NE (ND & _). destruct ds as [|d0 ds]; [congruence|]. eexists. split; [reflexivity|]. split.
  - unfold od_keys. rewrite map_map. cbn. apply map_id.
  - intros k vs I. rewrite (iter_get order (d0 :: ds) k I), gathered_is. split; congruence.
Qed.

Lemma gathered_none ds k vs : gathered k ds vs -> (forall d, In d ds -> ~ In k (od_keys d)) -> vs = [].
Proof.
  induction 1 as [|d v ds vs G H IH|d ds vs NI H IH]; intros A; [reflexivity| |].
  - exfalso. apply (A d (or_introl eq_refl)). apply od_get_some_key in G. exact G.
  - apply IH. intros x I. apply A. right. exact I.
Qed.

Lemma gathered_nth ds k vs : gathered k ds vs ->
  (forall i j d d', i <= j -> nth_error ds i = Some d -> nth_error ds j = Some d' -> In k (od_keys d') -> In k (od_keys d)) ->
  forall i d, nth_error ds i = Some d -> od_get d k = nth_error vs i.
Proof.
  induction 1 as [|d v ds vs G H IH|d ds vs NI H IH]; intros A i d' I.
  - destruct i; discriminate.
  - destruct i as [|i]; cbn in I |- *; [injection I as <-; exact G|]. apply IH; [|exact I].
    intros i1 j1 e e' L1 I1 J1. apply (A (S i1) (S j1) e e'); [lia|exact I1|exact J1].
  - assert (N : forall x, In x (d :: ds) -> ~ In k (od_keys x)).
    { intros x X C. apply In_nth_error in X as (j & J). apply NI. apply (A 0 j d x); [lia|reflexivity|exact J|exact C]. }
    rewrite (gathered_none ds k vs H) by (intros x X; apply N; right; exact X). apply nth_error_In in I. rewrite (proj2 (od_get_none d' k) (N d' I)).
    destruct i; reflexivity.
Qed.

(** The i-th value is that of the i-th dictionary for all keys exactly if no dictionary
    has a key that one before it lacks. *)
Lemma iter_aligned ds order r : orders ds order -> iterdict order ds = Ok r ->
  ((forall k vs i d, od_get r k = Some vs -> nth_error ds i = Some d -> od_get d k = nth_error vs i) <-> no_gaps ds).
Proof.
  intros OR E. assert (NE : ds <> []) by (destruct ds; [discriminate E|discriminate]).
  destruct (iter_ok ds order NE OR) as (r' & E' & KR & G). rewrite E in E'. injection E' as <-. destruct OR as (ND & OR).
  assert (IN : forall k vs, od_get r k = Some vs -> In k order) by (intros k vs Q; rewrite <- KR; apply od_get_some_key in Q; exact Q).
  split.
  - intros A k i j d d' L I J K. assert (Ko : In k order) by (apply OR; exists d'; split; [eapply nth_error_In; exact J|exact K]).
    set (vs := flat_map (fun d => match od_get d k with Some v => [v] | None => [] end) ds).
    assert (Q : od_get r k = Some vs) by (apply G; [exact Ko|apply gathered_is; reflexivity]).
    assert (J' := A k vs j d' Q J). assert (I' := A k vs i d Q I).
    destruct (od_get d' k) as [v'|] eqn:D'; [|apply od_get_none in D'; contradiction].
    assert (LV : j < length vs) by (apply nth_error_Some; congruence).
    destruct (nth_error vs i) as [v|] eqn:N; [apply od_get_some_key in I'; exact I'|]. apply nth_error_None in N. lia.
  - intros U k vs i d Q I. apply (gathered_nth ds k vs); [apply G; [eapply IN; exact Q|exact Q]| |exact I].
    intros i1 j1 e e' L1 I1 J1 K. exact (U k i1 j1 e e' L1 I1 J1 K).
Qed.

Lemma iter_empty order : iterdict order (@nil (odict V)) = Err TypeError.
Proof. reflexivity. Qed.
End Iter.
