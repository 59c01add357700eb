(** Proofs about parse_as_str_dict and sort_ordered_dict. *)
From Coq Require Import String ZArith Bool Arith Lia List Sorting.Sorted Sorting.Permutation.
From Verif Require Import Base OdLemmas Num Tensor Names SymModel Sym_Spec.
Import ListNotations.

(** ** parse_as_str_dict *)

Lemma sub_name_iff x s : sub_name x = Ok s <-> part_called x s.
Proof.
  split.
  - destruct x; cbn; intros H; inversion H; constructor.
  - intros H; destruct H; reflexivity.
Qed.

Lemma sub_names_iff l : forall ss, map_res sub_name l = Ok ss <-> Forall2 part_called l ss.
Proof.
  induction l as [|x l IH]; intros ss; cbn.
  - split; intros H; inversion H; subst; constructor.
  - split.
    + destruct (sub_name x) eqn:E; cbn; [|discriminate].
      destruct (map_res sub_name l) eqn:E'; cbn; [|discriminate].
      intros H; inversion H; subst. constructor; [apply sub_name_iff; auto|apply IH; auto].
    + intros H; inversion H; subst.
      rewrite (proj2 (sub_name_iff _ _) H2). cbn. rewrite (proj2 (IH _) H4). reflexivity.
Qed.

Lemma key_name_iff k s : key_name k = Ok s <-> key_called k s.
Proof.
  destruct k as [s'|x|l]; cbn.
  - split; intros H; inversion H; subst; constructor.
  - rewrite sub_name_iff. split; intros H; [constructor; auto|inversion H; auto].
  - split.
    + destruct (map_res sub_name l) eqn:E; cbn; [|discriminate].
      intros H; inversion H; subst. constructor. apply sub_names_iff; auto.
    + intros H; inversion H; subst. rewrite (proj2 (sub_names_iff _ _) H1). reflexivity.
Qed.

Lemma remapped_iff remap s s' : NoDup (od_keys remap) -> (remapped remap s = s' <-> renamed_to remap s s').
Proof.
  intros ND. unfold remapped, renamed_to. destruct (od_get remap s) as [t|] eqn:E.
  - split.
    + intros <-. left. apply od_get_in; auto.
    + intros [H|[H _]].
      * apply od_in_get in H; auto. congruence.
      * exfalso. apply H. eapply od_get_some_key; eauto.
  - split.
    + intros <-. right. split; auto. apply od_get_none; auto.
    + intros [H|[_ H]]; auto. apply od_in_get in H; auto. congruence.
Qed.

Section Parse.
Context {V : Type} (remap : odict string) (ND : NoDup (od_keys remap)).

Definition entry_ok (kv : xkey * V) (nv : string * V) : Prop :=
  exists s, key_called (fst kv) s /\ renamed_to remap s (fst nv) /\ snd nv = snd kv.

Lemma parse_dict_ok d : forall acc (r : odict V),
  fold_res (parse_entry remap) d acc = Ok r <-> exists ns, Forall2 entry_ok d ns /\ r = od_update acc ns.
Proof.
  induction d as [|[k v] d IH]; intros acc r; cbn.
  - split.
    + intros H; inversion H; subst. exists []. split; [constructor|reflexivity].
    + intros (ns & H & ->). inversion H; subst. reflexivity.
  - unfold parse_entry at 1. cbn. destruct (key_name k) as [s|err] eqn:E; cbn.
    + rewrite IH. split.
      * intros (ns & H & ->). exists ((remapped remap s, v) :: ns). split; [|reflexivity].
        constructor; auto. exists s. cbn. split; [apply key_name_iff; auto|]. split; auto.
        apply remapped_iff; auto.
      * intros (ns & H & ->). inversion H as [|? [n w] ? ns' (s' & K & R & W) H']; subst.
        exists ns'. split; auto. cbn in *. subst w.
        apply key_name_iff in K. apply remapped_iff in R; auto.
        assert (s' = s) by congruence. subst. reflexivity.
    + split; [discriminate|]. intros (ns & H & ->).
      inversion H as [|? [n w] ? ns' (s' & K & R & W) H']; subst.
      apply key_name_iff in K. cbn in K. congruence.
Qed.

Lemma parse_args_ok args : forall acc (r : odict V),
  fold_res (parse_arg remap) args acc = Ok r <-> exists l, entries remap args l /\ r = od_update acc l.
Proof.
  induction args as [|a args IH]; intros acc r; cbn.
  - split.
    + intros H; inversion H; subst. exists []. split; [constructor|reflexivity].
    + intros (ns & H & ->). inversion H; subst. reflexivity.
  - split.
    + destruct (parse_arg remap acc a) as [acc'|] eqn:E; cbn; [|discriminate].
      destruct a as [d|v]; cbn in E; [|discriminate].
      apply parse_dict_ok in E. destruct E as (ns & F & ->).
      rewrite IH. intros (l & H & ->). exists (ns ++ l)%list. split; [constructor; auto|].
      unfold od_update. rewrite fold_left_app. reflexivity.
    + intros (l & H & ->). inversion H as [|d ns args' l' F G]; subst. cbn.
      assert (E : fold_res (parse_entry remap) d acc = Ok (od_update acc ns))
        by (apply parse_dict_ok; eauto).
      rewrite E. cbn. apply IH. exists l'. split; auto.
      unfold od_update. rewrite fold_left_app. reflexivity.
Qed.

Lemma od_update_nodup (l d : odict V) : NoDup (od_keys d) -> NoDup (od_keys (od_update d l)).
Proof.
  revert d. induction l as [|[k v] l IH]; intros d H; cbn; auto.
  apply IH. apply od_keys_set_nodup; auto.
Qed.

Lemma last_given_cons (l : list (string * V)) k w n v :
  last_given ((k, w) :: l) n v <-> last_given l n v \/ (n = k /\ v = w /\ ~ In n (map fst l)).
Proof.
  split.
  - intros (l1 & l2 & E & H). destruct l1 as [|p l1]; cbn in E.
    + inversion E; subst. right. auto.
    + inversion E; subst. left. exists l1, l2. auto.
  - intros [(l1 & l2 & -> & H)|(-> & -> & H)].
    + exists ((k, w) :: l1), l2. auto.
    + exists [], l. auto.
Qed.

Lemma last_given_in (l : list (string * V)) n v : last_given l n v -> In n (map fst l).
Proof. intros (l1 & l2 & -> & H). rewrite map_app. apply in_or_app. right. left. reflexivity. Qed.

Lemma od_update_get (l : list (string * V)) : forall d n v,
  od_get (od_update d l) n = Some v <->
  last_given l n v \/ (~ In n (map fst l) /\ od_get d n = Some v).
Proof.
  induction l as [|[k w] l IH]; intros d n v; cbn.
  - split; [intros H; right; split; auto|].
    intros [(l1 & l2 & E & _)|[_ H]]; auto. destruct l1; discriminate.
  - fold (od_update (od_set d k w) l). rewrite IH, last_given_cons, od_get_set.
    destruct (String.eqb n k) eqn:E.
    + apply String.eqb_eq in E. subst. split.
      * intros [H|[H1 H2]]; [tauto|]. inversion H2; subst. left. right. auto.
      * intros [[H|(_ & -> & H)]|[H _]]; [tauto|auto|]. exfalso; apply H; auto.
    + apply String.eqb_neq in E. split.
      * intros [H|[H1 H2]]; [tauto|]. right. split; auto. intros [H|H]; [congruence|auto].
      * intros [[H|(-> & _)]|[H1 H2]]; [tauto|congruence|]. right. split; auto.
Qed.

Lemma parse_ok args (kwds d : odict V) : NoDup (od_keys kwds) ->
  parse_as_str_dict remap args kwds = Ok d ->
  NoDup (od_keys d) /\
  exists l, entries remap args l /\ forall n v, od_get d n = Some v <-> last_given (l ++ kwds)%list n v.
Proof.
  intros NK. unfold parse_as_str_dict. destruct args as [|a args].
  - intros H; inversion H; subst. split; auto. exists []. split; [constructor|]. cbn.
    intros n v. split.
    + intros G. apply od_get_in in G. apply in_split in G. destruct G as (l1 & l2 & ->).
      exists l1, l2. split; auto. unfold od_keys in NK. rewrite map_app in NK. cbn in NK.
      apply NoDup_remove_2 in NK. intros C. apply NK. apply in_or_app. auto.
    + intros (l1 & l2 & -> & _). apply od_in_get; auto. apply in_or_app. right. left. auto.
  - destruct (fold_res _ _ _) as [r|] eqn:E; cbn [bind]; [|discriminate].
    intros H; inversion H; subst. apply parse_args_ok in E. destruct E as (l & G & ->).
    split.
    + apply od_update_nodup, od_update_nodup. constructor.
    + exists l. split; auto. intros n v. unfold od_update. rewrite <- fold_left_app.
      fold (od_update (@nil (string * V)) (l ++ kwds)). rewrite od_update_get. cbn. split; [|auto].
      intros [Q|[_ Q]]; [auto|discriminate].
Qed.

Lemma parse_iff args (kwds : odict V) :
  (exists d, parse_as_str_dict remap args kwds = Ok d) <-> exists l, entries remap args l.
Proof.
  unfold parse_as_str_dict. destruct args as [|a args].
  - split; intros _; [exists []; constructor|eauto].
  - split.
    + intros (d & H). destruct (fold_res _ _ _) as [r|] eqn:E; cbn [bind] in H; [|discriminate].
      apply parse_args_ok in E. destruct E as (l & G & _). eauto.
    + intros (l & H).
      assert (E : fold_res (parse_arg remap) (a :: args) [] = Ok (od_update [] l))
        by (apply parse_args_ok; eauto).
      rewrite E. cbn [bind]. eauto.
Qed.

Lemma parse_plain args1 l v args2 (kwds : odict V) : entries remap args1 l ->
  parse_as_str_dict remap (args1 ++ XPlain v :: args2) kwds = Err AssertionError.
Proof.
  intros H. unfold parse_as_str_dict.
  assert (E : forall acc, fold_res (parse_arg remap) (args1 ++ XPlain v :: args2) acc = Err AssertionError).
  { clear kwds. induction H as [|d ns args l' F G IH]; intros acc; cbn [app fold_res parse_arg]; auto.
    assert (E : fold_res (parse_entry remap) d acc = Ok (od_update acc ns))
      by (apply parse_dict_ok; eauto).
    rewrite E. cbn [bind]. apply IH. }
  destruct (args1 ++ XPlain v :: args2)%list eqn:Q; [destruct args1; discriminate|].
  rewrite E. reflexivity.
Qed.

End Parse.

(** ** sort_ordered_dict *)

Lemma strict_up_sorted l : strict_up l = true -> StronglySorted lt l.
Proof.
  unfold strict_up. intros H. apply Sorted_StronglySorted; [intros x y z; lia|].
  induction l as [|x l IH]; [constructor|].
  destruct l as [|y l]; [repeat constructor|]. cbn in H.
  apply andb_true_iff in H. destruct H as [H1 H2]. apply Nat.ltb_lt in H1.
  constructor; [apply IH; exact H2|constructor; auto].
Qed.

Lemma sorted_strict_up l : StronglySorted lt l -> strict_up l = true.
Proof.
  induction l as [|x l IH]; [reflexivity|]. intros H. apply StronglySorted_inv in H. destruct H as [H1 H2].
  destruct l as [|y l]; [reflexivity|]. pose proof (IH H1) as Q. unfold strict_up in *. cbn [tl combine forallb fst snd] in *.
  apply Forall_inv in H2. rewrite (proj2 (Nat.ltb_lt _ _) H2). exact Q.
Qed.

Lemma sorted_lt_unique : forall l m, StronglySorted lt l -> StronglySorted lt m -> Permutation l m -> l = m.
Proof.
  induction l as [|x l IH]; intros m Sl Sm P.
  - apply Permutation_nil in P. auto.
  - destruct m as [|y m]; [apply Permutation_sym, Permutation_nil in P; discriminate|].
    inversion Sl; inversion Sm; subst.
    assert (x = y).
    { assert (I : In x (y :: m)) by (eapply Permutation_in; eauto; left; auto).
      assert (J : In y (x :: l)) by (eapply Permutation_in; [apply Permutation_sym; eauto|left; auto]).
      rewrite Forall_forall in *. destruct I as [|I]; auto. destruct J as [|J]; auto.
      apply H2 in J. apply H6 in I. lia. }
    subst. f_equal. apply IH; auto. eapply Permutation_cons_inv; eauto.
Qed.

Lemma seq_sorted n : forall s, StronglySorted lt (seq s n).
Proof.
  induction n as [|n IH]; intros s; cbn; constructor; auto.
  apply Forall_forall. intros x H. apply in_seq in H. lia.
Qed.

Lemma sorted_rev {A} (R : A -> A -> Prop) l : StronglySorted R l -> StronglySorted (fun x y => R y x) (rev l).
Proof.
  induction l as [|x l IH]; intros H; [constructor|]. inversion H; subst. cbn.
  assert (G : forall m, StronglySorted (fun x y => R y x) m -> Forall (R x) m ->
              StronglySorted (fun x y => R y x) (m ++ [x])).
  { induction m as [|y m IHm]; intros Sm Fm; cbn; [repeat constructor|].
    inversion Sm; inversion Fm; subst. constructor; auto.
    apply Forall_forall. intros z Hz. apply in_app_or in Hz. destruct Hz as [Hz|[<-|[]]]; auto.
    rewrite Forall_forall in H5. auto. }
  apply G; auto. apply Forall_forall. intros y Hy. apply in_rev in Hy. rewrite Forall_forall in H3. auto.
Qed.

Lemma sorted_map {A B} (f : A -> B) (R : B -> B -> Prop) l :
  StronglySorted (fun x y => R (f x) (f y)) l -> StronglySorted R (map f l).
Proof.
  induction l as [|x l IH]; intros H; cbn; [constructor|]. inversion H; subst. constructor; auto.
  apply Forall_forall. intros y Hy. apply in_map_iff in Hy. destruct Hy as (z & <- & Hz).
  rewrite Forall_forall in H3. auto.
Qed.

(** The ordered entries of a list, and a list with others put in their places. *)
Section Fill.
Context {A : Type}.
Implicit Types (d : odict A) (given : list (option Z)) (q : list ((string * A) * Z)).

Fixpoint picked d given : list ((string * A) * Z) :=
  match d, given with
  | kv :: d', Some z :: g' => (kv, z) :: picked d' g'
  | _ :: d', None :: g' => picked d' g'
  | _, _ => []
  end.

Fixpoint fill d given q : list ((string * A) * option Z) :=
  match d, given with
  | kv :: d', None :: g' => (kv, None) :: fill d' g' q
  | _ :: d', Some _ :: g' =>
      match q with (kv, z) :: q' => (kv, Some z) :: fill d' g' q' | [] => [] end
  | _, _ => []
  end.

Lemma fill_perm d : forall given q, length given = length d -> length q = length (picked d given) ->
  Permutation (fill d given q)
    (map (fun kz => (fst kz, Some (snd kz))) q ++ map (fun kv => (kv, None)) (map fst (filter (fun p => match snd p with None => true | _ => false end) (combine d given)))).
Proof.
  induction d as [|kv d IH]; intros given q L Q; destruct given as [|[z|] given]; try discriminate; cbn in *.
  - destruct q; [constructor|discriminate].
  - destruct q as [|[kv' z'] q]; [discriminate|]. cbn in *. constructor. apply IH; lia.
  - rewrite <- Permutation_middle. constructor. apply IH; lia.
Qed.

Lemma fill_self d : forall given, length given = length d -> fill d given (picked d given) = combine d given.
Proof.
  induction d as [|kv d IH]; intros [|[z|] given] L; try discriminate; cbn in *; auto.
  - f_equal. apply IH; lia.
  - f_equal. apply IH; lia.
Qed.

Lemma fill_length d : forall given q, length given = length d -> length q = length (picked d given) ->
  length (fill d given q) = length d.
Proof.
  induction d as [|kv d IH]; intros [|[z|] given] q L Q; try discriminate; cbn in *; auto.
  destruct q as [|[kv' z'] q]; [discriminate|]. cbn in *. f_equal. apply IH; lia.
Qed.

Lemma fill_none d : forall given q i, length given = length d -> length q = length (picked d given) ->
  nth_error given i = Some None -> exists kv, nth_error d i = Some kv /\ nth_error (fill d given q) i = Some (kv, None).
Proof.
  induction d as [|kv d IH]; intros [|[z|] given] q i L Q H; try discriminate; cbn in *.
  - destruct i; discriminate.
  - destruct q as [|[kv' z'] q]; [discriminate|]. destruct i as [|i]; [discriminate|]. cbn in *. apply IH; lia || auto.
  - destruct i as [|i]; cbn in *; [eauto|]. apply IH; lia || auto.
Qed.

Lemma fill_somes d : forall given q, length given = length d -> length q = length (picked d given) ->
  somes (map snd (fill d given q)) = map snd q.
Proof.
  induction d as [|kv d IH]; intros [|[z|] given] q L Q; try discriminate; cbn in *.
  - destruct q; [reflexivity|discriminate].
  - destruct q as [|[kv' z'] q]; [discriminate|]. cbn in *. f_equal. apply IH; lia.
  - apply IH; lia.
Qed.

Lemma place_fill (D : odict A) d : forall given q,
  length given = length d -> length q = length (picked d given) ->
  NoDup (od_keys D) -> incl d D -> incl (map fst q) D ->
  place_sorted D given (od_keys d) (map (fun kz => fst (fst kz)) q) = Ok (map fst (fill d given q)).
Proof.
  induction d as [|[k v] d IH]; intros [|[z|] given] q L Q ND I J; try discriminate; cbn in *.
  - reflexivity.
  - destruct q as [|[[k' v'] z'] q]; [discriminate|]. cbn.
    assert (G : od_getR D k' = Ok v') by (apply od_getR_ok, od_in_get; auto; apply J; left; auto).
    rewrite G. cbn. rewrite IH; auto; try lia.
    + intros x Hx. apply I. right; auto.
    + intros x Hx. apply J. right; auto.
  - assert (G : od_getR D k = Ok v) by (apply od_getR_ok, od_in_get; auto; apply I; left; auto).
    rewrite G. cbn. rewrite IH; auto; try lia. intros x Hx. apply I. right; auto.
Qed.

Lemma picked_pairs d : forall given,
  flat_map (fun kg : string * option Z => match snd kg with Some z => [(fst kg, z)] | None => [] end)
    (combine (od_keys d) given) = map (fun p => (fst (fst p), snd p)) (picked d given).
Proof.
  induction d as [|[k v] d IH]; intros [|[z|] given]; cbn; auto. f_equal. apply IH.
Qed.

Lemma picked_incl d : forall given, incl (map fst (picked d given)) d.
Proof.
  induction d as [|kv d IH]; intros [|[z|] given]; cbn; intros x Hx; try contradiction.
  - destruct Hx as [<-|Hx]; [left; auto|right; eapply IH; eauto].
  - right; eapply IH; eauto.
Qed.

Lemma nth_seq_map {B} (l : list B) x : map (fun i => nth i l x) (seq 0 (length l)) = l.
Proof.
  induction l as [|y l IH]; cbn; auto. f_equal. rewrite <- seq_shift, map_map. apply IH.
Qed.

Lemma map_combine_snd {B C} (l : list B) : forall (m : list C), length m = length l ->
  map fst (combine l m) = l /\ map snd (combine l m) = m.
Proof.
  induction l as [|b l IH]; intros [|c m] H; try discriminate; cbn; auto.
  destruct (IH m) as [H1 H2]; [cbn in H; lia|]. rewrite H1, H2. auto.
Qed.

Lemma combine_split_map {B C} (l : list (B * C)) : combine (map fst l) (map snd l) = l.
Proof. induction l as [|[b c] l IH]; cbn; congruence. Qed.

Lemma sort_list argsort d given reverse :
  sorting argsort -> NoDup (od_keys d) -> length given = length d ->
  exists r ranks,
    sort_ordered_dict argsort d (OrdList given) reverse = Ok r /\ length ranks = length r /\
    Permutation (combine d given) (combine r ranks) /\
    StronglySorted (along_order reverse) (somes ranks) /\
    forall i, nth_error given i = Some None -> nth_error r i = nth_error d i /\ nth_error ranks i = Some None.
Proof.
  intros SA ND L. unfold sort_ordered_dict. rewrite (proj2 (Nat.eqb_eq _ _) (eq_sym L)). cbn [bind assert_].
  rewrite picked_pairs. set (P := picked d given).
  rewrite map_length, !map_map. cbn [fst snd].
  change (map (fun x : string * A * Z => snd x) P) with (map snd P).
  assert (Psomes : map snd P = somes given).
  { unfold P. rewrite <- (fill_somes d given (picked d given)), fill_self; auto.
    f_equal. apply (proj2 (map_combine_snd d given L)). }
  assert (Done : StronglySorted (along_order reverse) (somes given) ->
     exists r ranks, Ok d = Ok r /\ length ranks = length r /\
       Permutation (combine d given) (combine r ranks) /\ StronglySorted (along_order reverse) (somes ranks) /\
       forall i, nth_error given i = Some None -> nth_error r i = nth_error d i /\ nth_error ranks i = Some None).
  { intros H. exists d, given. repeat split; auto. }
  destruct (length P <? 2) eqn:E2.
  - apply Done. rewrite <- Psomes. apply Nat.ltb_lt in E2.
    destruct P as [|p [|p' P']]; cbn in *; try lia; repeat constructor.
  - specialize (SA (map snd P)). destruct SA as [SP SS]. rewrite map_length in SP.
    set (ix0 := argsort (map snd P)) in *.
    set (ix := if reverse then rev ix0 else ix0).
    assert (IP : Permutation ix (seq 0 (length P))).
    { unfold ix. destruct reverse; auto. rewrite <- Permutation_rev. auto. }
    assert (IS : StronglySorted (along_order reverse) (map (fun i => nth i (map snd P) 0%Z) ix)).
    { unfold ix, along_order. destruct reverse; apply sorted_map; auto.
      apply (sorted_rev (fun i j => (nth i (map snd P) 0 <= nth j (map snd P) 0)%Z)). auto. }
    destruct (strict_up ix) eqn:Eup.
    + apply Done. apply strict_up_sorted in Eup.
      rewrite (sorted_lt_unique ix (seq 0 (length P)) Eup (seq_sorted _ 0) IP) in IS.
      rewrite <- (map_length snd P), nth_seq_map, Psomes in IS. auto.
    + (* the entries in sorted order *)
      destruct P as [|p0 P0] eqn:EP; [discriminate|]. rewrite <- EP in *.
      set (q := map (fun i => nth i P p0) ix).
      assert (QP : Permutation q P).
      { unfold q. rewrite IP, nth_seq_map. reflexivity. }
      assert (Kq : map (fun i => nth i (map (fun x : string * A * Z => fst (fst x)) P) EmptyString) ix
                   = map (fun kz => fst (fst kz)) q).
      { unfold q. rewrite map_map. apply map_ext_in. intros i Hi.
        assert (Hlt : i < length P).
        { eapply Permutation_in in Hi; [|exact IP]. apply in_seq in Hi. lia. }
        rewrite (nth_indep _ EmptyString (fst (fst p0))) by (rewrite map_length; auto).
        apply (map_nth (fun x : string * A * Z => fst (fst x))). }
      assert (Zq : map (fun i => nth i (map snd P) 0%Z) ix = map snd q).
      { unfold q. rewrite map_map. apply map_ext_in. intros i Hi.
        assert (Hlt : i < length P).
        { eapply Permutation_in in Hi; [|exact IP]. apply in_seq in Hi. lia. }
        rewrite (nth_indep _ 0%Z (snd p0)) by (rewrite map_length; auto).
        apply (map_nth (@snd (string * A) Z)). }
      assert (Lq : length q = length (picked d given)).
      { rewrite (Permutation_length QP), EP. subst P. rewrite <- EP. reflexivity. }
      rewrite Kq, place_fill; auto.
      2: { intros x; auto. }
      2: { intros x Hx. apply (picked_incl d given). apply (Permutation_in x (Permutation_map fst QP)) in Hx.
           subst P. exact Hx. }
      exists (map fst (fill d given q)), (map snd (fill d given q)).
      split; [reflexivity|]. split; [rewrite !map_length; auto|].
      rewrite combine_split_map. split.
      { rewrite <- (fill_self d given L).
        rewrite (fill_perm d given (picked d given)), (fill_perm d given q); auto.
        apply Permutation_app_tail, Permutation_map. apply Permutation_sym.
        subst P. exact QP. }
      split; [rewrite fill_somes, <- Zq; auto|].
      intros i Hi. destruct (fill_none d given q i L Lq Hi) as (kv & H1 & H2).
      rewrite !nth_error_map, H2, H1. cbn. auto.
Qed.

Lemma sort_list_length argsort d given reverse : length given <> length d ->
  sort_ordered_dict argsort d (OrdList given) reverse = Err AssertionError.
Proof.
  intros H. unfold sort_ordered_dict.
  rewrite (proj2 (Nat.eqb_neq (length d) (length given))) by auto. reflexivity.
Qed.

Lemma sort_dict argsort d o reverse given : NoDup (od_keys o) ->
  incl (od_keys o) (od_keys d) ->
  Forall2 (fun k g => In (k, g) o) (od_keys d) given ->
  sort_ordered_dict argsort d (OrdDict o) reverse = sort_ordered_dict argsort d (OrdList given) reverse.
Proof.
  intros ND I F. unfold sort_ordered_dict.
  assert (L : length given = length d) 
    by (rewrite <- (map_length fst d); fold (od_keys d); clear I; induction F; cbn; auto).
  assert (Q : seteq_str (od_keys d) (od_keys o) = true).
  { apply seteq_str_iff. split; auto. clear I L. induction F; intros y0 Hy; [destruct Hy|].
    destruct Hy as [<-|Hy]; [apply (in_map fst) in H; exact H|auto]. }
  rewrite Q, (proj2 (Nat.eqb_eq _ _) (eq_sym L)). cbn.
  assert (M : map_res (od_getR o) (od_keys d) = Ok given).
  { clear I Q L. induction F; cbn; auto.
    rewrite (proj2 (od_getR_ok o x y)) by (apply od_in_get; auto). cbn. rewrite IHF. reflexivity. }
  rewrite M. reflexivity.
Qed.

Lemma sort_dict_refused argsort d o reverse k :
  (In k (od_keys d) /\ ~ In k (od_keys o)) \/ (In k (od_keys o) /\ ~ In k (od_keys d)) ->
  sort_ordered_dict argsort d (OrdDict o) reverse = Err AssertionError.
Proof.
  intros H. unfold sort_ordered_dict.
  destruct (seteq_str (od_keys d) (od_keys o)) eqn:Q; [|reflexivity].
  apply seteq_str_iff in Q. destruct Q as [Q1 Q2]. exfalso.
  destruct H as [[H1 H2]|[H1 H2]]; auto.
Qed.

End Fill.
