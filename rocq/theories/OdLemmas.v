(** Facts about ordered dictionaries, monadic folds and small list tools. *)
From Coq Require Import String ZArith Bool Arith Lia Permutation List.
From Verif Require Import Base.
Import ListNotations.
Set Implicit Arguments.

(** *** membership tests *)

Lemma mem_str_iff k l : mem_str k l = true <-> In k l.
Proof.
  unfold mem_str. rewrite existsb_exists. split.
  - intros (x & Hx & E). apply String.eqb_eq in E. subst. auto.
  - intros H. exists k. split; auto. apply String.eqb_refl.
Qed.

Lemma mem_str_false k l : mem_str k l = false <-> ~ In k l.
Proof. rewrite <- mem_str_iff. destruct (mem_str k l); split; congruence. Qed.

Lemma subset_str_iff l m : subset_str l m = true <-> incl l m.
Proof.
  unfold subset_str, incl. rewrite forallb_forall. setoid_rewrite mem_str_iff. reflexivity.
Qed.

Lemma seteq_str_iff l m : seteq_str l m = true <-> (incl l m /\ incl m l).
Proof. unfold seteq_str. rewrite andb_true_iff, !subset_str_iff. reflexivity. Qed.

Lemma nodup_str_iff l : nodup_str l = true <-> NoDup l.
Proof.
  induction l as [|k l IH]; cbn.
  - split; auto. constructor.
  - rewrite andb_true_iff, negb_true_iff, mem_str_false, IH.
    split; [intros []; constructor; auto|]. inversion 1; auto.
Qed.

Lemma list_eqb_iff {A} (eqb : A -> A -> bool) l m :
  (forall a b, eqb a b = true <-> a = b) -> (list_eqb eqb l m = true <-> l = m).
Proof.
  intros H. revert m. induction l as [|a l IH]; intros [|b m]; cbn; try (split; congruence).
  rewrite andb_true_iff, H, IH. split; [intros []; congruence|]. inversion 1; auto.
Qed.

Lemma list_eqb_nat l m : list_eqb Nat.eqb l m = true <-> l = m.
Proof. apply list_eqb_iff. intros. apply Nat.eqb_eq. Qed.
Lemma list_eqb_str l m : list_eqb String.eqb l m = true <-> l = m.
Proof. apply list_eqb_iff. intros. apply String.eqb_eq. Qed.
Lemma list_eqb_Z l m : list_eqb Z.eqb l m = true <-> l = m.
Proof. apply list_eqb_iff. intros. apply Z.eqb_eq. Qed.
Lemma list_eqb_bool l m : list_eqb Bool.eqb l m = true <-> l = m.
Proof. apply list_eqb_iff. intros. apply Bool.eqb_true_iff. Qed.

(** *** od_get *)

Lemma od_get_in {A} (d : odict A) k v : od_get d k = Some v -> In (k, v) d.
Proof.
  induction d as [|[k' v'] d IH]; cbn; [discriminate|].
  destruct (String.eqb_spec k k'); intros H; [inversion H; subst; auto|auto].
Qed.

Lemma od_get_none {A} (d : odict A) k : od_get d k = None <-> ~ In k (od_keys d).
Proof.
  induction d as [|[k' v'] d IH]; cbn; [tauto|].
  destruct (String.eqb_spec k k').
  - subst. split; [discriminate|]. intros H. exfalso. auto.
  - rewrite IH. split; intros H; [|tauto]. intros [E|E]; [congruence|auto].
Qed.

Lemma od_get_some_key {A} (d : odict A) k v : od_get d k = Some v -> In k (od_keys d).
Proof.
  intros H. apply od_get_in in H. apply (in_map fst) in H. exact H.
Qed.

Lemma od_key_get {A} (d : odict A) k : In k (od_keys d) -> exists v, od_get d k = Some v.
Proof.
  intros H. destruct (od_get d k) eqn:E; eauto.
  apply od_get_none in E. contradiction.
Qed.

Lemma od_in_get {A} (d : odict A) k v :
  NoDup (od_keys d) -> In (k, v) d -> od_get d k = Some v.
Proof.
  induction d as [|[k' v'] d IH]; cbn; [tauto|]. inversion 1; subst. intros [E|E].
  - inversion E; subst. rewrite String.eqb_refl. auto.
  - destruct (String.eqb_spec k k'); auto. subst. exfalso.
    apply (in_map fst) in E. cbn in E. auto.
Qed.

Lemma od_mem_iff {A} (d : odict A) k : od_mem d k = true <-> In k (od_keys d).
Proof.
  unfold od_mem. destruct (od_get d k) eqn:E.
  - split; auto. intros _. eapply od_get_some_key; eauto.
  - apply od_get_none in E. split; [discriminate|contradiction].
Qed.

Lemma od_mem_false {A} (d : odict A) k : od_mem d k = false <-> ~ In k (od_keys d).
Proof. rewrite <- od_mem_iff. destruct (od_mem d k); split; congruence. Qed.

Lemma od_getR_ok {A} (d : odict A) k v : od_getR d k = Ok v <-> od_get d k = Some v.
Proof. unfold od_getR. destruct (od_get d k); split; congruence. Qed.

Lemma od_get_app {A} (d e : odict A) k :
  od_get (d ++ e) k = match od_get d k with Some v => Some v | None => od_get e k end.
Proof.
  induction d as [|[k' v'] d IH]; cbn; auto. destruct (String.eqb k k'); auto.
Qed.

(** *** od_set *)

Lemma od_get_set_eq {A} (d : odict A) k v : od_get (od_set d k v) k = Some v.
Proof.
  induction d as [|[k' v'] d IH]; cbn; [rewrite String.eqb_refl; auto|].
  destruct (String.eqb k k') eqn:E; cbn; rewrite E; auto.
Qed.

Lemma od_get_set_ne {A} (d : odict A) k k' v :
  k' <> k -> od_get (od_set d k v) k' = od_get d k'.
Proof.
  intros NE. induction d as [|[k2 v2] d IH]; cbn.
  - destruct (String.eqb_spec k' k); congruence.
  - destruct (String.eqb_spec k k2); cbn; destruct (String.eqb_spec k' k2); auto; congruence.
Qed.

Lemma od_get_set {A} (d : odict A) k k' v :
  od_get (od_set d k v) k' = if String.eqb k' k then Some v else od_get d k'.
Proof.
  destruct (String.eqb_spec k' k); [subst; apply od_get_set_eq|apply od_get_set_ne; auto].
Qed.

Lemma od_set_new {A} (d : odict A) k v :
  ~ In k (od_keys d) -> od_set d k v = d ++ [(k, v)].
Proof.
  induction d as [|[k' v'] d IH]; cbn; auto. intros H.
  destruct (String.eqb_spec k k'); [exfalso; auto|].
  rewrite IH; auto.
Qed.

Lemma od_keys_set_old {A} (d : odict A) k v :
  In k (od_keys d) -> od_keys (od_set d k v) = od_keys d.
Proof.
  induction d as [|[k' v'] d IH]; cbn; [tauto|]. intros H.
  destruct (String.eqb_spec k k'); cbn; auto. f_equal. apply IH. destruct H; [congruence|assumption].
Qed.

Lemma od_keys_set_new {A} (d : odict A) k v :
  ~ In k (od_keys d) -> od_keys (od_set d k v) = od_keys d ++ [k].
Proof. intros H. rewrite od_set_new by auto. unfold od_keys. rewrite map_app. reflexivity. Qed.

Lemma od_keys_set_in {A} (d : odict A) k v k' :
  In k' (od_keys (od_set d k v)) <-> k' = k \/ In k' (od_keys d).
Proof.
  destruct (in_dec string_dec k (od_keys d)).
  - rewrite od_keys_set_old by auto. split; [auto|]. intros [->|]; auto.
  - rewrite od_keys_set_new by auto. rewrite in_app_iff. cbn. intuition congruence.
Qed.

Lemma od_keys_set_nodup {A} (d : odict A) k v :
  NoDup (od_keys d) -> NoDup (od_keys (od_set d k v)).
Proof.
  intros H. destruct (in_dec string_dec k (od_keys d)).
  - rewrite od_keys_set_old by auto. auto.
  - rewrite od_keys_set_new by auto.
    apply (NoDup_Add (a:=k) (l:=od_keys d)); [|auto].
    rewrite <- (app_nil_r (od_keys d)) at 1. apply Add_app.
Qed.

Lemma od_set_split {A} (d1 d2 : odict A) k v v' :
  ~ In k (od_keys d1) -> od_set (d1 ++ (k, v) :: d2) k v' = d1 ++ (k, v') :: d2.
Proof.
  induction d1 as [|[k1 v1] d1 IH]; cbn; intros H.
  - rewrite String.eqb_refl. reflexivity.
  - destruct (String.eqb_spec k k1); [exfalso; auto|]. rewrite IH; auto.
Qed.

(** *** od_del *)

Lemma od_del_filter {A} (d : odict A) k :
  NoDup (od_keys d) -> od_del d k = filter (fun kv => negb (String.eqb (fst kv) k)) d.
Proof.
  induction d as [|[k' v'] d IH]; cbn; auto. inversion 1; subst.
  rewrite String.eqb_sym. destruct (String.eqb_spec k' k); cbn.
  - subst. symmetry. clear -H2. induction d as [|[k1 v1] d IH]; cbn; auto. cbn in H2.
    destruct (String.eqb_spec k1 k); [exfalso; subst; auto|]. cbn. rewrite IH; auto.
  - rewrite IH; auto.
Qed.

(** *** od_update *)

Lemma od_update_new {A} (d e : odict A) :
  NoDup (od_keys d ++ od_keys e) -> od_update d e = d ++ e.
Proof.
  unfold od_update. revert d. induction e as [|[k v] e IH]; cbn; intros d H.
  - rewrite app_nil_r. reflexivity.
  - assert (H2 : ~ In k (od_keys d)).
    { apply NoDup_remove_2 in H. rewrite in_app_iff in H. tauto. }
    rewrite od_set_new by auto. rewrite IH; [rewrite <- app_assoc; reflexivity|].
    unfold od_keys at 1. rewrite map_app, <- app_assoc. exact H.
Qed.

Lemma od_get_update {A} (d e : odict A) k :
  NoDup (od_keys e) ->
  od_get (od_update d e) k = match od_get e k with Some v => Some v | None => od_get d k end.
Proof.
  unfold od_update. revert d. induction e as [|[k' v'] e IH]; cbn; intros d H; auto.
  inversion H; subst. rewrite IH by auto. rewrite od_get_set.
  destruct (String.eqb_spec k k').
  - subst. apply od_get_none in H2. rewrite H2. auto.
  - destruct (od_get e k); auto.
Qed.

(** *** maps and filters of dictionaries *)

Lemma od_get_map {A B} (f : string -> A -> B) (d : odict A) k :
  od_get (map (fun kv => (fst kv, f (fst kv) (snd kv))) d) k
  = match od_get d k with Some v => Some (f k v) | None => None end.
Proof.
  induction d as [|[k' v'] d IH]; cbn; auto.
  destruct (String.eqb_spec k k'); subst; auto.
Qed.

Lemma od_get_filter {A} (P : string -> bool) (d : odict A) k :
  od_get (filter (fun kv => P (fst kv)) d) k = if P k then od_get d k else None.
Proof.
  induction d as [|[k' v'] d IH]; cbn.
  - destruct (P k); auto.
  - destruct (P k') eqn:E; cbn.
    + destruct (String.eqb_spec k k'); subst; [rewrite E; auto|auto].
    + rewrite IH. destruct (String.eqb_spec k k'); subst; [rewrite E; auto|auto].
Qed.

Lemma od_keys_filter {A} (P : string -> bool) (d : odict A) :
  od_keys (filter (fun kv => P (fst kv)) d) = filter P (od_keys d).
Proof.
  unfold od_keys. induction d as [|[k' v'] d IH]; cbn; auto.
  destruct (P k'); cbn; rewrite IH; auto.
Qed.

Lemma od_ext_eq {A} (d e : odict A) :
  NoDup (od_keys d) -> od_keys d = od_keys e ->
  (forall k, In k (od_keys d) -> od_get d k = od_get e k) -> d = e.
Proof.
  revert e. induction d as [|[k v] d IH]; intros [|[k' v'] e] N K G; cbn in *; try discriminate; auto.
  inversion K; subst. inversion N; subst. f_equal.
  - specialize (G k' (or_introl eq_refl)). rewrite !String.eqb_refl in G. congruence.
  - apply IH; auto. intros k H. specialize (G k (or_intror H)).
    destruct (String.eqb_spec k k'); [subst; contradiction|]. auto.
Qed.

(** *** folds *)

Lemma fold_res_app {A S} (f : S -> A -> result S) l m s :
  fold_res f (l ++ m) s = let! s' := fold_res f l s in fold_res f m s'.
Proof. revert s. induction l as [|a l IH]; intros s; cbn; auto. destruct (f s a); cbn; auto. Qed.

(** Invariant along the prefixes of the list. *)
Lemma fold_res_inv {A S} (f : S -> A -> result S) (P : list A -> S -> Prop) l s0 s :
  P [] s0 ->
  (forall pre a post s1 s2, l = pre ++ a :: post -> P pre s1 -> f s1 a = Ok s2 -> P (pre ++ [a]) s2) ->
  fold_res f l s0 = Ok s -> P l s.
Proof.
  intros H0 HS.
  assert (G : forall post pre s1, l = pre ++ post -> P pre s1 -> fold_res f post s1 = Ok s -> P l s).
  { induction post as [|a post IH]; intros pre s1 E HP H; cbn in H.
    - inversion H; subst. rewrite app_nil_r. auto.
    - destruct (f s1 a) eqn:E1; cbn in H; [|discriminate].
      apply (IH (pre ++ [a]) a0); auto; [rewrite <- app_assoc; auto|].
      apply (HS pre a post s1 a0); auto. }
  intros H. apply (G l [] s0); auto.
Qed.

(** Progress along the prefixes of the list. *)
Lemma fold_res_ok {A S} (f : S -> A -> result S) (P : list A -> S -> Prop) l s0 :
  P [] s0 ->
  (forall pre a post s1, l = pre ++ a :: post -> P pre s1 ->
     exists s2, f s1 a = Ok s2 /\ P (pre ++ [a]) s2) ->
  exists s, fold_res f l s0 = Ok s /\ P l s.
Proof.
  intros H0 HS.
  assert (G : forall post pre s1, l = pre ++ post -> P pre s1 ->
    exists s, fold_res f post s1 = Ok s /\ P l s).
  { induction post as [|a post IH]; intros pre s1 E HP; cbn.
    - exists s1. split; auto. rewrite E, app_nil_r. auto.
    - destruct (HS pre a post s1 E HP) as (s2 & E2 & P2). rewrite E2. cbn.
      apply (IH (pre ++ [a])); auto. rewrite <- app_assoc; auto. }
  apply (G l []); auto.
Qed.

Lemma map_res_ok {A B} (f : A -> result B) l m :
  map_res f l = Ok m <-> Forall2 (fun a b => f a = Ok b) l m.
Proof.
  revert m. induction l as [|a l IH]; intros m; cbn.
  - split; intros H; inversion H; subst; auto.
  - destruct (f a) eqn:E; cbn.
    + destruct (map_res f l) eqn:E2; cbn.
      * split; intros H.
        -- inversion H; subst. constructor; auto. apply IH; auto.
        -- inversion H; subst. rewrite E in H2. inversion H2; subst.
           apply IH in H4. congruence.
      * split; [discriminate|]. intros H. inversion H; subst. apply IH in H4. discriminate.
    + split; [discriminate|]. intros H. inversion H; subst. congruence.
Qed.

Lemma map_res_all {A B} (f : A -> result B) (g : A -> B) l :
  (forall a, In a l -> f a = Ok (g a)) -> map_res f l = Ok (map g l).
Proof.
  induction l as [|a l IH]; cbn; intros H; auto.
  rewrite H by auto. cbn. rewrite IH by auto. reflexivity.
Qed.

(** *** set_nth *)

Lemma set_nth_length {A} n (x : A) l : length (set_nth n x l) = length l.
Proof. revert n. induction l; intros [|n]; cbn; auto. Qed.

Lemma nth_set_nth_eq {A} n (x d : A) l : n < length l -> nth n (set_nth n x l) d = x.
Proof. revert n. induction l; intros [|n] H; cbn in *; auto; try lia. apply IHl. lia. Qed.

Lemma nth_set_nth_ne {A} n m (x d : A) l : n <> m -> nth n (set_nth m x l) d = nth n l d.
Proof. revert n m. induction l; intros [|n] [|m] H; cbn in *; auto; try lia. Qed.

Lemma nth_error_set_nth_eq {A} n (x : A) l :
  n < length l -> nth_error (set_nth n x l) n = Some x.
Proof. revert n. induction l; intros [|n] H; cbn in *; auto; try lia. apply IHl. lia. Qed.

Lemma nth_error_set_nth_ne {A} n m (x : A) l :
  n <> m -> nth_error (set_nth m x l) n = nth_error l n.
Proof. revert n m. induction l; intros [|n] [|m] H; cbn in *; auto; try lia. Qed.

Lemma py_index_nat n k : k < n -> py_index n (Z.of_nat k) = Some k.
Proof.
  intros H. unfold py_index.
  destruct (Z.leb_spec 0 (Z.of_nat k)); [|lia].
  destruct (Z.ltb_spec (Z.of_nat k) (Z.of_nat n)); [|lia].
  rewrite Nat2Z.id. reflexivity.
Qed.

Lemma py_index_lt n d k : py_index n d = Some k -> k < n.
Proof.
  unfold py_index. destruct (Z.leb_spec 0 d).
  - destruct (Z.ltb_spec d (Z.of_nat n)); intros E; inversion E; lia.
  - destruct (Z.leb_spec (- Z.of_nat n) d); intros E; inversion E; lia.
Qed.

Lemma py_index_nonneg n d k : (0 <= d)%Z -> py_index n d = Some k -> d = Z.of_nat k.
Proof.
  unfold py_index. intros H. destruct (Z.leb_spec 0 d); [|lia].
  destruct (Z.ltb_spec d (Z.of_nat n)); intros E; inversion E; lia.
Qed.

Lemma py_indexR_nat n k : k < n -> py_indexR n (Z.of_nat k) = Ok k.
Proof. intros H. unfold py_indexR. rewrite py_index_nat; auto. Qed.

Lemma assert_ok b u : assert_ b = Ok u -> b = true.
Proof. destruct b; cbn; congruence. Qed.

Lemma bind_ok {A B} (r : result A) (f : A -> result B) b :
  bind r f = Ok b -> exists a, r = Ok a /\ f a = Ok b.
Proof. destruct r; cbn; intros H; [eauto|discriminate]. Qed.

(** Splits a hypothesis [bind r f = Ok b]. *)
Ltac bok H a E :=
  apply bind_ok in H; destruct H as (a & E & H).

(** *** lists without repetition *)

Lemma nth_error_inj {A} (l : list A) i j x :
  NoDup l -> nth_error l i = Some x -> nth_error l j = Some x -> i = j.
Proof.
  intros N Hi Hj. apply (proj1 (NoDup_nth_error l) N); [|congruence].
  apply nth_error_Some. congruence.
Qed.

Lemma nodup_app_iff {A} (l m : list A) :
  NoDup (l ++ m) <-> NoDup l /\ NoDup m /\ (forall x, In x l -> ~ In x m).
Proof.
  induction l as [|a l IH]; cbn.
  - split; [intros H; repeat split; auto; constructor|tauto].
  - split.
    + inversion 1; subst. rewrite in_app_iff in H2. apply IH in H3. destruct H3 as (A1 & A2 & A3).
      repeat split; auto; [constructor; tauto|]. intros x [<-|Hx]; auto.
    + intros (A1 & A2 & A3). inversion A1; subst. constructor.
      * rewrite in_app_iff. intros [|]; auto. apply (A3 a); auto.
      * apply IH. repeat split; auto.
Qed.

Lemma filter_nodup {A} (f : A -> bool) l : NoDup l -> NoDup (filter f l).
Proof.
  induction 1; cbn; [constructor|]. destruct (f x); auto. constructor; auto.
  rewrite filter_In. tauto.
Qed.
