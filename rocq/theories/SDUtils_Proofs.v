(** Proofs about suffixed keys and about the probability of an architecture. *)
From Coq Require Import String Ascii ZArith Bool Arith Lia List Reals.
From Verif Require Import Base OdLemmas Num Tensor PScales PScales_Spec PScales_Prod Names SDUtils SDUtils_Spec.
Import ListNotations.
Set Implicit Arguments.
Local Open Scope list_scope.
Local Open Scope nat_scope.

Lemma last_prime c s : last_char (prime c s) = Some c.
Proof.
  induction s as [|x s IH]; [reflexivity|]. unfold prime in *. cbn [append last_char].
  destruct (s ++ String c EmptyString)%string eqn:E; [destruct s; discriminate|]. exact IH.
Qed.

Lemma init_prime c s : init_str (prime c s) = s.
Proof.
  induction s as [|x s IH]; [reflexivity|]. unfold prime in *. cbn [append init_str].
  destruct (s ++ String c EmptyString)%string eqn:E; [destruct s; discriminate|]. rewrite IH. reflexivity.
Qed.

Lemma last_inv s c : last_char s = Some c -> s = prime c (init_str s).
Proof.
  induction s as [|x s IH]; [discriminate|]. cbn [last_char init_str]. destruct s as [|y s'].
  - intros H. inversion H. reflexivity.
  - intros H. unfold prime in *. cbn [append]. rewrite <- (IH H). reflexivity.
Qed.

Lemma last_none s : last_char s = None -> s = EmptyString.
Proof.
  induction s as [|x s IH]; [auto|]. cbn [last_char]. destruct s as [|y s']; [discriminate|]. intros H.
  apply IH in H. discriminate.
Qed.

Lemma suffixed_ok c k : k <> EmptyString -> exists b, suffixed c k = Ok b /\ (b = true <-> ends_in c k).
Proof.
  intros NE. unfold suffixed. destruct (last_char k) as [x|] eqn:E; [|apply last_none in E; congruence].
  exists (Ascii.eqb x c). split; [auto|]. rewrite Ascii.eqb_eq. split.
  - intros ->. exists (init_str k). apply last_inv. auto.
  - intros [s ->]. rewrite last_prime in E. congruence.
Qed.

Lemma prime_inj c s t : prime c s = prime c t -> s = t.
Proof. intros H. rewrite <- (init_prime c s), H, init_prime. auto. Qed.

Definition key_out (c : ascii) (k : string) : string :=
  match last_char k with Some x => if Ascii.eqb x c then init_str k else k | None => k end.

Lemma key_out_spec c k : unprimed_as c k (key_out c k).
Proof.
  unfold key_out, unprimed_as. destruct (last_char k) as [x|] eqn:E.
  - destruct (Ascii.eqb_spec x c) as [->|NE].
    + left. apply last_inv. auto.
    + right. split; [auto|]. intros [s ->]. rewrite last_prime in E. congruence.
  - right. split; [auto|]. intros [s ->]. rewrite last_prime in E. congruence.
Qed.

Lemma unprimed_unique c k a b : unprimed_as c k a -> unprimed_as c k b -> a = b.
Proof.
  intros [->|[<- N1]] [H|[<- N2]].
  - apply prime_inj in H. auto.
  - exfalso. apply N2. exists a. auto.
  - exfalso. apply N1. exists b. auto.
  - auto.
Qed.

Lemma suffixed_key_out c k b : suffixed c k = Ok b -> (if b then init_str k else k) = key_out c k.
Proof.
  unfold suffixed, key_out. destruct (last_char k) as [x|]; [|discriminate]. intros H. inversion H. reflexivity.
Qed.

Section Dict.
Context {A : Type}.
Implicit Types d : odict A.

Lemma fold_desuffix c d acc : Forall (fun k => k <> EmptyString) (od_keys d) ->
  let step := fun vals kv =>
         let! s := suffixed c (fst kv) in
         let key := if s then init_str (fst kv) else fst kv in
         let! _ := assert_ (negb (od_mem vals key)) in
         Ok (od_set vals key (snd kv)) in
  fold_res (S := odict A) (A := string * A) step d acc =
  if nodup_str (map (key_out c) (od_keys d)) && forallb (fun k => negb (od_mem acc k)) (map (key_out c) (od_keys d))
  then Ok (acc ++ map (fun kv => (key_out c (fst kv), snd kv)) d) else Err AssertionError.
Proof.
  cbv zeta. revert acc. induction d as [|[k v] d IH]; intros acc F.
  - cbn. rewrite app_nil_r. reflexivity.
  - cbn [od_keys map fst] in F. inversion F as [|x y NE F']; subst. cbn [fold_res fst snd].
    destruct (suffixed_ok c NE) as [b [S _]]. rewrite S. cbn [bind]. rewrite (suffixed_key_out _ _ S).
    cbn [od_keys map fst nodup_str forallb]. fold (od_keys d).
    destruct (od_mem acc (key_out c k)) eqn:M; cbn [negb assert_ bind].
    + rewrite andb_false_l, andb_false_r. reflexivity.
    + assert (OS : od_set acc (key_out c k) v = acc ++ [(key_out c k, v)]).
      { clear - M. induction acc as [|[k' v'] acc IH]; [reflexivity|]. unfold od_mem in *. cbn in *.
        destruct (String.eqb (key_out c k) k') eqn:E; [discriminate|]. rewrite IH; auto. }
      rewrite OS. rewrite IH by auto. rewrite <- app_assoc. cbn [app].
      assert (MM : forall q, od_mem (acc ++ [(key_out c k, v)]) q = od_mem acc q || String.eqb q (key_out c k)).
      { clear. intros q. unfold od_mem. induction acc as [|[k' v'] acc IH]; cbn.
        - destruct (String.eqb q (key_out c k)); auto.
        - destruct (String.eqb q k'); auto. }
      assert (B : (nodup_str (map (key_out c) (od_keys d)) && forallb (fun q => negb (od_mem (acc ++ [(key_out c k, v)]) q)) (map (key_out c) (od_keys d)))
        = (negb (mem_str (key_out c k) (map (key_out c) (od_keys d))) && nodup_str (map (key_out c) (od_keys d)) && (true && forallb (fun q => negb (od_mem acc q)) (map (key_out c) (od_keys d))))).
      { generalize (map (key_out c) (od_keys d)) as ks. intros ks.
        assert (Q : forallb (fun q => negb (od_mem (acc ++ [(key_out c k, v)]) q)) ks =
                    negb (mem_str (key_out c k) ks) && forallb (fun q => negb (od_mem acc q)) ks).
        { induction ks as [|q ks IHk]; [reflexivity|]. cbn [forallb]. rewrite IHk, MM. unfold mem_str. cbn [existsb].
          rewrite (String.eqb_sym q). destruct (od_mem acc q), (String.eqb (key_out c k) q), (existsb (String.eqb (key_out c k)) ks); cbn; auto; rewrite ?andb_false_r; auto. }
        rewrite Q. destruct (nodup_str ks), (mem_str (key_out c k) ks), (forallb (fun q => negb (od_mem acc q)) ks); reflexivity. }
      rewrite B. reflexivity.
Qed.

Lemma found_ok c (ks : list string) : Forall (fun k => k <> EmptyString) ks ->
  exists bs, map_res (suffixed c) ks = Ok bs /\ (existsb (fun b => b) bs = true <-> exists k, In k ks /\ ends_in c k).
Proof.
  induction 1 as [|k ks NE F [bs [M E]]].
  - exists []. split; [auto|]. cbn. split; [discriminate|]. intros [k [[] _]].
  - destruct (suffixed_ok c NE) as [b [S B]]. exists (b :: bs). cbn [map_res]. rewrite S. cbn [bind]. rewrite M.
    split; [auto|]. cbn. rewrite orb_true_iff, B, E. split.
    + intros [H|[k' [I H]]]; [exists k; auto|exists k'; auto].
    + intros [k' [[<-|I] H]]; [auto|right; eauto].
Qed.

Lemma desuffix_none c d : Forall (fun k => k <> EmptyString) (od_keys d) ->
  (forall k, In k (od_keys d) -> ~ ends_in c k) -> desuffix d c = Err TypeError.
Proof.
  intros F H. unfold desuffix. destruct (found_ok c F) as [bs [M E]]. rewrite M. cbn [bind].
  destruct (existsb (fun b => b) bs); [|reflexivity]. destruct (proj1 E eq_refl) as [k [I P]]. destruct (H k I P).
Qed.

Lemma desuffix_some c d (names : list string) : Forall (fun k => k <> EmptyString) (od_keys d) ->
  (exists k, In k (od_keys d) /\ ends_in c k) -> Forall2 (unprimed_as c) (od_keys d) names ->
  (NoDup names -> desuffix d c = Ok (combine names (od_vals d))) /\
  (~ NoDup names -> desuffix d c = Err AssertionError).
Proof.
  intros F EX F2.
  assert (NM : names = map (key_out c) (od_keys d)).
  { clear - F2. induction F2 as [|k n ks ns U F IH]; [reflexivity|]. cbn. f_equal; [|auto]. eapply unprimed_unique; [exact U|].
    apply key_out_spec. }
  unfold desuffix. destruct (found_ok c F) as [bs [M E]]. rewrite M. cbn [bind]. rewrite (proj2 E EX). cbn [negb].
  pose proof (fold_desuffix c d [] F) as FD; cbv zeta in FD |- *; rewrite FD. cbn [app].
  assert (Q : forallb (fun k => negb (od_mem (A := A) [] k)) (map (key_out c) (od_keys d)) = true).
  { apply forallb_forall. intros; reflexivity. }
  rewrite Q, andb_true_r, <- NM. split; intros ND.
  - apply nodup_str_iff in ND. rewrite ND. f_equal. rewrite NM. clear. induction d as [|[k v] d IH]; [reflexivity|].
    cbn in *. f_equal. exact IH.
  - assert (X : nodup_str names = false) by (apply not_true_iff_false; intros X; apply nodup_str_iff in X; auto).
    rewrite X. reflexivity.
Qed.

(** get_suffixed keeps the primed entries, in order, under their unprimed names. *)
Lemma get_suffixed_spec c d : Forall (fun k => k <> EmptyString) (od_keys d) -> NoDup (od_keys d) ->
  exists e, get_suffixed d true c = Ok e /\ NoDup (od_keys e) /\
    forall k v, In (k, v) e <-> In (prime c k, v) d.
Proof.
  intros F ND. unfold get_suffixed.
  set (step := fun (vals : odict A) (kv : string * A) =>
    let! s := suffixed c (fst kv) in
    Ok (if s then od_set vals (init_str (fst kv)) (snd kv) else vals)).
  assert (G : forall d acc, Forall (fun k => k <> EmptyString) (od_keys d) -> NoDup (od_keys d) -> NoDup (od_keys acc) ->
    (forall k, In k (od_keys acc) -> ~ In (prime c k) (od_keys d)) ->
    exists e, fold_res step d acc = Ok e /\ NoDup (od_keys e) /\
      forall k v, In (k, v) e <-> In (k, v) acc \/ In (prime c k, v) d).
  { clear. induction d as [|[k v] d IH]; intros acc F ND NA DJ.
    - exists acc. cbn. split; [auto|]. split; [auto|]. tauto.
    - cbn [od_keys map fst] in F, ND. inversion F as [|x y NE F']; subst. inversion ND as [|x y NI ND']; subst.
      destruct (suffixed_ok c NE) as [b [S B]]. cbn [fold_res]. unfold step at 1. cbn [fst snd]. rewrite S. cbn [bind].
      destruct b.
      + destruct (proj1 B eq_refl) as [s ->]. rewrite init_prime.
        assert (NK : ~ In s (od_keys acc)). { intros I. apply (DJ s I). left. auto. }
        assert (OS : od_set acc s v = acc ++ [(s, v)]).
        { clear - NK. induction acc as [|[k' v'] acc IH]; [reflexivity|]. cbn in *.
          destruct (String.eqb_spec s k') as [->|NE]; [exfalso; auto|]. rewrite IH; auto. }
        rewrite OS. destruct (IH (acc ++ [(s, v)])) as [e [E1 [E2 E3]]]; auto.
        * unfold od_keys. rewrite map_app. apply nodup_app_iff. split; [auto|]. split; [repeat constructor; intros []|].
          intros x I [<-|[]]. auto.
        * intros x I. unfold od_keys in I. rewrite map_app, in_app_iff in I. destruct I as [I|[<-|[]]].
          -- intros J. apply (DJ x I). right. auto.
          -- auto.
        * exists e. split; [auto|]. split; [auto|]. intros x u. rewrite E3, in_app_iff. cbn. split.
          -- intros [[I|[I|[]]]|I]; [auto|inversion I; subst; auto|auto].
          -- intros [I|[I|I]]; [auto| |auto]. inversion I as [[P Q]]. apply prime_inj in P. subst. auto.
      + destruct (IH acc) as [e [E1 [E2 E3]]]; auto.
        * intros x I J. apply (DJ x I). right. auto.
        * exists e. split; [auto|]. split; [auto|]. intros x u. rewrite E3. cbn. split; [tauto|].
          intros [I|[I|I]]; [auto| |auto]. inversion I as [[P Q]]. exfalso. assert (false = true); [|discriminate].
          apply B. exists x. auto. }
  destruct (G d [] F ND) as [e [E1 [E2 E3]]]; [constructor|intros k []|].
  exists e. split; [exact E1|]. split; [auto|]. intros k v. rewrite E3. cbn. tauto.
Qed.

End Dict.

(** ** Architectures *)
Section Arch.
Variable V : Type.

Lemma map_evals values dims (parts : list (part V)) ts : Forall2 (evals values dims) parts ts ->
  map_res (fun p => pt_eval p (restrict (pt_keys p) values) (restrict (pt_keys p) dims)) parts = Ok ts.
Proof. induction 1 as [|p t ps ts E F IH]; cbn [map_res]; [auto|]. unfold evals in E. rewrite E. cbn [bind]. rewrite IH. auto. Qed.

Lemma serial_prob (parts : list (part V)) p values dims ts t :
  Forall2 (evals values dims) parts ts -> evals values dims p t ->
  arch_prob true (parts ++ [p]) values dims = Ok t.
Proof.
  intros F E. unfold arch_prob. rewrite (@map_evals values dims (parts ++ [p]) (ts ++ [t])).
  - cbn [bind]. rewrite rev_app_distr. reflexivity.
  - apply Forall2_app; auto.
Qed.

Lemma parallel_prob (parts : list (part V)) values dims ts s :
  parts <> [] -> Forall2 (evals values dims) parts ts -> Forall (fun p => linear_scale (pt_pscale p)) parts ->
  bcast_all (map (@shape R) ts) = Ok s ->
  exists t ps, arch_prob false parts values dims = Ok t /\ shape t = s /\ linear_scale ps /\
    forall idx, in_range s idx -> denote ps (get t idx) = Rprod (factors_at ts (map (@pt_pscale R V) parts) idx).
Proof.
  intros NE F L B.
  assert (LN : length (map (@pt_pscale R V) parts) = length ts).
  { rewrite map_length. clear - F. induction F; cbn; auto. }
  destruct (@prod_rule_linear ts (map (@pt_pscale R V) parts) s) as [t [ps [P [S [K D]]]]]; auto.
  - destruct F; [congruence|congruence].
  - apply Forall_forall. intros q I. apply in_map_iff in I. destruct I as [p [<- I]]. rewrite Forall_forall in L. auto.
  - exists t, ps. split; [|auto]. unfold arch_prob. rewrite (@map_evals values dims parts ts F). cbn [bind]. rewrite P. reflexivity.
Qed.

End Arch.
