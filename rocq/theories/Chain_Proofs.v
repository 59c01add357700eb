(** Proofs about single steps of a process with a transition function. *)
From Coq Require Import String Ascii ZArith Reals Lra Bool Arith Lia Permutation List.
From Verif Require Import Base Num Tensor TensorLemmas OdLemmas RNumLemmas PScales PScales_Spec PScales_Proofs Names Names_Spec Names_Proofs
  Distr PDModel PDUtils PD_Spec PD_Simple_Spec PD_Make PD_Simple PD_Sums
  VariableModel RVModel RV_Spec FieldModel Field_Spec Field_Dims RFModel RF_Spec RF_Proofs RF_Joint RF_Step Lik_Slice SDUtils SDUtils_Proofs
  SDModel SD_Spec SD_Proofs SD_Joint SD_Thm SPModel ChainModel Chain_Spec.
Import ListNotations.

(** *** Zipped dictionaries *)
Lemma forall2_nth {B C} (P : B -> C -> Prop) l m : length l = length m ->
  (forall i b c, nth_error l i = Some b -> nth_error m i = Some c -> P b c) -> Forall2 P l m.
Proof.
  revert m. induction l as [|b l IH]; intros [|c m] E H; try discriminate; constructor.
  - apply (H 0); reflexivity.
  - apply IH; [auto|]. intros i. apply (H (S i)).
Qed.

Section Zip.
Context {A : Type}.
Implicit Types (names : list string) (xs : list A).

Lemma zip_keys names xs : length xs = length names -> od_keys (combine names xs) = names.
Proof. revert xs. induction names as [|k l IH]; intros [|x xs] E; try discriminate; [reflexivity|]. cbn. f_equal. apply IH. auto. Qed.

Lemma zip_vals names xs : length xs = length names -> od_vals (combine names xs) = xs.
Proof. revert xs. induction names as [|k l IH]; intros [|x xs] E; try discriminate; [reflexivity|]. cbn. f_equal. apply IH. auto. Qed.

Lemma zip_get names xs i k x : NoDup names -> nth_error names i = Some k -> nth_error xs i = Some x ->
  od_get (combine names xs) k = Some x.
Proof.
  revert xs i. induction names as [|k0 l IH]; intros xs i ND E1 E2; [destruct i; discriminate|].
  destruct xs as [|x0 xs]; [destruct i; discriminate|]. apply NoDup_cons_iff in ND. destruct ND as [N1 N2].
  destruct i as [|i]; cbn in E1, E2.
  - injection E1 as <-. injection E2 as <-. cbn. rewrite String.eqb_refl. reflexivity.
  - cbn. destruct (String.eqb_spec k k0) as [->|NE]; [exfalso; apply N1; eapply nth_error_In; exact E1|]. eapply IH; eauto.
Qed.

Lemma zip_get_all names xs : NoDup names -> length xs = length names -> Forall2 (fun k x => od_get (combine names xs) k = Some x) names xs.
Proof. intros ND E. apply forall2_nth; [auto|]. intros i k x I J. eapply zip_get; eauto. Qed.
End Zip.

(** *** Names *)
Lemma app_prime_last k : last_char (k ++ "'")%string = Some "'"%char.
Proof. apply (last_prime "'"%char). Qed.
Lemma app_prime_init k : init_str (k ++ "'")%string = k.
Proof. apply (init_prime "'"%char). Qed.

Lemma unprimed_suffixed k : k <> EmptyString -> (forall k0, k <> (k0 ++ "'")%string) -> suffixed "'"%char k = Ok false.
Proof.
  intros NE U. unfold suffixed. destruct (last_char k) as [c|] eqn:E.
  - destruct (Ascii.eqb_spec c "'"%char) as [->|]; [|reflexivity]. exfalso. apply last_inv in E. exact (U _ E).
  - apply last_none in E. congruence.
Qed.

Lemma primed_suffixed k : suffixed "'"%char (k ++ "'")%string = Ok true.
Proof. unfold suffixed. rewrite app_prime_last. reflexivity. Qed.

Lemma occurs_app c s t : occurs c (s ++ t)%string -> occurs c s \/ occurs c t.
Proof. unfold occurs. induction s as [|a s IH]; cbn; [auto|]. intros [E|I]; [auto|]. destruct (IH I); auto. Qed.

Lemma primed_apart names : named_apart names -> named_apart (map (fun k => k ++ "'")%string names).
Proof.
  intros [ND S]. split.
  - apply FinFun.Injective_map_NoDup; [|exact ND]. intros a b. apply app_tail_inj.
  - intros k I. apply in_map_iff in I. destruct I as (k0 & <- & I). destruct (S k0 I) as [[(G1 & G2 & G3 & G4 & G5) G6] _]. split.
    + split; [split; [|repeat split]|]; try (intros O; apply occurs_app in O; destruct O as [O|O]; [tauto|cbn in O; destruct O as [O|[]]; discriminate]).
      intros C. destruct k0; discriminate.
    + intros C. cbn in C. assert (last_char (k0 ++ "'")%string = Some "'"%char) as L by apply app_prime_last.
      destruct C as [C|[C|[C|[]]]]; rewrite <- C in L; discriminate.
Qed.

Section Step.
Context {F : Fmt R} {TR : Trunc R}.
Variable vs : list (rv R).
Let names := names_of vs.
Hypothesis PR : printable F.
Hypothesis NE : vs <> [].
Hypothesis NA : named_apart names.
Hypothesis UP : unprimed names.

Lemma name_some k : In k names -> k <> EmptyString.
Proof. intros I. destruct NA as [_ S]. destruct (S k I) as [[[G _] _] _]. exact G. Qed.

Lemma primes_differ k k' : In k names -> In k' names -> (k ++ "'")%string <> k'.
Proof. intros _ I C. exact (UP k' I k (eq_sym C)). Qed.

(** The values of a proposal. *)
Definition held {A} (xs ys : list A) : odict A := (combine names xs ++ combine (map prime names) ys)%list.

Lemma held_keys {A} (xs ys : list A) : length xs = length names -> length ys = length names ->
  od_keys (held xs ys) = (names ++ map prime names)%list.
Proof. intros L1 L2. unfold held, od_keys in *. rewrite map_app. f_equal; apply zip_keys; [|rewrite map_length]; auto. Qed.

Lemma held_nodup : NoDup (names ++ map prime names).
Proof.
  apply nodup_app_iff. split; [apply NA|]. split; [apply primed_apart; exact NA|].
  intros k I J. apply in_map_iff in J. destruct J as (k0 & E & J). exact (primes_differ k0 k J I E).
Qed.

Lemma held_get {A} (xs ys : list A) i k : length xs = length names -> length ys = length names -> nth_error names i = Some k ->
  od_get (held xs ys) k = nth_error xs i /\ od_get (held xs ys) (k ++ "'")%string = nth_error ys i.
Proof.
  intros L1 L2 I. assert (LI : i < length names) by (apply nth_error_Some; congruence).
  destruct (nth_error xs i) as [x|] eqn:X; [|apply nth_error_None in X; lia].
  destruct (nth_error ys i) as [y|] eqn:Y; [|apply nth_error_None in Y; lia].
  assert (ND : NoDup (od_keys (held xs ys))) by (rewrite held_keys by assumption; exact held_nodup).
  split; apply od_in_get; try exact ND; apply in_or_app; [left|right].
  - apply od_get_in. eapply zip_get; [apply NA|exact I|exact X].
  - apply od_get_in. eapply (zip_get (map prime names)); [apply primed_apart; exact NA| |exact Y]. rewrite nth_error_map, I. reflexivity.
Qed.

Lemma held_suffixed {A} (xs ys : list A) : length xs = length names -> length ys = length names ->
  get_suffixed (held xs ys) true "'"%char = Ok (combine names ys).
Proof.
  intros L1 L2. unfold get_suffixed, held. rewrite fold_res_app.
  assert (P1 : forall l ws acc, incl l names -> fold_res (fun vals kv =>
    let! s := suffixed "'"%char (fst kv) in
    Ok (if s then od_set vals (if true then init_str (fst kv) else fst kv) (snd kv) else vals)) (combine l ws) acc = Ok (acc : odict A)).
  { induction l as [|k l IH]; intros [|w ws] acc IN; try reflexivity. cbn [combine fold_res fst snd].
    rewrite unprimed_suffixed; [|apply name_some; apply IN; left; reflexivity|apply UP; apply IN; left; reflexivity].
    cbn [bind]. apply IH. intros z Hz. apply IN. right. exact Hz. }
  rewrite P1 by apply incl_refl. cbn [bind].
  assert (P2 : forall l ws acc, NoDup (od_keys acc ++ l) -> length ws = length l -> fold_res (fun vals kv =>
    let! s := suffixed "'"%char (fst kv) in
    Ok (if s then od_set vals (if true then init_str (fst kv) else fst kv) (snd kv) else vals)) (combine (map prime l) ws) acc = Ok ((acc ++ combine l ws)%list : odict A)).
  { induction l as [|k l IH]; intros [|w ws] acc ND E; try discriminate; cbn [map combine fold_res fst snd]; [rewrite app_nil_r; reflexivity|].
    unfold prime at 1. rewrite primed_suffixed. cbn [bind].
    assert (init_str (prime k) = k) as -> by apply app_prime_init.
    assert (NK : ~ In k (od_keys acc)) by (intros C; apply NoDup_remove_2 in ND; apply ND, in_or_app; auto).
    rewrite OdLemmas.od_set_new by exact NK. rewrite IH; [rewrite <- app_assoc; reflexivity| |cbn in E; lia].
    unfold od_keys in *. rewrite map_app, <- app_assoc. exact ND. }
  apply P2; [apply NA|exact L2].
Qed.

Lemma od_get_map_vals {B C} (g : B -> C) (d : odict B) k : od_get (map (fun kx => (fst kx, g (snd kx))) d) k = option_map g (od_get d k).
Proof. induction d as [|[k0 x] d IH]; [reflexivity|]. cbn. destruct (String.eqb k k0); [reflexivity|exact IH]. Qed.

Lemma combine_map_look {A} (xs : list A) (g : string -> A) : length xs = length names -> NoDup names ->
  (forall k x, od_get (combine names xs) k = Some x -> g k = x) -> combine names xs = map (fun k => (k, g k)) names.
Proof.
  generalize names as l. intros l E ND H.
  assert (GN : forall i k x, nth_error l i = Some k -> nth_error xs i = Some x -> g k = x) by (intros; eapply H, zip_get; eauto).
  clear H ND. revert xs E GN. induction l as [|k l IH]; intros [|x xs] E GN; try discriminate; [reflexivity|]. cbn [combine map].
  rewrite (GN 0 k x eq_refl eq_refl). f_equal. apply IH; [auto|]. intros i. apply (GN (S i)).
Qed.

(** d holds the values xs of the variables, in some order. *)
Definition gives (d : odict (pyval R)) (xs : list (pyval R)) : Prop :=
  NoDup (od_keys d) /\ incl (od_keys d) names /\ Forall2 (fun k x => od_get d k = Some x) names xs.

Lemma zip_gives xs : length xs = length names -> gives (combine names xs) xs.
Proof.
  intros L. unfold gives. rewrite zip_keys by exact L. split; [apply NA|]. split; [apply incl_refl|]. apply zip_get_all; [apply NA|exact L].
Qed.

Definition look (d : odict (pyval R)) (k : string) : pyval R := match od_get d k with Some x => x | None => PF 0%R end.

Lemma gives_look d xs k : gives d xs -> In k names -> od_get d k = Some (look d k).
Proof.
  intros (_ & _ & FF) I. unfold look. destruct (od_get d k) eqn:Q; [reflexivity|]. exfalso.
  revert FF I Q. generalize names as l. intros l FF. induction FF as [|k0 x l xs0 H FF IH]; intros I Q; [destruct I|]. destruct I as [->|I]; [congruence|auto].
Qed.

Lemma gives_zip d xs : gives d xs -> combine names xs = map (fun k => (k, look d k)) names.
Proof.
  intros (_ & _ & FF). revert FF. generalize names as l. intros l FF. induction FF as [|k x l xs0 H FF IH]; [reflexivity|]. cbn [combine map].
  unfold look at 1. rewrite H. f_equal. exact IH.
Qed.

Lemma gives_len d xs : gives d xs -> length xs = length names.
Proof. intros (_ & _ & FF). symmetry. clear - FF. induction FF; cbn; congruence. Qed.

Lemma both_ok pred succ xs ys : gives pred xs -> gives succ ys -> both names pred succ = Ok (held xs ys).
Proof.
  intros G1 G2. unfold both. pose proof (gives_len _ _ G1) as L1. pose proof (gives_len _ _ G2) as L2.
  rewrite map_res_all with (g := fun k => (k, look pred k)).
  2:{ intros k I. assert (od_getR pred k = Ok (look pred k)) as -> by (apply od_getR_ok, (gives_look pred xs); assumption). reflexivity. }
  cbn [bind]. rewrite map_res_all with (g := fun k => (prime k, look succ k)).
  2:{ intros k I. assert (od_getR succ k = Ok (look succ k)) as -> by (apply od_getR_ok, (gives_look succ ys); assumption). reflexivity. }
  cbn [bind]. f_equal.
  assert (C1 : combine names xs = map (fun k => (k, look pred k)) names) by (apply gives_zip; exact G1).
  assert (C2 : combine (map prime names) ys = map (fun k => (prime k, look succ k)) names).
  { assert (CM : combine (map prime names) ys = map (fun kx => (prime (fst kx), snd kx)) (combine names ys)).
    { clear. generalize names as l. intros l. revert ys. induction l as [|k l IH]; intros [|y ys]; try reflexivity. cbn. f_equal. apply IH. }
    rewrite CM. rewrite (gives_zip succ ys G2), map_map. reflexivity. }
  rewrite <- C1, <- C2. apply (Lik_Slice.od_of_list_nodup (held xs ys)). rewrite held_keys by assumption. exact held_nodup.
Qed.

Lemma zip_filter {A} (xs : list A) : filter (fun kv => mem_str (fst kv) names) (combine names xs) = combine names xs.
Proof.
  assert (H : forall kv, In kv (combine names xs) -> mem_str (fst kv) names = true).
  { intros [k x] I. apply mem_str_iff. apply in_combine_l in I. exact I. }
  revert H. generalize (combine names xs) as l. induction l as [|kv l IH]; intros H; [reflexivity|]. cbn. rewrite H by (left; reflexivity). f_equal. apply IH. intros z I. apply H. right. exact I.
Qed.

(** What a step proposes. *)
Lemma step_to_ok sd tf pred succ xs ys qd : rf_rvs (sd_rf sd) = vs -> fd_keys (rf_fld (sd_rf sd)) = names ->
  eval_pscale (spec_of (sd_pscale sd)) = Ok (sd_pscale sd) ->
  gives pred xs -> gives succ ys -> computes names qd tf ->
  exists p, step_to sd tf pred succ = Ok (mkCD p (held xs ys)) /\ valid_pd p [] /\
    od_keys (p_marg p) = map prime names /\ od_keys (p_cond p) = names /\ p_pscale p = sd_pscale sd /\
    (exists t, p_prob p = Some t /\ shape t = [] /\ get t [] = qd xs ys).
Proof.
  intros RV KV EQ G1 G2 CQ. set (q := sd_pscale sd) in *. pose proof (gives_len _ _ G1) as L1. pose proof (gives_len _ _ G2) as L2.
  set (ev := map (fun kx => (fst kx, @VNum R (as_num (snd kx)))) (held xs ys)).
  assert (KA : od_keys ev = (names ++ map prime names)%list).
  { unfold ev, od_keys. rewrite map_map. cbn [fst]. exact (held_keys xs ys L1 L2). }
  assert (NDA : NoDup (od_keys ev)) by (rewrite KA; exact held_nodup).
  assert (VG : forall k, In k names -> od_get ev k = Some (VNum (as_num (look pred k))) /\ od_get ev (prime k) = Some (VNum (as_num (look succ k)))).
  { intros k I. unfold ev. rewrite !(od_get_map_vals (fun x => VNum (as_num x))).
    destruct (In_nth_error _ _ I) as (i & Ii). destruct (held_get xs ys i k L1 L2 Ii) as [-> H2]. unfold prime. rewrite H2.
    assert (N1 : i < length names) by (apply nth_error_Some; congruence).
    destruct (nth_error xs i) as [x|] eqn:X; [|apply nth_error_None in X; lia].
    destruct (nth_error ys i) as [y|] eqn:Y; [|apply nth_error_None in Y; lia]. cbn [option_map].
    destruct G1 as (_ & _ & G1). destruct G2 as (_ & _ & G2).
    assert (FN : forall l m (d : odict (pyval R)), Forall2 (fun k x => od_get d k = Some x) l m -> forall i k x, nth_error l i = Some k -> nth_error m i = Some x -> look d k = x).
    { clear. induction 1 as [|k x l m H FF IH]; intros [|i] k' x' I1 I2; cbn in I1, I2; try discriminate; [|eauto].
      injection I1 as ->. injection I2 as ->. unfold look. rewrite H. reflexivity. }
    rewrite (FN _ _ _ G1 i k x Ii X), (FN _ _ _ G2 i k y Ii Y). auto. }
  set (marg := map (fun k => (prime k, fname (prime k) (FNum (look succ k)))) names).
  set (cond := map (fun k => (k, fname k (FNum (look pred k)))) names).
  assert (KM : od_keys marg = map prime names) by (unfold od_keys, marg; rewrite map_map; reflexivity).
  assert (KC : od_keys cond = names) by (unfold od_keys, cond; rewrite map_map; apply map_id).
  pose proof (primed_apart names NA) as NP.
  assert (SK : forall k, In k names -> simple_key k /\ simple_key (prime k)).
  { intros k I. split; [apply NA; exact I|]. apply NP. apply in_map_iff. exists k. split; [reflexivity|exact I]. }
  destruct (CQ (numbers (held xs ys)) xs ys) as (t & Et & St & Gt).
  { apply forall2_nth; [auto|]. intros i k x I X. unfold numbers. rewrite (od_get_map (fun x => tscalar x)).
    destruct (held_get xs ys i k L1 L2 I) as [-> _]. rewrite X. reflexivity. }
  { apply forall2_nth; [auto|]. intros i k y I Y. unfold numbers. rewrite (od_get_map (fun x => tscalar x)).
    destruct (held_get xs ys i k L1 L2 I) as [_ ->]. rewrite Y. reflexivity. }
  destruct (make_pd_ok ev [] [] marg cond t (spec_of q) q) as (p & E & VP & _ & M1 & M2 & M3 & M4 & M5); auto.
  - intros C. assert (Z : od_keys ev = []) by (rewrite C; reflexivity). rewrite KA in Z. apply app_eq_nil in Z. destruct Z as [Z _].
    unfold names, names_of in Z. apply map_eq_nil in Z. contradiction.
  - rewrite KA. intros k I. apply in_app_or in I. destruct I as [I|I]; [apply NA; exact I|]. apply NP. exact I.
  - constructor.
  - intros k [].
  - intros k v G _. split; [|left; reflexivity]. apply od_get_in in G. apply in_map_iff in G. destruct G as (k' & G & _); injection G as _ <-; reflexivity.
  - intros j k Hj. destruct j; discriminate.
  - intros k [].
  - constructor.
  - rewrite St. reflexivity.
  - apply Forall_app. split; apply Forall_map, Forall_forall; intros k I; cbn [fst snd]; apply fname_good; try exact PR; apply SK; exact I.
  - rewrite map_app. apply Forall_app. split; unfold marg, cond; rewrite map_map; apply Forall_map, Forall_forall; intros k I;
      unfold render; cbn [fst snd mem_str existsb]; [rewrite (proj2 (VG k I))|rewrite (proj1 (VG k I))]; cbn [fmt_value]; apply PD_Rekey.good_join; try apply PR; apply SK; exact I.
  - rewrite KM, KC, KA. apply Permutation_app_comm.
  - exists p. split.
    { unfold step_to. rewrite KV, RV. rewrite (both_ok pred succ xs ys G1 G2). cbn [bind]. rewrite Et. cbn [bind].
      assert (SE : map (fun k => (k, match od_get succ k with Some x => x | None => PF n0 end)) names = combine names ys) by (symmetry; exact (gives_zip succ ys G2)).
      rewrite SE.
      fold (names_of vs).
      rewrite (RF_Step.entries_name vs (combine names ys) "'" (look succ)), (RF_Step.entries_name vs pred "" (look pred)).
      2-4: first [apply G1|intros k I; apply (gives_look pred xs); assumption].
      2-4: rewrite ?zip_keys by assumption; first [apply NA|apply incl_refl|idtac].
      2:{ intros k I. rewrite (gives_zip succ ys G2). apply od_in_get.
          - unfold od_keys. rewrite map_map. cbn [fst]. rewrite map_id. apply NA.
          - apply in_map_iff. exists k. auto. }
      change (make_pd ?n (map _ (held xs ys)) _ _ _) with (make_pd n ev (Some []) (Some t) (spec_of q)).
      assert (NM : join "|" [join "," (map (fun k => fname (k ++ "'") (FNum (look succ k))) (names_of vs)); join "," (map (fun k => fname (k ++ "") (FNum (look pred k))) (names_of vs))]
        = margcond_str (od_vals marg) (od_vals cond)).
      { unfold margcond_str. fold names.
        assert (M1' : od_vals marg = map (fun k => fname (k ++ "'") (FNum (look succ k))) names) by (unfold od_vals, marg; rewrite map_map; reflexivity).
        assert (M2' : od_vals cond = map (fun k => fname (k ++ "") (FNum (look pred k))) names).
        { unfold od_vals, cond. rewrite map_map. apply map_ext. intros k. rewrite app_empty. reflexivity. }
        rewrite M1', M2'. destruct (String.eqb_spec (join "," (map (fun k => fname (k ++ "") (FNum (look pred k))) names)) "") as [Z|Z]; [|reflexivity].
        exfalso. revert Z. apply join_nonempty.
        - unfold names, names_of. intros C. apply map_eq_nil, map_eq_nil in C. contradiction.
        - apply Forall_map, Forall_forall. intros k I C. rewrite app_empty in C.
          destruct (fname_good PR k (FNum (look pred k)) (proj1 (SK k I))) as [[G _] _]. contradiction. }
      rewrite NM. match goal with |- context [make_pd ?n ?v ?d ?c ?e] => assert (make_pd n v d c e = Ok p) as -> by exact E end. reflexivity. }
    split; [exact VP|]. split; [rewrite M1, render_keys; exact KM|]. split; [rewrite M2, render_keys; exact KC|]. split; [exact M4|].
    exists t. auto.
Qed.

Lemma step_ok ch xs ys r qd : ch_rvs ch = vs -> ch_keys ch = names -> eval_pscale (spec_of (sd_pscale (ch_sd ch))) = Ok (sd_pscale (ch_sd ch)) ->
  length xs = length names -> length ys = length names ->
  successors ch (combine names xs) r = Ok (combine names ys) -> computes names qd (tran_of (ch_tran ch)) ->
  exists p, chain_step ch (combine names xs) r = Ok (mkCD p (held xs ys)) /\ valid_pd p [] /\
    od_keys (p_marg p) = map prime names /\ od_keys (p_cond p) = names /\ p_pscale p = sd_pscale (ch_sd ch) /\
    (exists t, p_prob p = Some t /\ shape t = [] /\ get t [] = qd xs ys).
Proof.
  intros RV KV EQ L1 L2 SU CQ. unfold chain_step, known. rewrite KV, zip_filter, SU. cbn [bind].
  apply step_to_ok; try assumption; apply zip_gives; assumption.
Qed.
End Step.
