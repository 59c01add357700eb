(** Proofs about the naming functions of pd_utils.py. *)
From Coq Require Import Ascii String ZArith Bool Arith Lia List.
From Verif Require Import Base Names Names_Spec.
Import ListNotations.
Local Open Scope string_scope.

Lemma occurs_app c s t : occurs c (s ++ t) <-> occurs c s \/ occurs c t.
Proof.
  unfold occurs. induction s; cbn; [tauto|]. rewrite IHs. tauto.
Qed.

Lemma find_char_none c s : find_char c s = None <-> ~ occurs c s.
Proof.
  unfold occurs. induction s as [|a s IH]; cbn; [tauto|].
  destruct (Ascii.eqb_spec a c).
  - split; [discriminate|]. intros H. exfalso. apply H. auto.
  - destruct (find_char c s); [split; [discriminate|]|].
    + intros H. exfalso. assert (~ In c (list_ascii_of_string s)) by tauto.
      apply IH in H0. discriminate.
    + split; auto. intros _ [H|H]; [congruence|]. apply IH in H; auto.
Qed.

Lemma has_char_false c s : has_char c s = false <-> ~ occurs c s.
Proof.
  unfold has_char. rewrite <- find_char_none. destruct (find_char c s); split; congruence.
Qed.

Lemma has_char_true c s : has_char c s = true <-> occurs c s.
Proof.
  unfold has_char. destruct (find_char c s) eqn:E.
  - split; auto. intros _. destruct (in_dec ascii_dec c (list_ascii_of_string s)); auto.
    apply find_char_none in n0. congruence.
  - split; [discriminate|]. intros H. apply find_char_none in E. contradiction.
Qed.

Lemma append_nil_r' (s : string) : s ++ "" = s.
Proof. induction s; cbn; congruence. Qed.

Lemma append_assoc' (s t u : string) : (s ++ t) ++ u = s ++ (t ++ u).
Proof. induction s; cbn; congruence. Qed.

Lemma split_char_free c s : ~ occurs c s -> split_char c s = [s].
Proof.
  unfold occurs. induction s as [|a s IH]; cbn; auto. intros H.
  destruct (Ascii.eqb_spec a c); [exfalso; auto|].
  rewrite IH by tauto. reflexivity.
Qed.

Lemma split_char_app c s t :
  ~ occurs c s -> split_char c (s ++ String c t) = s :: split_char c t.
Proof.
  unfold occurs. induction s as [|a s IH]; cbn; intros H.
  - rewrite Ascii.eqb_refl. reflexivity.
  - destruct (Ascii.eqb_spec a c); [exfalso; auto|].
    rewrite IH by tauto. reflexivity.
Qed.

Lemma split_join c l :
  l <> [] -> Forall (fun s => ~ occurs c s) l ->
  split_char c (join (String c "") l) = l.
Proof.
  induction l as [|s l IH]; intros NE F; [contradiction|].
  inversion F; subst. destruct l as [|t l].
  - cbn. apply split_char_free; auto.
  - change (join (String c "") (s :: t :: l))
      with (s ++ String c (join (String c "") (t :: l))).
    rewrite split_char_app by auto. rewrite IH; auto. discriminate.
Qed.

Lemma join_free c sep l :
  ~ occurs c sep -> Forall (fun s => ~ occurs c s) l -> ~ occurs c (join sep l).
Proof.
  intros Hs F. induction F as [|s l Hsl F IH]; [cbn; tauto|].
  destruct l as [|t l]; [cbn; auto|].
  change (join sep (s :: t :: l)) with (s ++ sep ++ join sep (t :: l)).
  rewrite !occurs_app. tauto.
Qed.

Lemma join_nonempty sep l :
  l <> [] -> Forall (fun s => s <> "") l -> join sep l <> "".
Proof.
  intros NE F. destruct F as [|s l Hs F]; [contradiction|].
  destruct l; cbn; auto. destruct s; cbn; congruence.
Qed.

(** *** str2key *)

Lemma find_char_take c s n :
  find_char c s = Some n ->
  s = str_take n s ++ String c (str_drop (S n) s) /\ ~ occurs c (str_take n s).
Proof.
  revert n. induction s as [|a s IH]; cbn; intros n H; [discriminate|].
  destruct (Ascii.eqb_spec a c).
  - inversion H; subst. cbn. split; [reflexivity|]. unfold occurs. cbn. tauto.
  - destruct (find_char c s) eqn:E; [|discriminate]. inversion H; subst.
    destruct (IH n1 eq_refl) as [H1 H2]. cbn. split.
    + f_equal. exact H1.
    + unfold occurs in *. cbn. intros [H3|H3]; auto.
Qed.

Lemma str2key_key_of s : key_of s (str2key s).
Proof.
  unfold key_of, str2key. destruct (find_char "=" s) as [[|k]|] eqn:E.
  - right. split; auto. right. apply find_char_take in E. destruct E as [E _].
    cbn in E. eexists. exact E.
  - left. apply find_char_take in E. destruct E as [E1 E2].
    exists (str_drop (S (S k)) s). split; [exact E1|]. split; auto.
    destruct s; cbn in *; discriminate.
  - right. split; auto. left. apply find_char_none. auto.
Qed.

Lemma app_inj_free c s t u v :
  ~ occurs c s -> ~ occurs c t -> s ++ String c u = t ++ String c v -> s = t /\ u = v.
Proof.
  unfold occurs. revert t. induction s as [|a s IH]; intros [|b t] H1 H2 E; cbn in *.
  - inversion E; auto.
  - inversion E; subst. exfalso; auto.
  - inversion E; subst. exfalso; auto.
  - inversion E; subst. destruct (IH t) as [K3 K4]; auto. subst. auto.
Qed.

(** The key of an entry is unique. *)
Lemma key_of_fun e k1 k2 : key_of e k1 -> key_of e k2 -> k1 = k2.
Proof.
  intros [(r & E & NE & F)|(E & H)] [(r' & E' & NE' & F')|(E' & H')].
  - rewrite E in E'. cbn in E'. apply app_inj_free in E'; tauto.
  - subst k2. exfalso. destruct H' as [H'|(r' & H')].
    + apply H'. rewrite E. rewrite occurs_app. right. unfold occurs. cbn. auto.
    + rewrite E in H'. destruct k1; [auto|]. cbn in H'. inversion H'; subst.
      apply F. unfold occurs. cbn. auto.
  - subst k1. exfalso. destruct H as [H|(r & H)].
    + apply H. rewrite E'. rewrite occurs_app. right. unfold occurs. cbn. auto.
    + rewrite E' in H. destruct k2; [auto|]. cbn in H. inversion H; subst.
      apply F'. unfold occurs. cbn. auto.
  - congruence.
Qed.

(** *** keyed *)

Lemma od_set_new {A} (d : odict A) k v :
  ~ In k (od_keys d) -> od_set d k v = (d ++ [(k, v)])%list.
Proof.
  induction d as [|[k' v'] d IH]; cbn; auto. intros H.
  destruct (String.eqb_spec k k'); [exfalso; auto|].
  rewrite IH; auto.
Qed.

Lemma keyed_acc l d :
  NoDup (od_keys d ++ map str2key l) ->
  fold_left (fun d s => od_set d (str2key s) s) l d
  = (d ++ map (fun e => (str2key e, e)) l)%list.
Proof.
  revert d. induction l as [|e l IH]; intros d H; cbn.
  - rewrite app_nil_r. reflexivity.
  - cbn in H. pose proof (NoDup_remove_2 _ _ _ H) as H2.
    rewrite od_set_new by (intros H3; apply H2; apply in_or_app; auto).
    rewrite IH.
    + rewrite <- app_assoc. reflexivity.
    + unfold od_keys in *. rewrite map_app, <- app_assoc. exact H.
Qed.

Lemma keyed_nodup l :
  NoDup (map str2key l) -> keyed l = map (fun e => (str2key e, e)) l.
Proof. intros H. unfold keyed. rewrite keyed_acc; auto. Qed.

(** *** the round trip *)

Lemma comma_list_join l :
  Forall good_entry l -> comma_list (join "," l) = l.
Proof.
  intros F. unfold comma_list. destruct l as [|e l]; [reflexivity|].
  assert (J : join "," (e :: l) <> "").
  { apply join_nonempty; [discriminate|]. eapply Forall_impl; [|exact F].
    intros a [H _]; auto. }
  destruct (String.eqb_spec (join "," (e :: l)) ""); [contradiction|].
  apply split_join; [discriminate|]. eapply Forall_impl; [|exact F].
  intros a H. apply H.
Qed.

Lemma paren_free s : ~ occurs "(" s -> ~ occurs ")" s -> paren_slice s = Ok s.
Proof.
  intros H1 H2. apply find_char_none in H1. apply find_char_none in H2.
  unfold paren_slice. rewrite H1, H2. reflexivity.
Qed.

Lemma occurs_comma c : c <> ","%char -> ~ occurs c ",".
Proof. intros H [H1|[]]. congruence. Qed.

Lemma name_round_trip marg cond :
  Forall good_entry marg -> Forall good_entry cond ->
  NoDup (map str2key marg) -> NoDup (map str2key cond) ->
  str_margcond (margcond_str marg cond) =
  Ok (map (fun e => (str2key e, e)) marg, map (fun e => (str2key e, e)) cond).
Proof.
  intros Fm Fc Nm Nc.
  assert (Free : forall c l, c <> ","%char -> Forall good_entry l ->
            (forall e, good_entry e -> ~ occurs c e) -> ~ occurs c (join "," l)).
  { intros c l Hc F H. apply join_free; [apply occurs_comma; auto|].
    eapply Forall_impl; [|exact F]. auto. }
  assert (GP : forall e, good_entry e -> ~ occurs "|" e) by (intros e H; apply H).
  assert (GL : forall e, good_entry e -> ~ occurs "(" e) by (intros e H; apply H).
  assert (GR : forall e, good_entry e -> ~ occurs ")" e) by (intros e H; apply H).
  pose proof (Free "|"%char marg ltac:(discriminate) Fm GP) as Mp.
  pose proof (Free "("%char marg ltac:(discriminate) Fm GL) as Ml.
  pose proof (Free ")"%char marg ltac:(discriminate) Fm GR) as Mr.
  pose proof (Free "|"%char cond ltac:(discriminate) Fc GP) as Cp.
  pose proof (Free "("%char cond ltac:(discriminate) Fc GL) as Cl.
  pose proof (Free ")"%char cond ltac:(discriminate) Fc GR) as Cr.
  unfold margcond_str. destruct (String.eqb_spec (join "," cond) "") as [Ec|Ec].
  - assert (cond = []).
    { destruct cond as [|e cond]; auto. exfalso.
      apply (join_nonempty "," (e :: cond)); [discriminate| |exact Ec].
      eapply Forall_impl; [|exact Fc]. intros a [H _]; auto. }
    subst cond. unfold str_margcond.
    destruct (String.eqb_spec (join "," marg) "") as [Em|Em].
    { assert (marg = []).
      { destruct marg as [|e marg]; auto. exfalso.
        apply (join_nonempty "," (e :: marg)); [discriminate| |exact Em].
        eapply Forall_impl; [|exact Fm]. intros a [H _]; auto. }
      subst. reflexivity. }
    rewrite paren_free by auto. cbn [bind].
    apply has_char_false in Mp. rewrite Mp. cbn [bind].
    rewrite comma_list_join by auto. rewrite keyed_nodup by auto. reflexivity.
  - set (m := join "," marg) in *. set (c := join "," cond) in *.
    assert (J : join "|" [m; c] = m ++ String "|"%char c) by reflexivity.
    rewrite J. unfold str_margcond.
    destruct (String.eqb_spec (m ++ String "|"%char c) "") as [E|_].
    { destruct m; discriminate. }
    rewrite paren_free.
    2: { rewrite occurs_app. unfold occurs at 2. cbn. intros [H|[H|H]]; auto; discriminate. }
    2: { rewrite occurs_app. unfold occurs at 2. cbn. intros [H|[H|H]]; auto; discriminate. }
    cbn [bind].
    assert (H : has_char "|" (m ++ String "|"%char c) = true).
    { apply has_char_true. rewrite occurs_app. right. unfold occurs. cbn. auto. }
    rewrite H. rewrite split_char_app by auto. rewrite split_char_free by auto.
    cbn [bind]. unfold m, c. rewrite !comma_list_join by auto.
    rewrite !keyed_nodup by auto. reflexivity.
Qed.

(** In the terms of the specification. *)
Lemma entries_dict_unique l d :
  entries_dict l d <-> d = map (fun e => (str2key e, e)) l.
Proof.
  unfold entries_dict. split.
  - intros [E F]. revert l E. induction d as [|[k e] d IH]; intros l E; subst; cbn; auto.
    inversion F; subst. cbn in *. f_equal; [|apply IH; auto].
    f_equal. eapply key_of_fun; eauto. apply str2key_key_of.
  - intros ->. rewrite map_map. cbn. rewrite map_id. split; auto.
    induction l; cbn; constructor; auto. cbn. apply str2key_key_of.
Qed.

Lemma keys_of_entries l d : entries_dict l d -> map fst d = map str2key l.
Proof.
  intros H. apply entries_dict_unique in H. subst. rewrite map_map. reflexivity.
Qed.

Lemma name_round_trip_spec marg cond dm dc :
  Forall good_entry marg -> Forall good_entry cond ->
  entries_dict marg dm -> entries_dict cond dc ->
  NoDup (map fst dm) -> NoDup (map fst dc) ->
  str_margcond (margcond_str marg cond) = Ok (dm, dc).
Proof.
  intros Fm Fc Em Ec Nm Nc.
  rewrite (keys_of_entries _ _ Em) in Nm. rewrite (keys_of_entries _ _ Ec) in Nc.
  rewrite name_round_trip by auto.
  apply entries_dict_unique in Em. apply entries_dict_unique in Ec. subst. reflexivity.
Qed.

(** *** parentheses *)

Lemma find_char_app_some c s t n : find_char c s = Some n -> find_char c (s ++ t) = Some n.
Proof.
  revert n. induction s as [|a s IH]; cbn; intros n H; [discriminate|].
  destruct (Ascii.eqb a c); auto.
  destruct (find_char c s); [|discriminate]. rewrite (IH n0 eq_refl). auto.
Qed.

Lemma find_char_app_none c s t :
  ~ occurs c s -> find_char c (s ++ String c t) = Some (String.length s).
Proof.
  unfold occurs. induction s as [|a s IH]; cbn; intros H.
  - rewrite Ascii.eqb_refl. reflexivity.
  - destruct (Ascii.eqb_spec a c); [exfalso; auto|].
    rewrite IH by tauto. reflexivity.
Qed.

(** A name of the form f(inside) with f not empty parses to nothing at all. *)
Lemma paren_name_lost f inside :
  f <> "" -> ~ occurs "(" f -> ~ occurs ")" f ->
  ~ occurs ")" inside ->
  str_margcond (f ++ "(" ++ inside ++ ")") = Ok ([], []).
Proof.
  intros NE Fl Fr Ir. unfold str_margcond.
  destruct (String.eqb_spec (f ++ "(" ++ inside ++ ")") "") as [E|_].
  { destruct f; [contradiction|discriminate]. }
  unfold paren_slice.
  assert (L : find_char "(" (f ++ "(" ++ inside ++ ")") = Some (String.length f)).
  { change ("(" ++ inside ++ ")") with (String "("%char (inside ++ ")")).
    apply find_char_app_none; auto. }
  assert (Rr : find_char ")" (f ++ "(" ++ inside ++ ")") =
               Some (String.length (f ++ "(" ++ inside))).
  { replace (f ++ "(" ++ inside ++ ")") with ((f ++ "(" ++ inside) ++ String ")"%char "").
    2: { rewrite !append_assoc'. reflexivity. }
    rewrite find_char_app_none; auto.
    rewrite !occurs_app. unfold occurs at 2. cbn. intros [H|[[H|[]]|H]]; auto. discriminate. }
  rewrite L, Rr.
  assert (Lt : Nat.ltb (String.length f) (String.length (f ++ "(" ++ inside)) = true).
  { apply Nat.ltb_lt. clear. induction f; cbn in *; lia. }
  rewrite Lt.
  destruct (Nat.eqb_spec (String.length f) 0) as [E|_].
  { destruct f; [contradiction|discriminate]. }
  reflexivity.
Qed.
