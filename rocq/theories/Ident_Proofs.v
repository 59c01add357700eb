(** Proofs about names, symbols and Deltas. *)
From Coq Require Import String Ascii ZArith Bool Arith Lia List.
From Verif Require Import Base OdLemmas Num VariableModel IdentModel Ident_Spec.
Import ListNotations.
Set Implicit Arguments.

Lemma letter_iff c : is_letter c = true <-> In c letters.
Proof.
  split.
  - destruct c as [[] [] [] [] [] [] [] []]; cbn; intros H; try discriminate H; tauto.
  - intros H. cbn in H. repeat (destruct H as [<-|H]; [reflexivity|]). destruct H.
Qed.
Lemma digit_iff c : is_digit c = true <-> In c digits.
Proof.
  split.
  - destruct c as [[] [] [] [] [] [] [] []]; cbn; intros H; try discriminate H; tauto.
  - intros H. cbn in H. repeat (destruct H as [<-|H]; [reflexivity|]). destruct H.
Qed.

Lemma all_iff p s : all_chars p s = true <-> forall x, In x (list_ascii_of_string s) -> p x = true.
Proof.
  induction s as [|c s IH]; cbn; [split; [tauto|reflexivity]|]. rewrite andb_true_iff, IH. split.
  - intros [H1 H2] x [<-|I]; auto.
  - intros H. split; [apply H; left; reflexivity|intros x I; apply H; right; exact I].
Qed.

Lemma reserved_iff n : In n keywords <-> In n reserved.
Proof.
  assert (A : forallb (fun k => mem_str k reserved) keywords = true) by reflexivity.
  assert (B : forallb (fun k => mem_str k keywords) reserved = true) by reflexivity.
  rewrite forallb_forall in A, B. split; intros I; apply mem_str_iff; [apply A|apply B]; exact I.
Qed.

Lemma fit_iff n : field_ok n = true <-> fit n.
Proof.
  unfold fit. destruct n as [|c s]; [split; [discriminate|intros (c & r & Q & _); discriminate]|].
  cbn [field_ok]. rewrite !andb_true_iff, negb_true_iff, letter_iff, all_iff.
  assert (K : mem_str (String c s) keywords = false <-> ~ In (String c s) reserved).
  { rewrite <- reserved_iff. split; [intros Q I; apply mem_str_iff in I; congruence|]. intros Q. destruct (mem_str (String c s) keywords) eqn:E; [|reflexivity]. apply mem_str_iff in E. contradiction. }
  rewrite K. unfold is_word. split.
  - intros [[H1 H2] H3]. exists c, s. split; [reflexivity|]. split; [exact H1|]. split; [|exact H3].
    intros x I. specialize (H2 x I). rewrite !orb_true_iff, letter_iff, digit_iff in H2. destruct H2 as [[H2|H2]|H2]; auto.
    apply Ascii.eqb_eq in H2. auto.
  - intros (c' & r & Q & H1 & H2 & H3). injection Q as <- <-. split; [split; [exact H1|]|exact H3].
    intros x I. rewrite !orb_true_iff, letter_iff, digit_iff. destruct (H2 x I) as [H|[H|H]]; auto. right. subst. reflexivity.
Qed.
Lemma unfit n : ~ fit n -> field_ok n = false.
Proof. intros H. destruct (field_ok n) eqn:E; [|reflexivity]. apply fit_iff in E. contradiction. Qed.

Lemma set_nth_get {A} (l : list A) i j x v : nth_error l i = Some v ->
  nth_error (set_nth i x l) j = if Nat.eqb i j then Some x else nth_error l j.
Proof.
  revert i j. induction l as [|y l IH]; intros [|i] [|j] H; cbn in *; try discriminate; try reflexivity. apply IH. exact H.
Qed.

Section P.
Context {S M : Type} (symbol : string -> list string -> S) (members : S -> odict M) (truth : S -> bool) (own : list string).
Implicit Types (w : world S M) (v : ident S M) (e : step S) (h : list (step S)).
Notation happen := (@happen S M symbol members own).
Notation history := (@history S M symbol members own).
Notation raised := (@raised S M symbol members own).
Notation set_icon := (@set_icon S M symbol members own).

Lemma history_app w h1 h2 : history w (h1 ++ h2) = history (history w h1) h2.
Proof. unfold IdentModel.history. apply fold_left_app. Qed.
Lemma history_cons w e h : history w (e :: h) = history (happen w e) h.
Proof. reflexivity. Qed.

(** What a step makes of variable i. *)
Definition after (w : world S M) (e : step S) (i : nat) (v : ident S M) : ident S M :=
  match e with
  | New _ _ => v
  | Rename j n => if Nat.eqb j i then fst (set_name v n (w_next w)) else v
  | SetIcon j a => if Nat.eqb j i then fst (set_icon v a) else v
  | SetDexpr j x => if Nat.eqb j i then set_dexpr v x else v
  end.

Lemma happen_var w e i v : the_var w i v -> the_var (happen w e) i (after w e i v).
Proof.
  unfold the_var. intros H. destruct e as [n st|j n|j a|j x]; cbn [IdentModel.happen after].
  - destruct (new_var _ _ _ _ _ _) as [v'|]; [|exact H]. cbn. rewrite nth_error_app1; [exact H|]. apply nth_error_Some. congruence.
  - unfold change. destruct (nth_error (w_vars w) j) as [u|] eqn:E.
    + cbn. rewrite (set_nth_get _ _ _ _ E). destruct (Nat.eqb j i) eqn:Q; [|exact H]. apply Nat.eqb_eq in Q. subst. congruence.
    + destruct (Nat.eqb j i) eqn:Q; [|exact H]. apply Nat.eqb_eq in Q. subst. congruence.
  - unfold change. destruct (nth_error (w_vars w) j) as [u|] eqn:E.
    + cbn. rewrite (set_nth_get _ _ _ _ E). destruct (Nat.eqb j i) eqn:Q; [|exact H]. apply Nat.eqb_eq in Q. subst. congruence.
    + destruct (Nat.eqb j i) eqn:Q; [|exact H]. apply Nat.eqb_eq in Q. subst. congruence.
  - unfold change. destruct (nth_error (w_vars w) j) as [u|] eqn:E.
    + cbn. rewrite (set_nth_get _ _ _ _ E). destruct (Nat.eqb j i) eqn:Q; [|exact H]. apply Nat.eqb_eq in Q. subst. congruence.
    + destruct (Nat.eqb j i) eqn:Q; [|exact H]. apply Nat.eqb_eq in Q. subst. congruence.
Qed.

(** Something about a variable that steps of one kind only can change. *)
Lemma kept_history {B} (f : ident S M -> B) (bad : step S -> Prop) i :
  (forall w e v, ~ bad e -> f (after w e i v) = f v) ->
  forall h w v, the_var w i v -> (forall e, In e h -> ~ bad e) -> exists v', the_var (history w h) i v' /\ f v' = f v.
Proof.
  intros K. induction h as [|e h IH]; intros w v Hv Hb; [exists v; auto|]. rewrite history_cons.
  destruct (IH (happen w e) (after w e i v) (happen_var e Hv) (fun x I => Hb x (or_intror I))) as (v' & Hv' & Q).
  exists v'. split; [exact Hv'|]. rewrite Q. apply K. apply Hb. left. reflexivity.
Qed.

Lemma neqb_iff j i : j <> i -> Nat.eqb j i = false.
Proof. apply Nat.eqb_neq. Qed.

(** ** Names *)
Lemma new_accepted w n st : raised w (New n st) = None <-> fit n.
Proof.
  clear truth. cbn. unfold new_var. destruct (field_ok n) eqn:E; [apply fit_iff in E; tauto|].
  split; [discriminate|]. intros F. apply fit_iff in F. congruence.
Qed.
Lemma rename_accepted w i v n : the_var w i v -> (raised w (Rename i n) = None <-> fit n).
Proof.
  clear truth. unfold the_var. intros H. cbn. rewrite H. unfold set_name. destruct (field_ok n) eqn:E; cbn; [apply fit_iff in E; tauto|].
  split; [discriminate|]. intros F. apply fit_iff in F. congruence.
Qed.
Lemma rename_done w i v n : the_var w i v -> fit n -> exists v', the_var (happen w (Rename i n)) i v' /\
  i_name v' = n /\ i_type v' = w_next w /\ i_prime v' = (if i_stoch v then Some (n ++ "'")%string else None) /\
  get_item truth v' = get_item truth v.
Proof.
  intros H F. apply fit_iff in F. exists (after w (Rename i n) i v). split; [apply happen_var; exact H|].
  cbn. rewrite Nat.eqb_refl. unfold set_name. rewrite F. cbn. auto.
Qed.
Lemma rename_refused w i v n : the_var w i v -> ~ fit n -> raised w (Rename i n) = Some ValueError /\
  exists v', the_var (happen w (Rename i n)) i v' /\ i_name v' = n /\ i_type v' = i_type v /\ i_prime v' = i_prime v.
Proof.
  intros H F. apply unfit in F. split.
  - unfold the_var in H. cbn. rewrite H. unfold set_name. rewrite F. reflexivity.
  - exists (after w (Rename i n) i v). split; [apply happen_var; exact H|]. cbn. rewrite Nat.eqb_refl. unfold set_name. rewrite F. auto.
Qed.

(** ** Symbols *)
Lemma new_var_at w n st : fit n -> the_var (happen w (New n st)) (length (w_vars w))
  (mkId n (w_next w) (if st then Some (n ++ "'")%string else None) (ISym (symbol n [])) (copy_members members own [] (symbol n [])) None st).
Proof.
  intros F. apply fit_iff in F. unfold the_var. cbn. unfold new_var. rewrite F. cbn.
  rewrite nth_error_app2 by lia. rewrite Nat.sub_diag. reflexivity.
Qed.

Lemma item_stays w i v h : the_var w i v -> (forall e, In e h -> ~ (sets_icon i e \/ sets_dexpr i e)) ->
  exists v', the_var (history w h) i v' /\ get_item truth v' = get_item truth v.
Proof.
  intros H Hb. apply (kept_history (get_item truth) (fun e => sets_icon i e \/ sets_dexpr i e)); [|exact H|exact Hb].
  clear. intros w e v NB. destruct e as [n st|j n|j a|j x]; cbn [after]; [reflexivity| | |].
  - destruct (Nat.eqb j i); [|reflexivity]. unfold set_name. destruct (field_ok n); reflexivity.
  - destruct (Nat.eqb j i) eqn:Q; [|reflexivity]. apply Nat.eqb_eq in Q. subst. exfalso. apply NB. left. exists a. reflexivity.
  - destruct (Nat.eqb j i) eqn:Q; [|reflexivity]. apply Nat.eqb_eq in Q. subst. exfalso. apply NB. right. exists x. reflexivity.
Qed.

Lemma plain_item v : plain truth v -> get_item truth v = i_icon v.
Proof. intros P. unfold get_item. destruct (i_dexpr v) as [x|] eqn:E; [|reflexivity]. rewrite (P x E). reflexivity. Qed.

Lemma icon_set w i v a : the_var w i v -> plain truth v -> exists v', the_var (happen w (SetIcon i a)) i v' /\ i_name v' = i_name v /\
  (match a with
   | IANone => get_item truth v' = ISym (symbol (i_name v) []) /\ raised w (SetIcon i a) = None
   | IAStr n l => get_item truth v' = ISym (symbol n l) /\ raised w (SetIcon i a) = None
   | IASym s => get_item truth v' = ISym s /\ raised w (SetIcon i a) = None
   | IAOther id => get_item truth v' = IJunk id /\ raised w (SetIcon i a) = Some TypeError
   end).
Proof.
  intros H P. exists (after w (SetIcon i a) i v). split; [apply happen_var; exact H|].
  assert (Pl : plain truth (after w (SetIcon i a) i v)).
  { intros x Q. apply P. rewrite <- Q. cbn. rewrite Nat.eqb_refl. destruct a; reflexivity. }
  rewrite (plain_item Pl). unfold the_var in H. cbn. rewrite Nat.eqb_refl, H. destruct a; cbn; auto.
Qed.

(** ** Attributes *)
Lemma copy_keeps l : forall (a : odict M) m x, od_get a m = Some x ->
  od_get (fold_left (fun (a : odict M) (kv : string * M) => if mem_str (fst kv) own || od_mem a (fst kv) then a else od_set a (fst kv) (snd kv)) l a) m = Some x.
Proof.
  induction l as [|[k y] l IH]; intros a m x G; cbn [fold_left fst snd]; [exact G|]. apply IH.
  destruct (mem_str k own || od_mem a k) eqn:E; [exact G|]. apply orb_false_iff in E as [_ E].
  rewrite od_get_set. destruct (String.eqb m k) eqn:Q; [|exact G]. apply String.eqb_eq in Q. subst. unfold od_mem in E. rewrite G in E. discriminate.
Qed.

Lemma copy_takes l : NoDup (od_keys l) -> forall (a : odict M) m, ~ In m own -> od_get a m = None ->
  od_get (fold_left (fun (a : odict M) (kv : string * M) => if mem_str (fst kv) own || od_mem a (fst kv) then a else od_set a (fst kv) (snd kv)) l a) m = od_get l m.
Proof.
  induction l as [|[k y] l IH]; intros ND a m NO G; cbn [fold_left fst snd]; [rewrite G; reflexivity|].
  cbn in ND. inversion ND as [|? ? NI ND']; subst. cbn [od_get]. destruct (String.eqb m k) eqn:Q.
  - apply String.eqb_eq in Q. subst k. assert (E : mem_str m own || od_mem a m = false).
    { apply orb_false_iff. split; [|unfold od_mem; rewrite G; reflexivity]. destruct (mem_str m own) eqn:X; [|reflexivity]. apply mem_str_iff in X. contradiction. }
    rewrite E. apply copy_keeps. rewrite od_get_set, String.eqb_refl. reflexivity.
  - apply IH; [exact ND'|exact NO|]. destruct (mem_str k own || od_mem a k); [exact G|]. rewrite od_get_set, Q. exact G.
Qed.

Lemma attr_kept w e i v m x : get_attr v m = Some x -> get_attr (after w e i v) m = Some x.
Proof.
  intros G. destruct e as [n st|j n|j a|j y]; cbn [after]; [exact G| | |]; destruct (Nat.eqb j i); try exact G.
  - unfold set_name. destruct (field_ok n); exact G.
  - unfold get_attr in *. destruct a; cbn; try exact G; apply copy_keeps; exact G.
Qed.

Lemma attr_history h m x i : forall w v, the_var w i v -> get_attr v m = Some x ->
  exists v', the_var (history w h) i v' /\ get_attr v' m = Some x.
Proof.
  induction h as [|e h IH]; intros w v H G; [exists v; auto|]. rewrite history_cons.
  apply (IH (happen w e) (after w e i v)); [apply happen_var; exact H|apply attr_kept; exact G].
Qed.

Lemma attr_first w n st h m x : fit n -> NoDup (od_keys (members (symbol n []))) -> ~ In m own ->
  od_get (members (symbol n [])) m = Some x ->
  exists v, the_var (history w (New n st :: h)) (length (w_vars w)) v /\ get_attr v m = Some x.
Proof.
  intros F ND NO G. rewrite history_cons. eapply attr_history; [apply new_var_at; exact F|].
  unfold get_attr. cbn. unfold copy_members. rewrite copy_takes; auto.
Qed.

(** ** Expressions *)
Lemma dexpr_item w i v x h : the_var w i v -> i_stoch v = false -> truth x = true ->
  (forall e, In e h -> ~ sets_dexpr i e) ->
  exists v', the_var (history w (SetDexpr i (Some x) :: h)) i v' /\ get_item truth v' = ISym x /\ get_dexpr v' = i_name v'.
Proof.
  intros H St Tx Hb. rewrite history_cons.
  destruct (@kept_history _ (@i_dexpr S M) (fun e => sets_dexpr i e) i) with (h := h) (w := happen w (SetDexpr i (Some x))) (v := after w (SetDexpr i (Some x)) i v) as (v' & H' & Q).
  - clear. intros w e v NB. destruct e as [n st|j n|j a|j x]; cbn [after]; [reflexivity| | |]; (destruct (Nat.eqb j i) eqn:Q; [|reflexivity]).
    + unfold set_name. destruct (field_ok n); reflexivity.
    + destruct a; reflexivity.
    + apply Nat.eqb_eq in Q. subst. exfalso. apply NB. exists x. reflexivity.
  - apply happen_var. exact H.
  - exact Hb.
  - exists v'. split; [exact H'|]. cbn in Q. rewrite Nat.eqb_refl in Q. cbn in Q. rewrite St in Q. unfold get_item. rewrite Q, Tx. auto.
Qed.

Lemma stoch_plain : forall h w v i, the_var w i v -> (i_stoch v = true -> i_dexpr v = None) ->
  exists v', the_var (history w h) i v' /\ i_stoch v' = i_stoch v /\ (i_stoch v = true -> i_dexpr v' = None).
Proof.
  induction h as [|e h IH]; intros w v i H P; [exists v; auto|]. rewrite history_cons.
  assert (Q : i_stoch (after w e i v) = i_stoch v /\ (i_stoch v = true -> i_dexpr (after w e i v) = None)).
  { destruct e as [n st|j n|j a|j x]; cbn [after]; [auto| | |]; (destruct (Nat.eqb j i); [|auto]).
    - unfold set_name. destruct (field_ok n); auto.
    - destruct a; auto.
    - cbn. split; [reflexivity|]. intros ->. reflexivity. }
  destruct Q as [Q1 Q2]. rewrite <- Q1 in Q2. destruct (IH (happen w e) (after w e i v) i (happen_var e H) Q2) as (v' & H' & R1 & R2).
  exists v'. split; [exact H'|]. rewrite <- Q1. auto.
Qed.

Lemma stoch_item w n h : fit n -> exists v, the_var (history w (New n true :: h)) (length (w_vars w)) v /\ get_item truth v = i_icon v.
Proof.
  intros F. rewrite history_cons. destruct (stoch_plain h (new_var_at w true F)) as (v & H & St & P); [reflexivity|].
  exists v. split; [exact H|]. apply plain_item. intros x Q. rewrite P in Q by reflexivity. discriminate.
Qed.

Lemma dexpr_back w i v (x : option S) h : the_var w i v -> (forall e : S, x = Some e -> truth e = false) ->
  (forall e, In e h -> ~ sets_dexpr i e) ->
  exists v', the_var (history w (SetDexpr i x :: h)) i v' /\ get_item truth v' = i_icon v'.
Proof.
  intros H Fx Hb. rewrite history_cons.
  destruct (@kept_history _ (@i_dexpr S M) (fun e => sets_dexpr i e) i) with (h := h) (w := happen w (SetDexpr i x)) (v := after w (SetDexpr i x) i v) as (v' & H' & Q).
  - clear. intros w e v NB. destruct e as [n st|j n|j a|j x]; cbn [after]; [reflexivity| | |]; (destruct (Nat.eqb j i) eqn:Q; [|reflexivity]).
    + unfold set_name. destruct (field_ok n); reflexivity.
    + destruct a; reflexivity.
    + apply Nat.eqb_eq in Q. subst. exfalso. apply NB. exists x. reflexivity.
  - apply happen_var. exact H.
  - exact Hb.
  - exists v'. split; [exact H'|]. cbn in Q. rewrite Nat.eqb_refl in Q. cbn in Q. unfold get_item. rewrite Q.
    destruct (i_stoch v); [reflexivity|]. destruct x as [e|]; [|reflexivity]. rewrite (Fx e eq_refl). reflexivity.
Qed.

Lemma copy_own (l : odict M) m : In m own -> forall a : odict M, od_get a m = None ->
  od_get (fold_left (fun (a : odict M) (kv : string * M) =>
               if mem_str (fst kv) own || od_mem a (fst kv) then a else od_set a (fst kv) (snd kv)) l a) m = None.
Proof.
  intros I. induction l as [|[k x] l IH]; intros a G; [exact G|]. cbn [fold_left fst snd]. apply IH.
  destruct (mem_str k own) eqn:Q; [exact G|]. destruct (od_mem a k); [exact G|]. cbn.
  rewrite od_get_set_ne; [exact G|]. intros X. subst. apply mem_str_iff in I. congruence.
Qed.

Lemma attr_own w n st h m : fit n -> In m own ->
  exists v, the_var (history w (New n st :: h)) (length (w_vars w)) v /\ get_attr v m = None.
Proof.
  intros F I. rewrite history_cons.
  assert (A : forall h w i v, the_var w i v -> get_attr v m = None -> exists v', the_var (history w h) i v' /\ get_attr v' m = None).
  { clear - I. induction h as [|e h IH]; intros w i v H G; [exists v; auto|]. rewrite history_cons. apply (IH _ i (after w e i v)).
    - apply happen_var. exact H.
    - destruct e as [n st|j n|j a|j x]; cbn [after]; [exact G| | |]; (destruct (Nat.eqb j i); [|exact G]).
      + unfold set_name. destruct (field_ok n); exact G.
      + unfold get_attr in *. destruct a; cbn; try exact G; apply copy_own; auto.
      + exact G. }
  eapply A; [apply new_var_at; exact F|]. unfold get_attr. cbn. apply copy_own; auto.
Qed.

(** ** Classes of Deltas *)
Definition good w : Prop :=
  (forall i v, the_var w i v -> i_type v < w_next w) /\
  (forall i j u v, the_var w i u -> the_var w j v -> i_type u = i_type v -> i = j).

Lemma type_after w e i v : i_type (after w e i v) = i_type v \/ (i_type (after w e i v) = w_next w /\ renames_well i e).
Proof.
  destruct e as [n st|j n|j a|j x]; cbn [after]; [auto| | |]; (destruct (Nat.eqb j i) eqn:Q; [|auto]).
  - unfold set_name. destruct (field_ok n) eqn:F; [|auto]. right. split; [reflexivity|]. apply Nat.eqb_eq in Q. subst. exists n. split; [reflexivity|]. apply fit_iff. exact F.
  - destruct a; auto.
  - auto.
Qed.

Lemma next_grows w e : w_next w <= w_next (happen w e).
Proof.
  destruct e as [n st|j n|j a|j x]; cbn; try (unfold change; destruct (nth_error (w_vars w) j); cbn; lia).
  destruct (new_var _ _ _ _ _ _); cbn; lia.
Qed.

(** Variables after a step were there before, or were made by it. *)
Lemma before w e i v' : the_var (happen w e) i v' -> (exists v, the_var w i v /\ v' = after w e i v) \/
  (nth_error (w_vars w) i = None /\ i_type v' = w_next w /\ w_next (happen w e) = Datatypes.S (w_next w) /\ i = length (w_vars w)).
Proof.
  intros H. destruct (nth_error (w_vars w) i) as [v|] eqn:E.
  - left. exists v. split; [exact E|]. pose proof (happen_var (w := w) e E) as Q. unfold the_var in *. congruence.
  - right. split; [reflexivity|]. unfold the_var in H. destruct e as [n st|j n|j a|j x]; cbn in H.
    + unfold new_var in *. cbn. unfold new_var. destruct (field_ok n); cbn in *; [|congruence].
      assert (i = length (w_vars w)).
      { apply nth_error_None in E. assert (L : i < length (w_vars w ++ [mkId n (w_next w) (if st then Some (n ++ "'")%string else None) (ISym (symbol n [])) (copy_members members own [] (symbol n [])) None st])) by (apply nth_error_Some; congruence).
        rewrite app_length in L. cbn in L. lia. }
      subst i. rewrite nth_error_app2, Nat.sub_diag in H by lia. cbn in H. injection H as <-. auto.
    + exfalso. unfold change in H. destruct (nth_error (w_vars w) j) eqn:F; [|congruence]. cbn in H. rewrite (set_nth_get _ _ _ _ F) in H.
      destruct (Nat.eqb j i) eqn:Q; [|congruence]. apply Nat.eqb_eq in Q. congruence.
    + exfalso. unfold change in H. destruct (nth_error (w_vars w) j) eqn:F; [|congruence]. cbn in H. rewrite (set_nth_get _ _ _ _ F) in H.
      destruct (Nat.eqb j i) eqn:Q; [|congruence]. apply Nat.eqb_eq in Q. congruence.
    + exfalso. unfold change in H. destruct (nth_error (w_vars w) j) eqn:F; [|congruence]. cbn in H. rewrite (set_nth_get _ _ _ _ F) in H.
      destruct (Nat.eqb j i) eqn:Q; [|congruence]. apply Nat.eqb_eq in Q. congruence.
Qed.

Lemma rename_next w i n v : the_var w i v -> w_next (happen w (Rename i n)) = Datatypes.S (w_next w).
Proof. unfold the_var. intros H. cbn. unfold change. rewrite H. reflexivity. Qed.

Lemma good_happen w e : good w -> good (happen w e).
Proof.
  intros [G1 G2]. split.
  - intros i v' H. destruct (before w e H) as [(v & Hv & ->)|(_ & Q & Nx & _)]; [|lia].
    destruct (type_after w e i v) as [Q|[Q (n & -> & _)]].
    + rewrite Q. pose proof (G1 i v Hv). pose proof (next_grows w e). lia.
    + rewrite Q, (rename_next n Hv). lia.
  - intros i j u v Hu Hv Q.
    destruct (before w e Hu) as [(u0 & Hu0 & ->)|(_ & Qu & Nx & Li)]; destruct (before w e Hv) as [(v0 & Hv0 & ->)|(_ & Qv & _ & Lj)].
    + destruct (type_after w e i u0) as [Tu|[Tu (n & Eu & _)]]; destruct (type_after w e j v0) as [Tv|[Tv (m & Ev & _)]].
      * apply (G2 i j u0 v0 Hu0 Hv0). congruence.
      * exfalso. pose proof (G1 i u0 Hu0). lia.
      * exfalso. pose proof (G1 j v0 Hv0). lia.
      * congruence.
    + exfalso. destruct (type_after w e i u0) as [Tu|[Tu (n & Eu & _)]]; [pose proof (G1 i u0 Hu0); lia|]. subst e.
      pose proof (happen_var (Rename i n) Hu0). apply (f_equal Some) in Lj. unfold the_var in Hv. subst.
      assert (X : length (w_vars (happen w (Rename i n))) = length (w_vars w)).
      { cbn. unfold change. unfold the_var in Hu0. rewrite Hu0. cbn. clear. revert i. generalize (fst (set_name u0 n (w_next w))). intros y.
        induction (w_vars w) as [|z l IH]; intros [|i]; cbn; auto. }
      assert (Y : nth_error (w_vars (happen w (Rename i n))) j <> None) by congruence. apply nth_error_Some in Y. injection Lj as Lj. lia.
    + exfalso. destruct (type_after w e j v0) as [Tv|[Tv (n & Ev & _)]]; [pose proof (G1 j v0 Hv0); lia|]. subst e.
      assert (X : length (w_vars (happen w (Rename j n))) = length (w_vars w)).
      { cbn. unfold change. unfold the_var in Hv0. rewrite Hv0. cbn. clear. revert j. generalize (fst (set_name v0 n (w_next w))). intros y.
        induction (w_vars w) as [|z l IH]; intros [|i]; cbn; auto. }
      unfold the_var in Hu. assert (Y : nth_error (w_vars (happen w (Rename j n))) i <> None) by congruence. apply nth_error_Some in Y. lia.
    + congruence.
Qed.

Lemma good_history h : forall w, good w -> good (history w h).
Proof. induction h as [|e h IH]; intros w G; [exact G|]. rewrite history_cons. apply IH, good_happen, G. Qed.
Lemma good_start : good start.
Proof. split; intros i; intros; unfold the_var in *; cbn in *; destruct i; discriminate. Qed.

(** Once left behind, a class is never that of any variable again. *)
Lemma stale h t : forall w, good w -> t < w_next w -> (forall i v, the_var w i v -> i_type v <> t) ->
  forall i v, the_var (history w h) i v -> i_type v <> t.
Proof.
  induction h as [|e h IH]; intros w G L N; [exact N|]. rewrite history_cons. apply IH; [apply good_happen; exact G|pose proof (next_grows w e); lia|].
  intros i v' H. destruct (before w e H) as [(v & Hv & ->)|(_ & Q & _)]; [|lia].
  destruct (type_after w e i v) as [Q|[Q _]]; [rewrite Q; apply (N i v Hv)|lia].
Qed.

Lemma class_kept h i : forall w v, the_var w i v -> good w -> forall j u, the_var (history w h) j u ->
  (i_type u = i_type v <-> j = i /\ forall e, In e h -> ~ renames_well i e).
Proof.
  induction h as [|e h IH]; intros w v H G j u Hu.
  - cbn in Hu. split; [intros Q; split; [apply (proj2 G j i u v Hu H Q)|intros e []]|]. intros [-> _]. unfold the_var in *. congruence.
  - rewrite history_cons in Hu. pose proof (happen_var e H) as H'. pose proof (good_happen e G) as G'.
    destruct (type_after w e i v) as [Q|[Q Rn]].
    + rewrite <- Q. rewrite (IH (happen w e) (after w e i v) H' G' j u Hu).
      split.
      * intros [-> R]. split; [reflexivity|]. intros x [<-|I]; [|apply R; exact I].
        intros (n & -> & F). cbn in Q. rewrite Nat.eqb_refl in Q. unfold set_name in Q. apply fit_iff in F. rewrite F in Q. cbn in Q. pose proof (proj1 G i v H). lia.
      * intros [-> R]. split; [reflexivity|]. intros x I. apply R. right. exact I.
    + split; [|intros [_ R]; exfalso; apply (R e (or_introl eq_refl)); exact Rn].
      intros C. exfalso. revert C. eapply stale; [exact G'|pose proof (proj1 G i v H); pose proof (next_grows w e); lia| |exact Hu].
      intros k x Hx. destruct (before w e Hx) as [(y & Hy & ->)|(_ & Qx & _)]; [|pose proof (proj1 G i v H); lia].
      destruct (type_after w e k y) as [Qy|[Qy _]].
      * intros C. rewrite Qy in C. assert (k = i) by (apply (proj2 G k i y v Hy H C)). subst k. unfold the_var in *. assert (y = v) by congruence. subst y. pose proof (proj1 G i v H). lia.
      * pose proof (proj1 G i v H). lia.
Qed.

Lemma delta_own {T} h1 h2 i v j u (x : pyval T) : the_var (history start h1) i v -> the_var (history (history start h1) h2) j u ->
  (taken_as u (make_delta v x) = DDelta x <-> j = i /\ forall e, In e h2 -> ~ renames_well i e) /\
  (taken_as u (make_delta v x) = DDelta x \/ taken_as u (make_delta v x) = DTup [x]).
Proof.
  intros H Hu. rewrite <- (class_kept h2 H (good_history h1 good_start) Hu). unfold taken_as, make_delta. cbn.
  destruct (Nat.eqb (i_type v) (i_type u)) eqn:Q.
  - apply Nat.eqb_eq in Q. split; [|auto]. split; auto.
  - apply Nat.eqb_neq in Q. split; [|auto]. split; [discriminate|]. intros C. congruence.
Qed.
End P.
