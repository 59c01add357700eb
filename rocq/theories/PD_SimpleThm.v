(** The statements of Thm_PDSimple derived from the lemmas, and their examples. *)
From Coq Require Import Ascii String ZArith Reals Lra Bool Arith Lia Permutation List.
From Verif Require Import Base Num Tensor TensorBcast OdLemmas TensorLemmas RNumLemmas PScales
  PScales_Spec PScales_Proofs Names Names_Spec Names_Proofs Distr PDModel PDUtils PD_Spec PD_Simple_Spec PD_Summate_Spec
  PD_Make PD_Sums PD_Valid PD_Marg PD_Examples PD_Simple PD_Rekey PD_Summate PD_SimpleEx.
Import ListNotations.

Section Names.
Context {F : Fmt R}.

Lemma short_name_back p L : valid_pd p L ->
  str_margcond (short_name p) = Ok (self_named (od_keys (p_marg p)), self_named (od_keys (p_cond p))).
Proof.
  intros V. pose proof (vp_marg_cond p L V) as (NM & NC & _).
  assert (G : Forall (fun ke => good_entry (snd ke) /\ key_of (snd ke) (fst ke))
                (self_named (od_keys (p_marg p)) ++ self_named (od_keys (p_cond p)))).
  { apply Forall_forall. intros [k e] J.
    assert (Q : k = e /\ In k (od_keys (p_marg p ++ p_cond p))).
    { unfold od_keys. rewrite map_app. rewrite in_app_iff in *. unfold self_named in J.
      destruct J as [J|J]; apply in_map_iff in J; destruct J as (x & X & J); injection X as <- <-; auto. }
    destruct Q as [<- J']. unfold od_keys in J'. apply in_map_iff in J'. destruct J' as ([k' e'] & X & J'). cbn in X. subst k'.
    pose proof (vp_entries _ _ V) as VE. rewrite Forall_forall in VE. apply VE in J'. destruct J' as [J1 J2].
    cbn [fst snd] in *. exact (key_plain e' k J1 J2). }
  apply Forall_app in G. destruct G as [G1 G2].
  destruct (good_entries_dict _ G1) as [A1 A2]. destruct (good_entries_dict _ G2) as [B1 B2]. rewrite self_vals in *.
  unfold short_name. apply name_round_trip_spec; auto; change (NoDup (od_keys (self_named (od_keys (p_marg p))))) || idtac;
    rewrite ?self_keys; auto.
  change (NoDup (od_keys (self_named (od_keys (p_cond p))))). rewrite self_keys. exact NC.
Qed.

Lemma short_name_eq p q L L' : valid_pd p L -> valid_pd q L' ->
  (short_name p = short_name q <-> od_keys (p_marg p) = od_keys (p_marg q) /\ od_keys (p_cond p) = od_keys (p_cond q)).
Proof.
  intros V W. split.
  - intros E. pose proof (short_name_back p L V) as A. pose proof (short_name_back q L' W) as B. rewrite E, B in A.
    injection A as A1 A2. apply (f_equal (@od_keys _)) in A1. apply (f_equal (@od_keys _)) in A2. rewrite !self_keys in *. auto.
  - intros [E1 E2]. unfold short_name. rewrite E1, E2. reflexivity.
Qed.

Definition signature (p : pd R) : list string * list string := (od_keys (p_marg p), od_keys (p_cond p)).

Lemma NoDup_map_iff {A B C} (f : A -> B) (g : A -> C) l :
  (forall x y, In x l -> In y l -> (f x = f y <-> g x = g y)) -> (NoDup (map f l) <-> NoDup (map g l)).
Proof.
  induction l as [|a l IH]; intros H; cbn; [split; constructor|].
  rewrite !NoDup_cons_iff, IH by (intros; apply H; right; assumption).
  assert (Q : In (f a) (map f l) <-> In (g a) (map g l)); [|tauto].
  rewrite !in_map_iff. split; intros (x & E & I); exists x; (split; [|exact I]).
  - apply (H x a); [right; exact I|left; reflexivity|exact E].
  - apply (H x a); [right; exact I|left; reflexivity|exact E].
Qed.

Lemma reload_some_lost (ps : list (pd R)) (axes : pd R -> list string) :
  (forall p, In p ps -> valid_pd p (axes p)) ->
  exists qs, deserialise (serialise ps) = Ok qs /\ (length qs <= length ps)%nat /\
    (length qs = length ps <-> NoDup (map (fun p => (od_keys (p_marg p), od_keys (p_cond p))) ps)).
Proof.
  intros V. destruct (reload_count ps axes V) as (qs & E & L & I). exists qs. split; [exact E|]. split; [exact L|].
  rewrite I. apply NoDup_map_iff. intros x y Ix Iy.
  rewrite (short_name_eq x y (axes x) (axes y) (V x Ix) (V y Iy)). split; [intros [Q1 Q2]; congruence|].
  intros Q. injection Q. auto.
Qed.

Lemma reload_same (ps : list (pd R)) (axes : pd R -> list string) :
  (forall p, In p ps -> valid_pd p (axes p)) -> NoDup (map (fun p => (od_keys (p_marg p), od_keys (p_cond p))) ps) ->
  exists qs, deserialise (serialise ps) = Ok qs /\ Forall2 (fun p q => reloaded p q (axes p)) ps qs.
Proof.
  intros V ND. apply reload_distinct; [exact V|].
  refine (proj2 (NoDup_map_iff _ _ ps _) ND). intros x y Ix Iy.
  rewrite (short_name_eq x y (axes x) (axes y) (V x Ix) (V y Iy)). split; [intros [Q1 Q2]; congruence|].
  intros Q. injection Q. auto.
Qed.

End Names.

(** *** Examples *)
Section Ex.
Let F : Fmt R := fmt_ex.
Existing Instance F.
Local Open Scope R_scope.

Lemma ex_c28 : exists p : pd R, ex_make = Ok p /\ valid_pd p ["x"; "y"; "z"]%string /\
  NoDup (map (renamed [("x", "y"); ("y", "x"); ("w", "new")]%string) (p_keylist p)) /\
  (forall k s, In k (p_keylist p) -> od_get [("x", "y"); ("y", "x"); ("w", "new")]%string k = Some s ->
     simple_key s /\ ~ In s ["attrs"; "prob"; "pscale"]%string).
Proof.
  destruct ex_ok as (p & E & V & K & M & C & P & S & Vx & Vy & Vz & Vw). exists p.
  split; [exact E|]. split; [exact V|]. rewrite K. split.
  - cbn. repeat constructor; cbn; intuition discriminate.
  - assert (G : forall s, good_entryb s = true -> has_char "=" s = false -> simple_key s).
    { intros s H1 H2. split; [apply good_entryb_ok; exact H1|]. apply has_char_false. exact H2. }
    intros k s I O. cbn in I. destruct I as [<-|[<-|[<-|[<-|[]]]]]; cbn in O; inversion O; subst;
      (split; [apply G; reflexivity|cbn; intuition discriminate]).
Qed.

Lemma ex_c28_collision : exists p : pd R, ex_make2 = Ok p /\ valid_pd p ["y"]%string /\
  p_keylist p = [] ++ "w"%string :: [] ++ "y"%string :: [] /\
  od_keys (p_marg p) = [] ++ "w"%string :: [] ++ "y"%string :: [] /\ ~ In "w"%string ["y"]%string /\ "w"%string <> "y"%string.
Proof. exact ex2_ok. Qed.
End Ex.

Section Ex2.
Let F : Fmt R := fmt_ex.
Existing Instance F.
Local Open Scope R_scope.

Lemma ex_c29 : exists p : pd R, ex_make = Ok p /\ valid_pd p ["x"; "y"; "z"]%string /\ ["x"; "y"; "z"]%string <> [].
Proof.
  destruct ex_ok as (p & E & V & _). exists p. split; [exact E|]. split; [exact V|discriminate].
Qed.

Lemma ex_c30 : exists p q : pd R, ex_make = Ok p /\ ext_make = Ok q /\
  valid_pd p ["x"; "y"; "z"]%string /\ valid_pd q ["y"; "x"]%string /\
  NoDup (map (fun p => (od_keys (p_marg p), od_keys (p_cond p))) [p; q]) /\
  ~ NoDup (map (fun p => (od_keys (p_marg p), od_keys (p_cond p))) [p; q; p]).
Proof.
  destruct ex_ok as (p & E & V & K & M & C & _). destruct ext_ok as (q & E' & V' & K' & M' & _).
  exists p, q. do 4 (split; [assumption|]). cbn [map]. rewrite M, M'. split.
  - constructor; [|constructor; [intros []|constructor]]. intros [I|[]]. discriminate.
  - intros N. inversion N as [|? ? NI _]. apply NI. right. left. reflexivity.
Qed.

Lemma ex_c33 : exists p q : pd R, smp_make 4 2 (/ 2) = Ok p /\ smp_make 9 3 (/ 3) = Ok q /\
  samples [p; q] ["x"; "n"]%string [] ["n"]%string (Lin 1) /\
  (exists k, In k ["x"; "n"]%string /\ ~ In k ["n"]%string).
Proof.
  destruct (smp_ok 4 2 (/ 2)) as (p & E & V & M & C & S & H1 & H2 & _); [reflexivity|reflexivity|].
  destruct (smp_ok 9 3 (/ 3)) as (q & E' & V' & M' & C' & S' & H1' & H2' & _); [reflexivity|reflexivity|].
  exists p, q. split; [exact E|]. split; [exact E'|]. split.
  - intros x [<-|[<-|[]]]; do 4 (split; [assumption|]); cbn [app]; (split; intros k [<-|[<-|[]]] Hc; cbn in Hc).
    all: try (eexists; eassumption). all: try tauto. all: destruct Hc as [Hc|[]]; discriminate.
  - exists "x"%string. split; [left; reflexivity|]. cbn. intuition discriminate.
Qed.

Lemma ex_c33_counts : exists p : pd R, cnt_make 2 (/ 2) = Ok p /\
  samples [p; p] ["n"]%string [] ["n"]%string (Lin 1) /\ incl (["n"]%string ++ []) ["n"]%string.
Proof.
  destruct (cnt_ok 2 (/ 2)) as (p & E & V & M & C & S & H & _); [reflexivity|reflexivity|].
  exists p. split; [exact E|]. split; [|intros x X; exact X].
  intros x [<-|[<-|[]]]; do 4 (split; [assumption|]); cbn [app]; (split; intros k [<-|[]] Hc; cbn in Hc; [eexists; eassumption|tauto]).
Qed.
End Ex2.

Lemma ex_c34 : let l := [3; 2; 1]%R in let m := [1; 3; 3; 2]%R in
  numbers (VArr (of_list 0%R l)) = l /\ strictly_decreasing l /\ ~ nondecreasing l /\ ~ nondecreasing m /\ ~ strictly_decreasing m.
Proof.
  intros l m. split; [reflexivity|]. split; [|split; [|split]].
  - intros i j [H1 H2]. unfold l in *. destruct i as [|[|[|i]]]; destruct j as [|[|[|j]]]; cbn in *; lia || lra.
  - intros H. specialize (H 0%nat 1%nat). cbn in H. assert (3 <= 2)%R by (apply H; lia). lra.
  - intros H. specialize (H 2%nat 3%nat). cbn in H. assert (3 <= 2)%R by (apply H; lia). lra.
  - intros H. specialize (H 0%nat 1%nat). cbn in H. assert (3 < 1)%R by (apply H; lia). lra.
Qed.
