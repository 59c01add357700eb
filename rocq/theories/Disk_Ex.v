(** Examples for files and auxiliary data. *)
From Coq Require Import String Ascii ZArith Reals Bool Arith Lia List Permutation.
From Verif Require Import Base Num Tensor PScales PScales_Spec Names Names_Spec Names_Proofs Distr PDModel PDUtils PDFile
  RNumLemmas OdLemmas PD_Spec PD_Make PD_Valid PD_Examples PD_SimpleThm PD_File_Spec PD_File PD_FileThm
  DiskModel Disk_Spec Disk_Proofs Disk_Reads.
Import ListNotations.

(** A distribution that cannot be written, next to one that can, and a disk with a
    file under the path. *)
Definition good_live : live R :=
  mkLive "a=1" "a" [("a"%string, VNum 1%R)] [("a"%string, PyNone)] (Some (tscalar 1%R)) (PSFloat 1%R).
Definition text_live : live R :=
  mkLive "s=abc" "s" [("s"%string, VStr "abc")] [("s"%string, PyNone)] (Some (tscalar 1%R)) (PSFloat 1%R).
Definition old_disk : disk R :=
  [("f"%string, [("old"%string, [("old"%string, IVal (DArr (tscalar 5%R)))])]); ("g"%string, [])].
Definition one_array : list (akey * aval R) :=
  [(AStr "the data", ADict [(AStr "t", AArr (of_list 0%R [1%R; 2%R]))])].
Definition bad_name : list (akey * aval R) :=
  [(AStr "data", ADict [(AStr "t", AArr (of_list 0%R [1%R; 2%R]))])].

Lemma one_array_ok : well_formed one_array /\ NoDup (aux_names one_array) /\ ~ has_text one_array.
Proof.
  split; [|split].
  - intros k v [E|[]]. injection E as <- <-. do 2 eexists. split; [reflexivity|]. split; [apply has_char_true; reflexivity|].
    split; [reflexivity|]. intros k' v' [E|[]]. injection E as <- <-. split; [eauto|discriminate].
  - repeat constructor. intros [].
  - intros (k & d & k' & [E|[]] & I). injection E as <- <-. destruct I as [E|[]]. discriminate.
Qed.

Lemma bad_name_ok : ~ well_formed bad_name.
Proof.
  intros W. destruct (W _ _ (or_introl eq_refl)) as (s & d & E & O & _). injection E as <-. apply has_char_true in O. discriminate.
Qed.

Lemma ex_present : present [good_live; text_live] [0; 1].
Proof. intros i [<-|[<-|[]]]; cbn; lia. Qed.

Section Ex.
Let F : Fmt R := fmt_ex.
Existing Instance F.
Local Open Scope R_scope.

(** p(x, s='abc'): x has 2 values. *)
Lemma text_pd_ok : exists q : pd R, valid_pd q ["x"]%string /\ p_keylist q = ["x"; "s"]%string /\ breaks_after_column q.
Proof.
  destruct (@make_pd_ok F [("x", VArr (of_list 0 [1; 2])); ("s", VStr "abc")]%string [("x", Some 0%Z)]%string ["x"]%string
              [("x", "x"); ("s", "s")]%string []
              (mkT [2]%nat (fun _ => / 2)) (PSFloat 1) (Lin 1)) as (q & E & V & K & M & C & P & S & Vr).
  - repeat constructor; cbn; intuition discriminate.
  - discriminate.
  - cbn. intros k Hk. intuition (subst; discriminate).
  - repeat constructor; cbn; intuition discriminate.
  - intros k Hk. cbn in *. tauto.
  - intros k v G Hk.
    assert (Hin : In k (od_keys (A := value R) [("x", VArr (of_list 0 [1; 2])); ("s", VStr "abc")]%string)) by (eapply od_get_some_key; eauto).
    cbn in Hin, Hk. destruct Hin as [<-|[<-|[]]]; try tauto. cbn in G. inversion G; subst. split; auto.
  - intros [|j] k Hj; cbn in Hj; inversion Hj; subst; try (destruct j; discriminate);
    (eexists; split; [reflexivity|]; cbn; repeat split; auto; try discriminate; lia).
  - intros k Hk. cbn in *. tauto.
  - repeat constructor; cbn; intuition discriminate.
  - reflexivity.
  - apply good_keyed. reflexivity.
  - apply good_keyed. reflexivity.
  - cbn. repeat constructor.
  - cbn. assert (H : n_eqb 1 n1 = true) by (apply Reqb_iff; reflexivity). rewrite H. reflexivity.
  - cbn. assert (H : n_eqb 1 n1 = true) by (apply Reqb_iff; reflexivity). rewrite H. reflexivity.
  - exists q. split; [exact V|]. split; [exact K|].
    pose proof (Vr "x"%string) as Vx. pose proof (Vr "s"%string) as Vs. unfold variable in Vx, Vs.
    destruct (od_get (p_vals q) "x") as [vx|] eqn:Gx; [|discriminate]. destruct (od_get (p_vals q) "s") as [vs|] eqn:Gs; [|discriminate].
    cbn in Vx, Vs. injection Vx as Vx. injection Vs as Vs.
    assert (K' : map fst (p_vals q) = ["x"; "s"]%string) by exact K.
    destruct (p_vals q) as [|[k1 v1] [|[k2 v2] [|? ?]]] eqn:EV; try discriminate. cbn in K'. injection K' as -> ->.
    cbn in Gx, Gs. injection Gx as ->. injection Gs as ->.
    assert (vs = VStr "abc").
    { destruct vs as [y|s|l|b|]; cbn in Vs; try discriminate; try congruence. destruct (shape b); discriminate. }
    subst vs. assert (exists a, vx = VArr a /\ shape a <> []) as (a & -> & Sa).
    { destruct vx as [y|s|l|b|]; cbn in Vx; try discriminate. exists b. split; [reflexivity|]. intros C0. rewrite C0 in Vx. discriminate. }
    exists [("x"%string, VArr a)], "s"%string, (VStr "abc"), []. split; [rewrite EV; reflexivity|]. split; [exact I|]. split.
    + intros k' v' [Q|[]]. injection Q as <- <-. exact I.
    + exists "x"%string, a. split; [left; reflexivity|exact Sa].
Qed.

Lemma ex_c211 : exists p q : pd R,
  (forall r, In r [p] -> valid_pd r ["x"; "y"; "z"]%string /\ storable r /\ plain_keys r) /\
  valid_pd q ["x"]%string /\ plain_keys q /\
  NoDup (map (fun p => (od_keys (p_marg p), od_keys (p_cond p))) ([p] ++ q :: [])) /\ breaks_after_column q /\ has_scalar p.
Proof.
  destruct ex_file as (p & r0 & E & _ & H & _ & HS). destruct text_pd_ok as (q & V & K & B).
  destruct ex_ok as (p1 & E1 & V0 & K1 & M & C & _). rewrite E in E1. injection E1 as Ep. rewrite <- Ep in M, C.
  exists p, q. split; [|split; [exact V|split; [|split; [|split; [exact B|exact HS]]]]].
  - intros r [<-|[]]. destruct (H p (or_introl eq_refl)) as (_ & St & PK). split; [rewrite Ep; exact V0|auto].
  - apply plain_keysb. rewrite K. reflexivity.
  - cbn. constructor; [|repeat constructor; tauto]. intros [Q|[]]. injection Q as Q1 Q2.
    rewrite M in Q1. rewrite C in Q2. pose proof (vp_names _ _ V) as PN. rewrite Q1, Q2, K in PN. apply Permutation_length in PN. discriminate.
Qed.

Lemma ex_c212 : exists p q : pd R,
  (forall r, In r [p; q] -> valid_pd r (if String.eqb (short_name r) "x,y" then ["y"; "x"]%string else ["x"; "y"; "z"]%string) /\
      storable r /\ plain_keys r) /\
  NoDup (map (fun p => (od_keys (p_marg p), od_keys (p_cond p))) [p; q]) /\
  dictionary [("my notes", [("t", of_list 0 [1; 2]); ("a", of_list 0 [3])]); ("a b", [])]%string /\
  (forall n, In n (od_keys (A := odict (tensor R)) [("my notes", [("t", of_list 0 [1; 2]); ("a", of_list 0 [3])]); ("a b", [])]%string) -> occurs " "%char n).
Proof.
  destruct ex_file as (p & q & _ & _ & H & ND & _). exists p, q. split; [exact H|]. split; [exact ND|]. split.
  - split; [repeat constructor; cbn; intuition discriminate|]. intros n d [E|[E|[]]]; injection E as <- <-; repeat constructor; cbn; intuition discriminate.
  - intros n [<-|[<-|[]]]; apply has_char_true; reflexivity.
Qed.

Lemma ex_c213 : exists p : pd R, valid_pd p ["my var"]%string /\ storable p /\
  (exists v, In v (p_keylist p) /\ occurs " "%char v) /\ exists a, In ("my var"%string, VArr a) (p_vals p).
Proof.
  destruct (named_ok "my var") as (p & _ & V & K & St); [reflexivity|reflexivity|cbn; intuition discriminate|].
  exists p. split; [exact V|]. split; [exact St|]. split.
  - exists "my var"%string. rewrite K. split; [left; reflexivity|apply has_char_true; reflexivity].
  - destruct (vp_column _ _ V 0%nat "my var"%string eq_refl) as (a & n & G & _). exists a. apply od_get_in. exact G.
Qed.
End Ex.
