(** Lemmas about the types that variables take from values. *)
From Coq Require Import String ZArith Reals Lra Lia Bool Arith List.
From Verif Require Import Base Num RNumLemmas VariableModel Var_Spec Var_Proofs Var_Proofs2 Var_Delta Var_More Var_Forms_Spec Var_Forms VType_Spec.
Import ListNotations.
(** x.vtype = values: the type of what numpy makes of them. *)
Lemma type_of_values (l : list (atom R)) :
  (eval_vtype_atoms l = Some VFloat <-> l = [] \/ (Forall (fun a => exists v, a = AV v) l /\ exists x, In (AV (PF x)) l)) /\
  (eval_vtype_atoms l = Some VInt <-> Forall (fun a => exists v, a = AV v) l /\ (exists z, In (AV (PI z)) l) /\ forall x, ~ In (AV (PF x)) l) /\
  (eval_vtype_atoms l = Some VBool <-> l <> [] /\ Forall (fun a => exists b, a = AV (PB b)) l) /\
  (eval_vtype_atoms l = None <-> exists b, In (AOO b) l).
Proof.
  set (f := fun (acc : option vtype) (b : atom R) => match acc, b with Some t, AV v => Some (promote t (vtype_of v)) | _, _ => None end).
  assert (FN : forall l, fold_left f l None = None) by (induction l0; cbn; auto).
  assert (FF : forall l t, match fold_left f l (Some t) with
     | Some VFloat => Forall (fun a => exists v, a = AV v) l /\ (t = VFloat \/ exists x, In (AV (PF x)) l)
     | Some VInt => Forall (fun a => exists v, a = AV v) l /\ (t = VInt \/ exists z, In (AV (PI z)) l) /\ t <> VFloat /\ forall x, ~ In (AV (PF x)) l
     | Some VBool => t = VBool /\ Forall (fun a => exists b, a = AV (PB b)) l
     | None => exists b, In (AOO b) l
     end).
  { induction l0 as [|a l0 IH]; intros t; cbn [fold_left].
    - destruct t; cbn; repeat split; auto; discriminate.
    - destruct a as [v|b]; cbn [f].
      2: { rewrite FN. exists b. cbn. auto. }
      specialize (IH (promote t (vtype_of v))). destruct (fold_left f l0 (Some (promote t (vtype_of v)))) as [[| |]|].
      + destruct IH as [E H]. destruct t, v; cbn in E; try discriminate. split; [reflexivity|]. constructor; eauto.
      + destruct IH as (A & E & N & H). split; [constructor; eauto|].
        destruct t, v; cbn in E, N; try (exfalso; apply N; reflexivity);
          (split; [cbn; destruct E as [E|[zz E]]; eauto; try discriminate|split; [discriminate|]];
           intros x0 [C|C]; [discriminate|exact (H x0 C)]).
      + destruct IH as (A & E). split; [constructor; eauto|].
        destruct t, v; cbn in E; try (left; reflexivity); right; cbn; destruct E as [E|[zz E]]; eauto; discriminate.
      + destruct IH as (b & H). exists b. cbn. auto. }
  destruct l as [|a l].
  { split; [|split; [|split]]; split; try discriminate; auto.
    - intros (_ & [z []] & _).
    - intros [C _]. destruct (C eq_refl).
    - intros [b []]. }
  unfold eval_vtype_atoms. fold f. destruct a as [v|b].
  2: { rewrite FN. split; [|split; [|split]]; split; try discriminate.
       - intros [C|[H _]]; [discriminate|]. inversion H as [|? ? [w C] _]. discriminate.
       - intros [H _]. inversion H as [|? ? [w C] _]. discriminate.
       - intros [_ H]. inversion H as [|? ? [w C] _]. discriminate.
       - intros _. exists b. cbn. auto.
       - intros _. reflexivity. }
  specialize (FF l (vtype_of v)).
  assert (V : forall P : Prop, Forall (fun a => exists v, a = AV v) (AV v :: l) -> (exists b, In (AOO b) (AV v :: l)) -> P).
  { intros P H (b & I). rewrite Forall_forall in H. destruct (H _ I) as (w & C). discriminate. }
  assert (B : Forall (fun a => exists b, a = AV (PB (T:=R) b)) (AV v :: l) -> Forall (fun a => exists v, a = AV v) (AV v :: l)).
  { apply Forall_impl. intros a (b & ->). eauto. }
  assert (NB : Forall (fun a => exists b, a = AV (PB (T:=R) b)) (AV v :: l) ->
     (forall x, ~ In (AV (PF x)) (AV v :: l)) /\ (forall x, ~ In (AV (PI x)) (AV v :: l))).
  { intros H. rewrite Forall_forall in H. split; intros x I; destruct (H _ I) as (b & C); discriminate. }
  assert (CV : forall P, Forall P l -> P (AV v) -> Forall P (AV v :: l)) by (intros; constructor; assumption).
  destruct (fold_left f l (Some (vtype_of v))) as [[| |]|].
  - destruct FF as [E H]. destruct v; try discriminate.
    assert (H' : Forall (fun a => exists b, a = AV (PB (T:=R) b)) (AV (PB b) :: l)) by (constructor; eauto).
    destruct (NB H') as [N1 N2].
    split; [|split; [|split]]; split; try discriminate; auto.
    + intros [C|[_ [x C]]]; [discriminate|destruct (N1 _ C)].
    + intros (_ & [z C] & _). destruct (N2 _ C).
    + split; [discriminate|exact H'].
    + intros C. exact (V _ (B H') C).
  - destruct FF as (A & E & N & H).
    assert (A' : Forall (fun a => exists v, a = AV v) (AV v :: l)) by (constructor; eauto).
    assert (H' : forall x, ~ In (AV (PF x)) (AV v :: l)).
    { intros x [C|C]; [|exact (H x C)]. injection C as ->. apply N. reflexivity. }
    assert (Z : exists z, In (AV (PI z)) (AV v :: l)).
    { destruct E as [E|[zz E]]; [destruct v; try discriminate; cbn; eauto|cbn; eauto]. }
    split; [|split; [|split]]; split; try discriminate; auto.
    + intros [C|[_ [x C]]]; [discriminate|destruct (H' _ C)].
    + intros [_ C]. destruct Z as [z Z]. destruct (proj2 (NB C) _ Z).
    + intros C. exact (V _ A' C).
  - destruct FF as (A & E).
    assert (A' : Forall (fun a => exists v, a = AV v) (AV v :: l)) by (constructor; eauto).
    assert (Z : exists x, In (AV (PF x)) (AV v :: l)).
    { destruct E as [E|[zz E]]; [destruct v; try discriminate; cbn; eauto|cbn; eauto]. }
    split; [|split; [|split]]; split; try discriminate; auto.
    + intros (_ & _ & C). destruct Z as [z Z]. destruct (C _ Z).
    + intros [_ C]. destruct Z as [z Z]. destruct (proj1 (NB C) _ Z).
    + intros C. exact (V _ A' C).
  - destruct FF as (b & I). assert (Z : exists b, In (AOO b) (AV v :: l)) by (exists b; cbn; auto).
    split; [|split; [|split]]; split; try discriminate; auto.
    + intros [C|[A _]]; [discriminate|exact (V _ A Z)].
    + intros [A _]. exact (V _ A Z).
    + intros [_ C]. exact (V _ (B C) Z).
Qed.

Lemma no_oo (l : list (atom R)) : (forall b, ~ In (AOO b) l) <-> Forall (fun a => exists v, a = AV v) l.
Proof.
  rewrite Forall_forall. split.
  - intros H [v|b] I; [eauto|destruct (H b I)].
  - intros H b I. destruct (H _ I) as (v & C). discriminate.
Qed.

Lemma typed_numpy (l : list (atom R)) t : eval_vtype_atoms l = t <-> numpy_type l t.
Proof.
  destruct (type_of_values l) as (F & I & B & O). split.
  - intros <-. destruct (eval_vtype_atoms l) as [[| |]|] eqn:E.
    + destruct (proj1 B eq_refl) as (N & H). rewrite Forall_forall in H. destruct l as [|a l]; [congruence|].
      destruct (H a (or_introl eq_refl)) as (c & ->). apply (nt_bool _ c); [cbn; auto|exact H].
    + destruct (proj1 I eq_refl) as (H & (z & Z) & N). rewrite <- no_oo in H. exact (nt_int l z H Z N).
    + destruct (proj1 F eq_refl) as [->|(H & (z & Z))]; [constructor; reflexivity|]. rewrite <- no_oo in H. exact (nt_float l z H Z).
    + destruct (proj1 O eq_refl) as (b & H). exact (nt_object l b H).
  - intros [E|x H X|z H Z N|b J H|b J].
    + apply F. auto.
    + apply F. right. rewrite <- no_oo. eauto.
    + apply I. rewrite <- no_oo. eauto.
    + apply B. rewrite Forall_forall. split; [|exact H]. intros ->. destruct J.
    + apply O. eauto.
Qed.

(** x.vtype = values, for a variable that has a set and for one that has none. *)
Lemma type_assigned (s : vstate R) vs l a : vs_vset s = Some vs -> l <> [] ->
  holds a l ->
  exists s', set_vtype s a = (s', Ok tt) /\ vs_vset s' = Some vs /\ numpy_type l (vs_vtype s').
Proof.
  intros V N A. unfold set_vtype. rewrite V. destruct A as [->|[->|(m & -> & E)]].
  all: eexists; split; [reflexivity|]; split; [reflexivity|]; cbn; apply typed_numpy; try reflexivity. rewrite E. reflexivity.
Qed.

Lemma type_first (s : vstate R) l a : vs_vset s = None -> l <> [] ->
  holds a l ->
  (forall t, numpy_type l (Some t) -> set_vtype s a = (mkVS (Some t) (Some (default_vset t)), Ok tt)) /\
  (numpy_type l None -> set_vtype s a = (mkVS None None, Err KeyError)).
Proof.
  intros V N A.
  assert (X : forall t, numpy_type l t -> eval_vtype a = t).
  { intros t H. apply typed_numpy in H. destruct A as [->|[->|(m & -> & E)]]; cbn; rewrite ?E; exact H. }
  split; [intros t H|intros H]; specialize (X _ H); unfold set_vtype; rewrite V;
    replace (match a with ANone => Some VBool | _ => eval_vtype a end) with (eval_vtype a) by (destruct A as [->|[->|(m & -> & _)]]; reflexivity);
    rewrite X; [|reflexivity].
  destruct t; [|reflexivity|reflexivity]. cbn [default_vset set_vset vs_vtype cast_loop bind cast].
  assert (v_true (T := R) (PB false) = false) as ->. { apply not_true_iff_false. rewrite v_true_iff. cbn. lra. }
  assert (v_true (T := R) (PB true) = true) as ->. { apply v_true_iff. cbn. lra. }
  reflexivity.
Qed.

(** x.vtype = None works the type out again, from the set. *)
Lemma type_again (s : vstate R) vs : well_made s -> vs_vset s = Some vs ->
  exists s', set_vtype s ANone = (s', Ok tt) /\ vs_vset s' = Some vs /\
    (s' = s <-> forall e b, In e vs -> atom_of e <> AOO b) /\
    ((exists e b, In e vs /\ atom_of e = AOO b) -> vs_vtype s' = None).
Proof.
  intros (t & l & T & L & F & N & _) V. rewrite L in V. injection V as ->.
  assert (E : set_vtype s ANone = (mkVS (eval_vtype_atoms (map atom_of vs)) (Some vs), Ok tt)).
  { unfold set_vtype. rewrite L. reflexivity. }
  eexists. split; [exact E|]. cbn [vs_vset vs_vtype]. split; [reflexivity|].
  assert (O : (exists e b, In e vs /\ atom_of e = AOO b) -> eval_vtype_atoms (map atom_of vs) = None).
  { intros (e & b & I & H). apply typed_numpy. apply (nt_object _ b). rewrite <- H. apply in_map. exact I. }
  split; [|exact O]. split.
  - intros H e b I C. assert (Z := f_equal (@vs_vtype R) H). cbn in Z. rewrite O, T in Z by eauto. discriminate.
  - intros H. destruct s as [st sl]. cbn in T, L. subst st sl. f_equal. apply typed_numpy.
    assert (K : forall a, In a (map atom_of vs) -> exists v, a = AV v /\ vtype_of v = t).
    { intros a I. apply in_map_iff in I as (e & <- & I). rewrite Forall_forall in F. specialize (F _ I). specialize (H e).
      unfold typed in F. destruct (atom_of e) as [v|b]; [eauto|destruct (H b I eq_refl)]. }
    destruct vs as [|e vs]; [congruence|]. destruct (K (atom_of e) (or_introl eq_refl)) as (v & Hv & Hvt).
    assert (K0 : forall b, ~ In (AOO b) (map atom_of (e :: vs))) by (intros b I; destruct (K _ I) as (? & ? & _); discriminate).
    destruct v; cbn in Hvt; subst t.
    + apply (nt_bool _ b); [rewrite <- Hv; apply in_map; left; reflexivity|].
      intros a I. destruct (K a I) as (w & -> & W). destruct w; try discriminate. eauto.
    + apply (nt_int _ z); [exact K0|rewrite <- Hv; apply in_map; left; reflexivity|].
      intros x I. destruct (K _ I) as (w & X & W). injection X as <-. discriminate.
    + apply (nt_float _ x); [exact K0|rewrite <- Hv; apply in_map; left; reflexivity].
Qed.

(** Only which values there are matters. *)
Lemma numpy_type_same (l m : list (atom R)) t : l <> [] -> m <> [] -> (forall x, In x l <-> In x m) -> numpy_type l t -> numpy_type m t.
Proof.
  intros L M H [E|x N X|z N Z F|b B F|b B].
  - congruence.
  - apply (nt_float _ x); [intros b C; apply H in C; exact (N b C)|apply H; exact X].
  - apply (nt_int _ z); [intros b C; apply H in C; exact (N b C)|apply H; exact Z|intros b C; apply H in C; exact (F b C)].
  - apply (nt_bool _ b); [apply H; exact B|intros a C; apply H in C; exact (F a C)].
  - apply (nt_object _ b). apply H. exact B.
Qed.

Lemma holds_type a l : holds a l -> eval_vtype a = eval_vtype_atoms l.
Proof. intros [->|[->|(m & -> & <-)]]; reflexivity. Qed.

Lemma type_order (s : vstate R) l m a b : l <> [] -> m <> [] -> (forall x, In x l <-> In x m) -> holds a l -> holds b m ->
  set_vtype s a = set_vtype s b.
Proof.
  intros L M H A B.
  assert (E : eval_vtype a = eval_vtype b).
  { rewrite (holds_type _ _ A), (holds_type _ _ B). symmetry. apply typed_numpy.
    apply (numpy_type_same l m); auto. apply typed_numpy. reflexivity. }
  unfold set_vtype.
  assert (NA : forall X : option vtype, match a with ANone => X | _ => eval_vtype a end = eval_vtype a)
    by (destruct A as [->|[->|(? & -> & _)]]; reflexivity).
  assert (NB : forall X : option vtype, match b with ANone => X | _ => eval_vtype b end = eval_vtype b)
    by (destruct B as [->|[->|(? & -> & _)]]; reflexivity).
  rewrite NA, NB, E. reflexivity.
Qed.
