(** One array without a function for arrays, iconic expressions and the search for
    distributions. *)
From Coq Require Import String ZArith Bool Arith Lia List Sorting.Sorted Sorting.Permutation.
From Verif Require Import Base OdLemmas Num Tensor TensorLemmas Names MVModel SymModel Sym_Spec Sym_Parse Sym_Proofs.
Import ListNotations.

Lemma filter_combine {A B} (p : A -> bool) (g : A -> B) l :
  map snd (filter (fun q : bool * B => fst q) (combine (map p l) (map g l))) = map g (filter p l).
Proof. induction l as [|x l IH]; cbn; auto. destruct (p x); cbn; congruence. Qed.

Lemma filter_unique {A} (p : A -> bool) (k : A) l : NoDup l -> In k l -> p k = true ->
  (forall x, In x l -> p x = true -> x = k) -> filter p l = [k].
Proof.
  induction l as [|x l IH]; intros ND I Pk U; [destruct I|]. inversion ND; subst. cbn.
  destruct I as [->|I].
  - rewrite Pk. f_equal. clear IH ND. induction l as [|y l IH]; cbn; auto.
    destruct (p y) eqn:E.
    + exfalso. apply H1. rewrite <- (U y); auto; [left; auto|right; left; auto].
    + inversion H2; subst. apply IH; auto.
      * intros C. apply H1. right; auto.
      * intros z Hz. apply U. destruct Hz; [left; auto|right; right; auto].
  - destruct (p x) eqn:E.
    + exfalso. apply H1. rewrite (U x); auto. left; auto.
    + apply IH; auto. intros y Hy. apply U. right; auto.
Qed.

Section Sym.
Context {T : Type} {N : Num T} (argsort : list Z -> list nat).
Implicit Types (e : sexpr T) (kwds : odict (xval T)).

Lemma od_get_pairs (h : string -> T) keys k : In k keys -> od_get (map (fun x => (x, h x)) keys) k = Some (h k).
Proof.
  induction keys as [|x keys IH]; intros H; [destruct H|]. cbn.
  destruct (String.eqb k x) eqn:E; [apply String.eqb_eq in E; subst; auto|].
  destruct H as [->|H]; [rewrite String.eqb_refl in E; discriminate|auto].
Qed.

Lemma eval_one e kwds k t : NoDup (symbols e) -> NoDup (od_keys kwds) -> se_np e = false -> one_array e kwds k t ->
  (readable e -> determined e ->
   exists u, se_call argsort e [] kwds = Ok (RArray u) /\ shape u = [length (to_list t)] /\
     forall i, get u [i] = se_fun e (fun k' => if String.eqb k' k then item t i else at_place kwds [] k')) /\
  (~ readable e -> tsize t <> 0 -> se_call argsort e [] kwds = Err TypeError).
Proof.
  intros ND NK Np (Ik & Ek & Oth).
  assert (Inc : incl (symbols e) (od_keys kwds)).
  { intros x Hx. destruct (string_dec x k) as [->|Ne]; [eapply od_get_some_key; eauto|].
    destruct (Oth x Hx Ne) as (v & E & _). eapply od_get_some_key; eauto. }
  set (p := fun x => isarray (look kwds x)).
  assert (Pk : p k = true) by (unfold p, look; rewrite Ek; reflexivity).
  assert (Po : forall x, In x (symbols e) -> p x = true -> x = k).
  { intros x Hx Px. destruct (string_dec x k) as [|Ne]; auto. destruct (Oth x Hx Ne) as (v & E & Sv).
    unfold p, look in Px. rewrite E in Px. destruct v; cbn in *; solve [discriminate|contradiction]. }
  assert (Fk : filter p (symbols e) = [k]) by (apply filter_unique; auto).
  assert (Lk : look kwds k = XArr t) by (unfold look; rewrite Ek; reflexivity).
  rewrite call_keywords. unfold se_eval. fold (symbols e). rewrite lookups by auto. cbn [bind].
  rewrite arrays_exist by (exists k, t; auto). cbn [negb]. rewrite Np.
  unfold mesh_fun. fold (symbols e).
  assert (W : flat_map (fun o : option nat => match o with Some i => [i] | None => [] end)
                (map vec_dim (map (look kwds) (symbols e))) =
              match vec_dim (XArr t) with Some i => [i] | None => [] end).
  { rewrite <- Lk. transitivity (flat_map (fun o : option nat => match o with Some i => [i] | None => [] end)
      (map vec_dim (map (look kwds) (filter p (symbols e))))).
    - generalize (symbols e). intros l. induction l as [|x l IH]; cbn; auto.
      unfold p at 1. destruct (look kwds x) eqn:E; cbn [isarray vec_dim flat_map app map]; auto.
      rewrite E. cbn [vec_dim]. f_equal. exact IH.
    - rewrite Fk. cbn. apply app_nil_r. }
  rewrite W.
  replace ((1 <? _) && _) with false by (destruct (vec_dim (XArr t)); reflexivity).
  cbn [bind].
  rewrite !(map_map (look kwds) isarray). fold p.
  rewrite (filter_combine p (look kwds)), Fk. cbn [map]. rewrite Lk. cbn [as_arr map swap2].
  pose proof (filter_combine p (fun x : string => x) (symbols e)) as FK. rewrite map_id, Fk in FK. cbn [map] in FK. rewrite FK.
  split.
  - intros Re D. rewrite (readable_forallb e Re).
    set (h := fun x => if p x then n0 else get (as_arr (look kwds x)) []).
    assert (M : forall l, incl l (symbols e) ->
       map_res (fun q : bool * string => match q with
           | (true, k0) => Ok (k0, n0)
           | (false, k0) => let! v := od_getR (od_update kwds (combine (symbols e) (map (look kwds) (symbols e)))) k0 in
                            Ok (k0, get (as_arr v) [])
           end) (combine (map p l) l) = Ok (map (fun x => (x, h x)) l)).
    { induction l as [|x l IH]; intros I; cbn; auto.
      assert (Hx : In x (symbols e)) by (apply I; left; auto).
      assert (Q : (if p x then Ok (x, n0)
                   else let! v := od_getR (od_update kwds (combine (symbols e) (map (look kwds) (symbols e)))) x in
                        Ok (x, get (as_arr v) [])) = Ok (x, h x)).
      { unfold h. destruct (p x); auto. unfold od_getR. rewrite od_get_update.
        2: rewrite keys_combine by (rewrite map_length; auto); auto.
        assert (G : forall m, In x m -> od_get (combine m (map (look kwds) m)) x = Some (look kwds x)).
        { induction m as [|y m IHm]; intros Hy; [destruct Hy|]. cbn.
          destruct (String.eqb x y) eqn:E; [apply String.eqb_eq in E; subst; auto|].
          destruct Hy as [->|Hy]; [rewrite String.eqb_refl in E; discriminate|auto]. }
        rewrite G by auto. reflexivity. }
      destruct (p x); cbn [bind] in *; rewrite Q || idtac; cbn [bind].
      - rewrite IH by (intros y Hy; apply I; right; auto). cbn. inversion Q. reflexivity.
      - rewrite IH by (intros y Hy; apply I; right; auto). reflexivity. }
    rewrite M by (intros x; auto). cbn [bind]. eexists. split; [reflexivity|]. split; [reflexivity|].
    intros i. cbn [get length seq map combine swap2 nth]. apply D. intros x Hx. cbn [od_get].
    destruct (String.eqb x k) eqn:E.
    + reflexivity.
    + rewrite (od_get_pairs h) by auto. apply String.eqb_neq in E. destruct (Oth x Hx E) as (v & Ev & Sv).
      unfold h. destruct (p x) eqn:Px; [exfalso; apply E; auto|].
      rewrite (look_number _ _ v) by auto. unfold at_place. rewrite Ev.
      destruct v; cbn in *; solve [reflexivity|contradiction].
  - intros Re Sz. destruct (forallb snd (se_syms e)) eqn:E.
    + exfalso. apply Re. apply Forall_forall. rewrite forallb_forall in E. exact E.
    + cbn [prod_list fold_right]. rewrite to_list_length.
      rewrite (proj2 (Nat.eqb_neq (tsize t * 1) 0)) by lia. reflexivity.
Qed.

Lemma call_one e kwds k t : NoDup (symbols e) -> NoDup (od_keys kwds) -> se_np e = false -> one_array e kwds k t ->
  readable e -> determined e ->
  exists u, se_call argsort e [] kwds = Ok (RArray u) /\ shape u = [length (to_list t)] /\
     forall i, get u [i] = se_fun e (fun k' => if String.eqb k' k then item t i else at_place kwds [] k').
Proof. intros H1 H2 H3 H4. apply (eval_one e kwds k t); auto. Qed.

Lemma call_one_left e kwds k t : NoDup (symbols e) -> NoDup (od_keys kwds) -> se_np e = false -> one_array e kwds k t ->
  ~ readable e -> tsize t <> 0 -> se_call argsort e [] kwds = Err TypeError.
Proof. intros H1 H2 H3 H4. apply (eval_one e kwds k t); auto. Qed.

(** The order of the symbols. *)
Lemma named_any_order e e' kwds : readable e -> determined e -> scalars_for e kwds ->
  Permutation (se_syms e) (se_syms e') -> (forall env, se_fun e' env = se_fun e env) ->
  se_call argsort e' [] kwds = se_call argsort e [] kwds.
Proof.
  intros R D Sc P Q.
  assert (PS : Permutation (symbols e) (symbols e')) by (apply Permutation_map; auto).
  rewrite (call_scalars argsort e), (call_scalars argsort e'); auto.
  - rewrite Q. reflexivity.
  - unfold readable in *. rewrite Forall_forall in *. intros x Hx. apply R.
    eapply Permutation_in; [apply Permutation_sym|]; eauto.
  - intros g h H. rewrite !Q. apply D. intros k Hk. apply H. eapply Permutation_in; eauto.
  - intros k Hk. apply Sc. eapply Permutation_in; [apply Permutation_sym|]; eauto.
Qed.

Lemma positional_swapped e e' a b x y ba bb :
  a <> b -> se_syms e = [(a, ba); (b, bb)] -> se_syms e' = [(b, bb); (a, ba)] -> readable e -> determined e ->
  (forall env, se_fun e' env = se_fun e env) ->
  se_call argsort e [XPlain (XNum x); XPlain (XNum y)] [] = Ok (RNumber (se_fun e (two a b x y))) /\
  se_call argsort e' [XPlain (XNum x); XPlain (XNum y)] [] = Ok (RNumber (se_fun e (two a b y x))).
Proof.
  intros Ne E E' R D Q.
  assert (eab : String.eqb a b = false) by (apply String.eqb_neq; auto).
  assert (eba : String.eqb b a = false) by (apply String.eqb_neq; auto).
  assert (Sy : symbols e = [a; b]) by (unfold symbols; rewrite E; reflexivity).
  assert (Sy' : symbols e' = [b; a]) by (unfold symbols; rewrite E'; reflexivity).
  assert (R' : readable e').
  { unfold readable in *. rewrite E in R. rewrite E'. inversion R as [|? ? R1 R2]; subst. inversion R2; subst.
    repeat constructor; auto. }
  assert (D' : determined e').
  { intros g h H. rewrite !Q. apply D. rewrite Sy. intros k Hk. apply H. rewrite Sy'.
    destruct Hk as [<-|[<-|[]]]; cbn; auto. }
  assert (ND : NoDup (symbols e)).
  { rewrite Sy. repeat constructor; cbn; [intros [C|[]]; auto|auto]. }
  assert (ND' : NoDup (symbols e')).
  { rewrite Sy'. repeat constructor; cbn; [intros [C|[]]; auto|auto]. }
  split.
  - change [XPlain (XNum x); XPlain (XNum y)] with (map XPlain [XNum x; XNum y]).
    rewrite call_positional by (auto; rewrite Sy; reflexivity).
    rewrite call_scalars; auto.
    + do 2 f_equal. apply D. rewrite Sy. intros k [<-|[<-|[]]]; unfold at_place, two; cbn;
        rewrite ?String.eqb_refl, ?eab, ?eba; reflexivity.
    + rewrite Sy. intros k Hk. rewrite Sy in Hk. cbn. destruct Hk as [<-|[<-|[]]]; cbn;
        rewrite ?String.eqb_refl, ?eab, ?eba; eexists; split; try reflexivity; exact I.
  - change [XPlain (XNum x); XPlain (XNum y)] with (map XPlain [XNum x; XNum y]).
    rewrite call_positional by (auto; rewrite Sy'; reflexivity).
    rewrite call_scalars; auto.
    + rewrite Q. do 2 f_equal. apply D. rewrite Sy, Sy'. intros k [<-|[<-|[]]]; unfold at_place, two; cbn;
        rewrite ?String.eqb_refl, ?eab, ?eba; reflexivity.
    + rewrite Sy'. intros k Hk. rewrite Sy' in Hk. cbn. destruct Hk as [<-|[<-|[]]]; cbn;
        rewrite ?String.eqb_refl, ?eab, ?eba; eexists; split; try reflexivity; exact I.
Qed.

(** The remap. *)
Lemma remap_dict_only e s k v : symbols e = [s] -> readable e -> determined e ->
  NoDup (od_keys (se_remap e)) -> In (k, s) (se_remap e) -> k <> s -> scalar v ->
  se_call argsort e [XDict [(XKStr k, v)]] [] = Ok (RNumber (se_fun e (fun _ => number v))) /\
  se_call argsort e [] [(k, v)] = Err KeyError.
Proof.
  intros Sy R D ND I Ne Sv. split.
  - unfold se_call, se_values. fold (symbols e). rewrite Sy. cbn [length map forallb andb Nat.eqb].
    unfold parse_as_str_dict. cbn [fold_res parse_arg]. unfold parse_entry. cbn [key_name fst snd bind od_set].
    rewrite (proj2 (remapped_iff (se_remap e) k s ND)) by (left; auto). cbn [bind od_update fold_left].
    rewrite <- call_keywords. rewrite call_scalars; auto.
    + do 2 f_equal. apply D. rewrite Sy. intros x [<-|[]]. unfold at_place. cbn. rewrite String.eqb_refl.
      destruct v; cbn in *; solve [reflexivity|contradiction].
    + intros x Hx. rewrite Sy in Hx. destruct Hx as [<-|[]]. cbn. rewrite String.eqb_refl. eauto.
  - apply (call_missing argsort e _ s); [rewrite Sy; left; auto|]. cbn. intros [C|[]]; auto.
Qed.

End Sym.

(** ** Iconic expressions *)

Section Icon.
Context {E : Type} (repr : E -> string).
Implicit Types (l : list E).

Lemma shortest_first l : forall e, first_shortest repr (e :: l) (shortest repr e l).
Proof.
  assert (G : forall l pre e post, Forall (fun y => size_of repr e < size_of repr y) pre -> Forall (fun y => size_of repr e <= size_of repr y) post ->
     first_shortest repr ((pre ++ e :: post) ++ l) (shortest repr e l)).
  { clear l. induction l as [|x l IH]; intros pre e post Hpre Hpost.
    - cbn. rewrite app_nil_r. exists pre, post. auto.
    - change (shortest repr e (x :: l)) with
        (shortest repr (if (String.length (repr x) <? String.length (repr e))%nat then x else e) l).
      destruct (String.length (repr x) <? String.length (repr e)) eqn:Q.
      + apply Nat.ltb_lt in Q. fold (size_of repr x) (size_of repr e) in Q.
        replace ((pre ++ e :: post) ++ x :: l)%list with (((pre ++ e :: post) ++ x :: []) ++ l)%list
          by (rewrite <- app_assoc; reflexivity).
        apply (IH (pre ++ e :: post)%list x []); [|constructor].
        apply Forall_app. split; [|constructor; auto].
        * eapply Forall_impl; [|exact Hpre]. cbn. intros; lia.
        * eapply Forall_impl; [|exact Hpost]. cbn. intros; lia.
      + apply Nat.ltb_ge in Q. fold (size_of repr x) (size_of repr e) in Q.
        replace ((pre ++ e :: post) ++ x :: l)%list with ((pre ++ e :: (post ++ [x])) ++ l)%list
          by (rewrite <- !app_assoc; cbn; rewrite <- app_assoc; reflexivity).
        apply (IH pre e (post ++ [x])%list); auto. apply Forall_app. split; auto. }
  intros e. apply (G l [] e []); constructor.
Qed.

Lemma icon_get_seq l : forall s i, icon_get (combine (map (fun j => IKInt (Z.of_nat j)) (seq s (length l))) l) (IKInt (Z.of_nat (s + i)))
  = match nth_error l i with Some e => Ok e | None => Err KeyError end.
Proof.
  induction l as [|e l IH]; intros s i; cbn; [destruct i; reflexivity|].
  destruct i as [|i].
  - rewrite Nat.add_0_r, Z.eqb_refl. reflexivity.
  - rewrite (proj2 (Z.eqb_neq _ _)) by lia. replace (s + S i) with (S s + i) by lia. apply IH.
Qed.

Lemma icon_get_neg l : forall s z, (z < 0)%Z ->
  icon_get (combine (map (fun j => IKInt (Z.of_nat j)) (seq s (length l))) l) (IKInt z) = Err KeyError.
Proof.
  induction l as [|e l IH]; intros s z H; cbn; auto.
  rewrite (proj2 (Z.eqb_neq _ _)) by lia. apply IH; auto.
Qed.

Lemma icon_tuple l n inv i : l <> [] ->
  icon_item repr (ITuple l) false n inv (IKInt (Z.of_nat i)) = match nth_error l i with Some e => Ok e | None => Err KeyError end.
Proof.
  intros H. destruct l as [|e l]; [congruence|]. apply (icon_get_seq (e :: l) 0 i).
Qed.

Lemma icon_several_refused s n inv k : (forall e, s <> ISingle e) ->
  icon_item repr s true n inv k = Err AssertionError.
Proof. intros H. destruct s as [e|l|d]; [exfalso; apply (H e); reflexivity| |]; reflexivity. Qed.

Lemma icon_empty n inv k : icon_item repr (ITuple (@nil E)) false n inv k = Err NameError.
Proof. reflexivity. Qed.

Lemma icon_dict d n inv k :
  icon_item repr (IDict d) false n inv (IKStr k) = match od_get d k with Some e => Ok e | None => Err KeyError end.
Proof.
  unfold icon_item. cbn. induction d as [|[k' e] d IH]; cbn; [reflexivity|]. destruct (String.eqb k k'); [reflexivity|]. exact IH.
Qed.

Lemma icon_tuple_negative l n inv z : l <> [] -> (z < 0)%Z ->
  icon_item repr (ITuple l) false n inv (IKInt z) = Err KeyError.
Proof.
  intros H. destruct l as [|e l]; [congruence|]. intros Hz. apply (icon_get_neg (e :: l) 0 z Hz).
Qed.

Lemma icon_inverse e i l : exists x, first_shortest repr (i :: l) x /\
  icon_item repr (ISingle e) true 1 (i :: l) (IKInt 0) = Ok e /\
  icon_item repr (ISingle e) true 1 (i :: l) (IKInt 1) = Ok x /\
  icon_item repr (ISingle e) true 1 (i :: l) (IKInt (-1)) = Ok x /\
  icon_item repr (ISingle e) true 1 (i :: l) IKNone = Ok e.
Proof. exists (shortest repr i l). split; [apply shortest_first|]. repeat split. Qed.

Lemma icon_inverse_many e n inv k : 1 < n -> k <> IKNone -> inv <> [] ->
  icon_item repr (ISingle e) true n inv k = Err AssertionError.
Proof.
  intros Hn Hk Hi. destruct n as [|[|n]]; try lia. destruct inv; [congruence|].
  destruct k; [congruence| |]; reflexivity.
Qed.

End Icon.

(** ** The search for a distribution *)

Section Sobj.
Variable P : sobj -> Prop.
Hypothesis H : forall c h args, Forall P args -> P (SObj c h args).
Fixpoint sobj_rect' (o : sobj) : P o :=
  match o with
  | SObj c h args => H c h args ((fix go (l : list sobj) : Forall P l :=
      match l with [] => Forall_nil P | x :: l' => Forall_cons x (sobj_rect' x) (go l') end) args)
  end.
End Sobj.

Lemma find_cdf_some o : forall r, find_cdf o = Some r -> within o r /\ has_cdf r = true.
Proof.
  induction o as [c h args IH] using sobj_rect'. intros r. cbn.
  destruct c; [intros Q; inversion Q; subst; split; [constructor|reflexivity]|].
  destruct h; [|discriminate].
  assert (G : forall l, incl l args -> Forall (fun o => forall r, find_cdf o = Some r -> within o r /\ has_cdf r = true) l ->
    (fix go (l : list sobj) : option sobj := match l with [] => None | x :: l' => match find_cdf x with Some r => Some r | None => go l' end end) l = Some r ->
    exists x, In x args /\ within x r /\ has_cdf r = true).
  { induction l as [|x l IHl]; intros I F Q; [discriminate|]. inversion F; subst.
    destruct (find_cdf x) as [r'|] eqn:E.
    - inversion Q; subst. destruct (H1 _ eq_refl). exists x. split; auto. apply I; left; auto.
    - apply IHl; auto. intros y Hy. apply I; right; auto. }
  intros Q. destruct (G args (fun x Hx => Hx) IH Q) as (x & Hx & W & C). split; auto. econstructor; eauto.
Qed.

Lemma find_cdf_none o : find_cdf o = None -> forall r, within o r -> has_cdf r = false.
Proof.
  induction o as [c h args IH] using sobj_rect'. cbn.
  destruct c; [discriminate|]. intros Q r W. inversion W; subst; [reflexivity|].
  assert (G : forall l, Forall (fun o => find_cdf o = None -> forall r, within o r -> has_cdf r = false) l ->
    (fix go (l : list sobj) : option sobj := match l with [] => None | x :: l' => match find_cdf x with Some r => Some r | None => go l' end end) l = None ->
    forall x, In x l -> find_cdf x = None).
  { induction l as [|y l IHl]; intros F Q' z Hz; [destruct Hz|]. inversion F; subst.
    destruct (find_cdf y) eqn:E; [discriminate|]. destruct Hz as [<-|Hz]; auto. }
  rewrite Forall_forall in IH. eapply IH; eauto. apply (G args); auto. rewrite Forall_forall. exact IH.
Qed.

Lemma obj_found o : (exists r, obj_from_dist o = Ok r) <-> exists r, within o r /\ has_cdf r = true.
Proof.
  unfold obj_from_dist. destruct (find_cdf o) as [r|] eqn:E.
  - split; [|eauto]. intros _. exists r. apply find_cdf_some; auto.
  - split; [intros (r & Q); discriminate|]. intros (r & W & C).
    rewrite (find_cdf_none o E r W) in C. discriminate.
Qed.

Lemma obj_has_cdf o r : obj_from_dist o = Ok r -> within o r /\ has_cdf r = true.
Proof.
  unfold obj_from_dist. destruct (find_cdf o) eqn:E; [|discriminate]. intros Q; inversion Q; subst.
  apply find_cdf_some; auto.
Qed.

(** The first argument holding one wins. *)
Lemma obj_first args1 x args2 r : Forall (fun y => obj_from_dist y = Err ValueError) args1 -> obj_from_dist x = Ok r ->
  obj_from_dist (SObj false true (args1 ++ x :: args2)) = Ok r.
Proof.
  unfold obj_from_dist. intros F Q. cbn.
  replace ((fix go (l : list sobj) : option sobj := match l with [] => None | x :: l' => match find_cdf x with Some r => Some r | None => go l' end end) (args1 ++ x :: args2)%list)
    with (find_cdf x); auto.
  induction F as [|y l Hy F IH]; cbn; [destruct (find_cdf x); [reflexivity|discriminate]|].
  destruct (find_cdf y); [discriminate|]. exact IH.
Qed.
