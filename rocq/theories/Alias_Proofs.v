(** Proofs about the lists that variables share. *)
From Coq Require Import String ZArith Bool Arith Lia List Reals.
From Verif Require Import Base Num RNumLemmas VariableModel Var_Spec Var_Proofs AliasModel Alias_Spec.
Import ListNotations.
Set Implicit Arguments.
Local Open Scope list_scope.

Implicit Types (h : heap (T := R)) (v : avar R) (w : world R) (l : list (elem R)) (a i j : nat).

(** ** Lists by number *)

Lemma write_length h a l : length (write h a l) = length h.
Proof. revert a. induction h as [|x h IH]; intros [|a]; cbn; auto. Qed.
Lemma read_write h a l b : a < length h -> read (write h a l) b = if Nat.eqb b a then l else read h b.
Proof.
  unfold read. revert a b. induction h as [|x h IH]; intros [|a] [|b] L; cbn in *; try lia; auto. apply IH. lia.
Qed.
Lemma write_out h a l : length h <= a -> write h a l = h.
Proof. revert a. induction h as [|x h IH]; intros [|a] L; cbn in *; try lia; auto. f_equal. apply IH. lia. Qed.
Lemma read_write_ne h a l b : b <> a -> read (write h a l) b = read h b.
Proof.
  intros NE. destruct (lt_dec a (length h)) as [L|L]; [|rewrite write_out by lia; reflexivity].
  rewrite read_write by exact L. apply Nat.eqb_neq in NE. rewrite NE. reflexivity.
Qed.
Lemma read_app h l a : a < length h -> read (h ++ [l]) a = read h a.
Proof. intros L. apply app_nth1. exact L. Qed.
Lemma read_last h l : read (h ++ [l]) (length h) = l.
Proof. unfold read. rewrite app_nth2, Nat.sub_diag by lia. reflexivity. Qed.

Lemma set_var_same (vs : list (avar R)) i v : i < length vs -> nth_error (set_var vs i v) i = Some v.
Proof. revert i. induction vs as [|x vs IH]; intros [|i] L; cbn in *; try lia; auto. apply IH. lia. Qed.
Lemma set_var_other (vs : list (avar R)) i v j : j <> i -> nth_error (set_var vs i v) j = nth_error vs j.
Proof. revert i j. induction vs as [|x vs IH]; intros [|i] [|j] L; cbn in *; try congruence; auto. Qed.
Lemma set_var_in (vs : list (avar R)) i v u : In u (set_var vs i v) -> u = v \/ In u vs.
Proof. revert i. induction vs as [|x vs IH]; intros [|i] H; cbn in *; auto; destruct H as [H|H]; auto. destruct (IH _ H); auto. Qed.

(** ** Conversion *)

Lemma in_place_loop own vt l : cast_loop own vt l = match cast_in_place own vt l with (r, Ok vt') => Ok (r, vt') | (_, Err x) => Err x end.
Proof.
  revert vt. induction l as [|e l IH]; intros vt; [reflexivity|]. cbn [cast_loop cast_in_place].
  fold (cast1 own vt e).
  destruct (cast1 own vt e) as [[e' vt']|x]; [|reflexivity]. cbn [bind]. rewrite IH.
  destruct (cast_in_place own vt' l) as [r [vt''|x]]; reflexivity.
Qed.

Lemma in_place_length own vt l : length (fst (cast_in_place own vt l)) = length l.
Proof.
  revert vt. induction l as [|e l IH]; intros vt; [reflexivity|]. cbn [cast_in_place].
  destruct (cast1 own vt e) as [[e' vt']|x]; [|reflexivity]. specialize (IH vt').
  destruct (cast_in_place own vt' l). cbn in *. congruence.
Qed.

Lemma assign_grows h v a h' v' e : assign_list h v a = (h', v', e) ->
  length h <= length h' /\ forall b, b <> a -> b < length h -> read h' b = read h b.
Proof.
  unfold assign_list. destruct (cast_in_place _ _ _) as [l [vt|x]].
  - unfold finish. destruct (eval_vlims vt l) as [l'|x].
    + destruct (reversed vt l); intros H; injection H as <- <- <-.
      * rewrite app_length, write_length. cbn. split; [lia|].
        intros b NE L. rewrite read_app by (rewrite write_length; exact L). apply read_write_ne. exact NE.
      * rewrite write_length. split; [lia|]. intros; apply read_write_ne; assumption.
    + intros H. injection H as <- <- <-. rewrite write_length. split; [lia|]. intros; apply read_write_ne; assumption.
  - intros H. injection H as <- <- <-. rewrite write_length. split; [lia|]. intros; apply read_write_ne; assumption.
Qed.

Lemma assign_at h v a h' v' e : assign_list h v a = (h', v', e) ->
  (e <> None /\ av_at v' = av_at v) \/ av_at v' = Some a \/ (av_at v' = Some (length h) /\ length h' = S (length h)).
Proof.
  unfold assign_list. destruct (cast_in_place _ _ _) as [l [vt|x]].
  - unfold finish. destruct (eval_vlims vt l) as [l'|x].
    + destruct (reversed vt l); intros H; injection H as <- <- <-; auto. right. right. rewrite app_length, write_length. cbn. split; [reflexivity|lia].
    + intros H. injection H as <- <- <-. auto.
  - intros H. injection H as <- <- <-. left. split; [discriminate|reflexivity].
Qed.

(** An assignment does what VariableModel says of the list as it is. *)
Lemma assign_refines h v a h' v' e : a < length h -> av_at v <> Some a -> assign_list h v a = (h', v', e) ->
  set_vset (state_of h v) (AList (read h a)) = (state_of h' v', match e with None => Ok tt | Some x => Err x end).
Proof.
  intros LA NS. unfold assign_list, set_vset. cbn [state_of vs_vtype].
  rewrite in_place_loop. destruct (cast_in_place (av_type v) (av_type v) (read h a)) as [l [vt|x]].
  - unfold finish. destruct (eval_vlims vt l) as [l'|x] eqn:EV.
    + destruct (reversed vt l) eqn:RV; intros H; injection H as <- <- <-; unfold state_of; cbn [av_type av_at option_map].
      * rewrite write_length. rewrite <- (write_length h a l), read_last. reflexivity.
      * rewrite read_write, Nat.eqb_refl by exact LA. f_equal. f_equal. f_equal. unfold reversed in RV. unfold eval_vlims in EV.
        destruct vt as [[| |]|]; try (destruct l; [discriminate|]; destruct (_ && _); congruence).
        destruct l as [|e0 [|e1 [|]]]; try discriminate. rewrite RV in EV. congruence.
    + intros H. injection H as <- <- <-. unfold state_of. cbn [av_type av_at option_map]. rewrite read_write, Nat.eqb_refl by exact LA. reflexivity.
  - intros H. injection H as <- <- <-. unfold state_of. destruct (av_at v) as [b|] eqn:B; [|reflexivity].
    cbn [option_map]. rewrite read_write_ne by congruence. reflexivity.
Qed.

(** ** Independence *)

Lemma source_grows w v s h' v' e a : assign_source w v s = (h', v', e) -> ~ gives_list w (av_type v) s a -> a < length (w_heap w) ->
  length (w_heap w) <= length h' /\ read h' a = read (w_heap w) a.
Proof.
  unfold assign_source. intros H NG L. destruct s as [|b|j|g]; cbn [source_at gives_list] in *.
  - destruct (av_type v) as [t|] eqn:TY; cbn [option_map] in H.
    + apply assign_grows in H. destruct H as [G R]. split; [exact G|]. apply R; [|exact L]. intros ->. apply NG. exists t. auto.
    + injection H as <- <- <-. auto.
  - apply assign_grows in H. destruct H as [G R]. auto.
  - destruct (nth_error (w_vars w) j) as [u|] eqn:U; [|injection H as <- <- <-; auto].
    destruct (av_at u) as [b|] eqn:B; [|injection H as <- <- <-; auto].
    apply assign_grows in H. destruct H as [G R]. split; [exact G|]. apply R; [|exact L]. intros ->. apply NG. exists u. auto.
  - destruct (new_list g) as [l|x]; [|injection H as <- <- <-; auto].
    apply assign_grows in H. destruct H as [G R]. rewrite app_length in G. cbn in G. split; [lia|].
    rewrite R; [apply read_app; exact L|lia|rewrite app_length; lia].
Qed.

Lemma act_alone w c i a v : ~ uses w c a -> ~ assigns c i -> a < length (w_heap w) -> nth_error (w_vars w) i = Some v ->
  a < length (w_heap (fst (do_act w c))) /\ read (w_heap (fst (do_act w c))) a = read (w_heap w) a /\
  nth_error (w_vars (fst (do_act w c))) i = Some v.
Proof.
  intros NU NA L NI. assert (IL : i < length (w_vars w)) by (apply nth_error_Some; congruence).
  destruct c as [l|b l|k l|k s|t s]; cbn [do_act uses] in *.
  - cbn. rewrite app_length. split; [lia|]. split; [apply read_app; exact L|exact NI].
  - cbn. rewrite write_length. split; [lia|]. split; [apply read_write_ne; exact NU|exact NI].
  - destruct (nth_error (w_vars w) k) as [u|] eqn:U; [|cbn; auto]. destruct (av_at u) as [b|] eqn:B; [|cbn; auto].
    cbn. rewrite write_length. split; [lia|]. split; [|exact NI]. apply read_write_ne. intros ->. apply NU. exists u. auto.
  - destruct (nth_error (w_vars w) k) as [u|] eqn:U; [|cbn; auto].
    destruct (assign_source w u s) as [[h' u'] e] eqn:AS. cbn.
    destruct (@source_grows w u s h' u' e a AS) as [G R]; [intros GL; apply NU; exists u; auto|exact L|].
    split; [lia|]. split; [exact R|]. rewrite set_var_other; [exact NI|]. intros ->. apply NA. exists s. reflexivity.
  - set (t0 := match t with Some _ => t | None => match s with FromNone => Some VBool | _ => t end end).
    set (first := match t0 with Some t1 => assign_list (w_heap w) (blank_var t0) (default_at t1) | None => (w_heap w, blank_var None, None) end).
    destruct first as [[h u] e] eqn:F.
    assert (A : length (w_heap w) <= length h /\ read h a = read (w_heap w) a).
    { unfold first in F. destruct t0 as [t1|] eqn:T0; [|injection F as <- <- <-; auto].
      apply assign_grows in F. destruct F as [G R]. split; [exact G|]. apply R; [|exact L]. intros ->. apply NU.
      unfold t0 in T0. destruct t as [t|]; [right; left; exists t1; split; [congruence|reflexivity]|].
      destruct s; try discriminate. injection T0 as <-. right. right. auto. }
    destruct A as [G R]. assert (App : forall z, nth_error (w_vars w ++ [z]) i = Some v) by (intros z; rewrite nth_error_app1; assumption).
    destruct e as [e|]; [cbn; repeat split; [lia|exact R|exact NI]|].
    assert (S1 : s <> FromNone -> forall h' u' e', assign_source (mkWorld h (w_vars w)) u s = (h', u', e') -> length h <= length h' /\ read h' a = read h a).
    { intros NN h' u' e' AS. apply (@source_grows (mkWorld h (w_vars w)) u s h' u' e' a AS); [|cbn; lia].
      intros GL. apply NU. left. destruct s as [|b|j|g]; [congruence|exact GL|exact GL|exact GL]. }
    destruct s as [|b|j|g]; [cbn; split; [lia|split; [exact R|apply App]]| | |];
      match goal with |- context [assign_source ?w0 ?u0 ?s0] => destruct (assign_source w0 u0 s0) as [[h' u'] e'] eqn:AS end;
      destruct (S1 ltac:(discriminate) _ _ _ eq_refl) as [G1 R1];
      destruct e' as [e'|]; cbn [fst w_heap w_vars]; (split; [lia|split; [exact (eq_trans R1 R)|first [exact NI|apply App]]]).
Qed.

Lemma independent w p i a v : nth_error (w_vars w) i = Some v -> av_at v = Some a -> a < length (w_heap w) -> leaves_alone w p i a ->
  nth_error (w_vars (program w p)) i = Some v /\ vset_of (program w p) i = vset_of w i.
Proof.
  unfold program. revert w. induction p as [|c p IH]; intros w NI AT L LA; [auto|]. destruct LA as (NU & NA & LA).
  destruct (@act_alone w c i a v NU NA L NI) as (L' & R & NI'). destruct (IH _ NI' AT L' LA) as [A B]. cbn [fold_left]. split; [exact A|].
  etransitivity; [exact B|]. unfold vset_of. rewrite NI', NI, AT. cbn [option_map]. rewrite R. reflexivity.
Qed.

(** ** Reachable worlds *)

Definition sound w : Prop := 3 <= length (w_heap w) /\ forall v a, In v (w_vars w) -> av_at v = Some a -> a < length (w_heap w).

Lemma default_lt (t : vtype) : default_at t < 3. Proof. destruct t; cbn; lia. Qed.

Lemma assign_sound h v a h' v' e : a < length h -> (forall b, av_at v = Some b -> b < length h) -> assign_list h v a = (h', v', e) ->
  length h <= length h' /\ forall b, av_at v' = Some b -> b < length h'.
Proof.
  intros L VL H. destruct (@assign_grows _ _ _ _ _ _ H) as [G _]. split; [exact G|]. intros b B.
  destruct (@assign_at _ _ _ _ _ _ H) as [[_ E]|[E|[E F]]]; rewrite E in B; [specialize (VL _ B); lia| |]; injection B as <-; lia.
Qed.
Lemma source_sound w v s h' v' e : sound w -> (forall b, av_at v = Some b -> b < length (w_heap w)) ->
  match s with FromList b => b < length (w_heap w) | _ => True end -> assign_source w v s = (h', v', e) ->
  length (w_heap w) <= length h' /\ forall b, av_at v' = Some b -> b < length h'.
Proof.
  intros [S3 SV] VL K. unfold assign_source. destruct s as [|b|j|g]; cbn [source_at].
  - destruct (av_type v) as [t|]; cbn [option_map]; intros H.
    + refine (@assign_sound _ _ _ _ _ _ _ VL H). pose proof (default_lt t). lia.
    + injection H as <- <- <-. auto.
  - intros H. exact (@assign_sound _ _ _ _ _ _ K VL H).
  - destruct (nth_error (w_vars w) j) as [u|] eqn:U; [|intros H; injection H as <- <- <-; auto].
    destruct (av_at u) as [b|] eqn:B; [|intros H; injection H as <- <- <-; auto].
    intros H. refine (@assign_sound _ _ _ _ _ _ _ VL H). apply (SV u b); [|exact B]. apply nth_error_In in U. exact U.
  - destruct (new_list g) as [l|x]; [|intros H; injection H as <- <- <-; auto]. intros H.
    assert (LL : length (w_heap w ++ [l]) = S (length (w_heap w))) by (rewrite app_length; cbn; lia).
    assert (VL' : forall b, av_at v = Some b -> b < length (w_heap w ++ [l])) by (intros b B; specialize (VL b B); lia).
    destruct (@assign_sound (w_heap w ++ [l]) _ (length (w_heap w)) _ _ _ ltac:(lia) VL' H) as [G I].
    split; [lia|exact I].
Qed.

Lemma act_sound w c : sound w -> known w c -> sound (fst (do_act w c)).
Proof.
  intros S K. pose proof S as [S3 SV]. destruct c as [l|b l|k l|k s|t s]; cbn [do_act known] in *.
  - split; cbn; rewrite app_length; [lia|]. intros v a I A. specialize (SV v a I A). lia.
  - split; cbn; rewrite write_length; assumption.
  - destruct (nth_error (w_vars w) k) as [u|]; [|exact S]. destruct (av_at u) as [b|]; [|exact S].
    split; cbn; rewrite write_length; assumption.
  - destruct (nth_error (w_vars w) k) as [u|] eqn:U; [|exact S]. destruct (assign_source w u s) as [[h' u'] e] eqn:AS.
    assert (UL : forall b, av_at u = Some b -> b < length (w_heap w)) by (intros b B; apply (SV u b); [apply nth_error_In in U; exact U|exact B]).
    assert (KS : match s with FromList b => b < length (w_heap w) | _ => True end) by (destruct s; auto).
    destruct (@source_sound w u s _ _ _ S UL KS AS) as [G I].
    split; cbn; [lia|]. intros v a IN A. destruct (set_var_in _ _ _ _ IN) as [->|IN']; [apply I; exact A|]. specialize (SV v a IN' A). lia.
  - set (t0 := match t, s with None, FromNone => Some VBool | _, _ => t end).
    set (first := match t0 with Some t1 => assign_list (w_heap w) (blank_var t0) (default_at t1) | None => (w_heap w, blank_var None, None) end).
    destruct first as [[h u] e] eqn:F.
    assert (A : length (w_heap w) <= length h /\ forall b, av_at u = Some b -> b < length h).
    { unfold first in F. destruct t0 as [t1|]; [|injection F as <- <- <-; split; [lia|discriminate]].
      refine (@assign_sound _ _ _ _ _ _ _ _ F); [pose proof (default_lt t1); lia|discriminate]. }
    destruct A as [G UL].
    assert (S1 : sound (mkWorld h (w_vars w))) by (split; cbn; [lia|intros v a IN A; specialize (SV v a IN A); lia]).
    assert (More : forall h' z, length h <= length h' -> (forall b, av_at z = Some b -> b < length h') -> sound (mkWorld h' (w_vars w ++ [z]))).
    { intros h' z GH ZL. split; cbn; [lia|]. intros v a IN A. apply in_app_or in IN. destruct IN as [IN|[<-|[]]]; [specialize (SV v a IN A); lia|auto]. }
    assert (Keep : forall h', length h <= length h' -> sound (mkWorld h' (w_vars w))).
    { intros h' GH. split; cbn; [lia|]. intros v a IN A. specialize (SV v a IN A). lia. }
    destruct e as [e|]; [exact S1|].
    assert (SS : forall h' u' e', assign_source (mkWorld h (w_vars w)) u s = (h', u', e') -> length h <= length h' /\ forall b, av_at u' = Some b -> b < length h').
    { intros h' u' e' AS. apply (@source_sound _ u s _ _ e' S1 UL); [destruct s; auto; cbn; lia|exact AS]. }
    destruct s as [|b|j|g]; [apply More; [lia|exact UL]| | |];
      match goal with |- context [assign_source ?w0 ?u0 ?s0] => destruct (assign_source w0 u0 s0) as [[h' u'] e'] eqn:AS end;
      destruct (SS _ _ _ eq_refl) as [G1 R1]; destruct e' as [e'|]; cbn [fst]; [apply Keep|apply More|apply Keep|apply More|apply Keep|apply More]; auto.
Qed.

Lemma reach_sound w : reachable w -> sound w.
Proof.
  induction 1 as [|w c R IH K]; [|apply act_sound; assumption]. split; cbn; [lia|]. intros v a [].
Qed.

(** ** Sets that are not lists *)

Lemma fresh w t g w' : reachable w -> do_act w (New t (FromOther g)) = (w', None) ->
  exists v a, nth_error (w_vars w') (length (w_vars w)) = Some v /\ av_at v = Some a /\ a < length (w_heap w') /\
    (forall t', a <> default_at t') /\ forall j, j <> length (w_vars w) -> ~ holds w' j a.
Proof.
  intros RW. destruct (reach_sound RW) as [S3 SV]. cbn [do_act].
  set (t0 := match t with Some _ => t | None => t end).
  set (first := match t0 with Some t1 => assign_list (w_heap w) (blank_var t0) (default_at t1) | None => (w_heap w, blank_var None, None) end).
  destruct first as [[h u] e] eqn:F.
  assert (A : length (w_heap w) <= length h).
  { unfold first in F. destruct t0 as [t1|]; [|injection F as <- <- <-; lia]. apply assign_grows in F. tauto. }
  destruct e as [e|]; [discriminate|]. cbn [assign_source w_heap w_vars].
  destruct (new_list g) as [l|x]; [|discriminate].
  destruct (assign_list (h ++ [l]) u (length h)) as [[h' v'] [x|]] eqn:AS; [discriminate|]. intros H. injection H as <-.
  destruct (@assign_grows _ _ _ _ _ _ AS) as [G _]. rewrite app_length in G. cbn in G.
  assert (AT : exists a, av_at v' = Some a /\ length h <= a < length h').
  { destruct (@assign_at _ _ _ _ _ _ AS) as [[C _]|[E|[E F2]]]; [congruence| |]; rewrite E; eexists; (split; [reflexivity|]); [lia|rewrite app_length in *; cbn in *; lia]. }
  destruct AT as (a & AT & LA & LB). exists v', a. cbn [w_vars w_heap].
  rewrite nth_error_app2, Nat.sub_diag by lia. split; [reflexivity|]. split; [exact AT|]. split; [exact LB|].
  split; [intros t' ->; pose proof (default_lt t'); lia|].
  intros j NE (z & Z & ZA). cbn [w_vars] in Z. destruct (lt_dec j (length (w_vars w))) as [LJ|LJ].
  - rewrite nth_error_app1 in Z by exact LJ. apply nth_error_In in Z. specialize (SV z a Z ZA). lia.
  - rewrite nth_error_app2 in Z by lia. destruct (j - length (w_vars w)) as [|k] eqn:D; [lia|]. cbn in Z. destruct k; discriminate.
Qed.

(** ** Shared lists *)

Lemma in_place_numbers own (t : vtype) vals : own = Some t -> cast_in_place own (Some t) (numbers vals) = (numbers (map (cast t) vals), Ok (Some t)).
Proof.
  intros ->. induction vals as [|v vals IH]; [reflexivity|]. cbn [numbers map cast_in_place cast1]. fold (numbers vals) in *.
  change (map (fun x : pyval R => Bare (AV x)) vals) with (numbers vals). rewrite IH. reflexivity.
Qed.
Lemma numbers_limits (t : vtype) vals : t <> VFloat -> vals <> [] -> eval_vlims (Some t) (numbers vals) = Ok (numbers vals).
Proof.
  intros NF NE. unfold eval_vlims.
  assert (E : existsb is_tup (numbers vals) = false) by (clear NE; induction vals; auto).
  destruct t; [| |congruence]; destruct vals as [|v vals]; try congruence; rewrite E; reflexivity.
Qed.
Lemma assign_numbers h v a (t : vtype) vals : av_type v = Some t -> t <> VFloat -> vals <> [] -> read h a = numbers vals ->
  assign_list h v a = (write h a (numbers (map (cast t) vals)), mkAV (Some t) (Some a) (numbers (map (cast t) vals)), None).
Proof.
  intros TY NF NE RD. unfold assign_list. rewrite RD, TY, in_place_numbers by reflexivity. unfold finish.
  rewrite numbers_limits; [|exact NF|destruct vals; [congruence|discriminate]].
  assert (RV : reversed (Some t) (numbers (map (cast t) vals)) = false) by (destruct t; congruence || reflexivity). rewrite RV. reflexivity.
Qed.

Lemma shared w i j x y a (t t' : vtype) vals : i <> j -> a < length (w_heap w) ->
  nth_error (w_vars w) i = Some x -> nth_error (w_vars w) j = Some y -> av_at x = Some a -> read (w_heap w) a = numbers vals -> vals <> [] ->
  av_type x = Some t -> av_type y = Some t' -> t' <> VFloat ->
  exists w', do_act w (Assign j (FromVar i)) = (w', None) /\ nth_error (w_vars w') i = Some x /\
    vset_of w' i = Some (numbers (map (cast t') vals)) /\ vset_of w' j = Some (numbers (map (cast t') vals)) /\
    forall z, In z (map (cast t') vals) -> vtype_of z = t'.
Proof.
  intros NE L NI NJ AT RD NV TX TY NF. cbn [do_act]. rewrite NJ. unfold assign_source. cbn [source_at]. rewrite NI, AT.
  rewrite (@assign_numbers _ y a t' vals) by assumption. eexists. split; [reflexivity|].
  assert (NI' : nth_error (set_var (w_vars w) j (mkAV (Some t') (Some a) (numbers (map (cast t') vals)))) i = Some x) by (rewrite set_var_other; assumption).
  assert (JL : j < length (w_vars w)) by (apply nth_error_Some; congruence).
  cbn [w_vars]. split; [exact NI'|]. unfold vset_of. cbn [w_vars w_heap]. rewrite NI', AT, set_var_same by exact JL. cbn [option_map av_at].
  rewrite read_write, Nat.eqb_refl by exact L. split; [reflexivity|]. split; [reflexivity|].
  intros z Z. apply in_map_iff in Z. destruct Z as (z0 & <- & _). destruct t', z0; reflexivity || congruence.
Qed.

Lemma default_shared w i x (t : vtype) vals : 3 <= length (w_heap w) -> nth_error (w_vars w) i = Some x -> av_at x = Some (default_at t) ->
  t <> VFloat -> vals <> [] ->
  exists w' w'', do_act w (EditVset i (numbers vals)) = (w', None) /\ do_act w' (New (Some t) FromNone) = (w'', None) /\
    (forall j, holds w j (default_at t) -> vset_of w' j = Some (numbers vals)) /\
    vset_of w'' (length (w_vars w)) = Some (numbers (map (cast t) vals)).
Proof.
  intros L NI AT NF NV. cbn [do_act]. rewrite NI, AT. eexists. eexists. split; [reflexivity|].
  cbn [w_heap w_vars]. pose proof (default_lt t) as DL.
  rewrite (@assign_numbers _ (blank_var (Some t)) (default_at t) t vals); [|reflexivity|exact NF|exact NV|rewrite read_write, Nat.eqb_refl by lia; reflexivity].
  split; [reflexivity|]. split.
  - intros j (z & Z & ZA). unfold vset_of. cbn [w_vars w_heap]. rewrite Z, ZA. cbn. rewrite read_write, Nat.eqb_refl by lia. reflexivity.
  - unfold vset_of. cbn [w_vars w_heap]. rewrite nth_error_app2, Nat.sub_diag by lia. cbn [nth_error av_at option_map].
    rewrite read_write, Nat.eqb_refl by (rewrite write_length; lia). reflexivity.
Qed.

Lemma made_default w (t : vtype) w' : do_act w (New (Some t) FromNone) = (w', None) -> t <> VFloat -> holds w' (length (w_vars w)) (default_at t).
Proof.
  cbn [do_act]. destruct (assign_list (w_heap w) (blank_var (Some t)) (default_at t)) as [[h v] [x|]] eqn:AS; [discriminate|].
  intros H NF. injection H as <-. exists v. cbn [w_vars]. rewrite nth_error_app2, Nat.sub_diag by lia. split; [reflexivity|].
  unfold assign_list in AS. cbn [blank_var av_type] in AS. destruct (cast_in_place _ _ _) as [l [vt|x]] eqn:CI; [|discriminate].
  assert (VT : vt = Some t).
  { clear AS. revert l CI. generalize (read (w_heap w) (default_at t)). intros l0. induction l0 as [|e l0 IH]; intros l CI; cbn in CI; [congruence|].
    destruct e as [[z|b]|[z|b]]; cbn in CI; destruct (cast_in_place (Some t) (Some t) l0) as [r o] eqn:E; injection CI as <- ->; exact (IH _ eq_refl). }
  subst vt. unfold finish in AS. destruct (eval_vlims (Some t) l); [|discriminate].
  assert (RV : reversed (Some t) l = false) by (destruct t; congruence || reflexivity). rewrite RV in AS. injection AS as _ <-. reflexivity.
Qed.

Lemma assign_seen h v a h' v' : a < length h -> assign_list h v a = (h', v', None) -> exists b, av_at v' = Some b /\ b < length h' /\ read h' b = av_seen v'.
Proof.
  intros LA. unfold assign_list. destruct (cast_in_place (av_type v) (av_type v) (read h a)) as [l [vt|x]]; [|discriminate].
  unfold finish. destruct (eval_vlims vt l) as [l'|x] eqn:EV; [|discriminate].
  destruct (reversed vt l) eqn:RV; intros H; injection H as <- <-; eexists; (split; [reflexivity|]); cbn [av_seen].
  - split; [rewrite app_length; cbn; lia|apply read_last].
  - rewrite write_length. split; [exact LA|]. rewrite read_write, Nat.eqb_refl by exact LA. unfold reversed in RV. unfold eval_vlims in EV.
    destruct vt as [[| |]|]; try (destruct l; [discriminate|]; destruct (_ && _); congruence).
    destruct l as [|e0 [|e1 [|]]]; try discriminate. rewrite RV in EV. congruence.
Qed.
Lemma source_seen w v s h' v' : sound w -> match s with FromList b => b < length (w_heap w) | _ => True end -> assign_source w v s = (h', v', None) ->
  exists b, av_at v' = Some b /\ b < length h' /\ read h' b = av_seen v'.
Proof.
  intros [S3 SV] K. unfold assign_source. destruct s as [|b|j|g]; cbn [source_at].
  - destruct (av_type v) as [t|]; [|discriminate]. cbn [option_map]. apply assign_seen. pose proof (default_lt t). lia.
  - apply assign_seen. exact K.
  - destruct (nth_error (w_vars w) j) as [u|] eqn:U; [|discriminate]. destruct (av_at u) as [b|] eqn:B; [|discriminate].
    apply assign_seen. apply nth_error_In in U. exact (SV u b U B).
  - destruct (new_list g) as [l|x]; [|discriminate]. apply assign_seen. rewrite app_length. cbn. lia.
Qed.

Lemma edited w i s w1 l1 l2 w2 : reachable w -> known w (Assign i s) -> do_act w (Assign i s) = (w1, None) -> vset_of w1 i = Some l1 ->
  do_act w1 (EditVset i l2) = (w2, None) -> vset_of w2 i = Some l2 /\
  length_of w1 i = length_of w2 i /\
  (forall v, nth_error (w_vars w2) i = Some v -> av_type v = Some VInt -> length_of w2 i = Ok (Some (PI (Z.of_nat (length l1))))).
Proof.
  intros RW K H1 V1 H2. pose proof (reach_sound RW) as S. cbn [do_act] in H1.
  destruct (nth_error (w_vars w) i) as [v|] eqn:NI; [|discriminate]. destruct (assign_source w v s) as [[h v'] e] eqn:AS. injection H1 as <- ->.
  destruct (@source_seen w v s h v' S ltac:(destruct s; exact K) AS) as (b & AT & L & RD).
  assert (IL : i < length (w_vars w)) by (apply nth_error_Some; congruence).
  unfold vset_of in V1. cbn [w_vars w_heap] in V1. rewrite set_var_same, AT in V1 by exact IL. cbn [option_map] in V1. injection V1 as V1.
  cbn [do_act w_vars w_heap] in H2. rewrite set_var_same, AT in H2 by exact IL. injection H2 as <-.
  unfold vset_of, length_of. cbn [w_vars w_heap]. rewrite set_var_same, AT by exact IL. cbn [option_map].
  rewrite read_write, Nat.eqb_refl by exact L. split; [reflexivity|]. split; [reflexivity|].
  intros u U TY. injection U as <-. rewrite TY. unfold vlength. cbn [vs_vset vs_vtype]. congruence.
Qed.

(** ** What becomes of the list given *)

Lemma in_place_some own t l : exists k, fst (cast_in_place own (Some t) l) = map (converted t) (firstn k l) ++ skipn k l /\
  (own <> None -> k = length l) /\ (forall o, snd (cast_in_place own (Some t) l) = Ok o -> k = length l /\ o = Some t).
Proof.
  induction l as [|e l (k & E & K & O)]; [exists 0; cbn; repeat split; congruence|]. cbn [cast_in_place].
  destruct (cast1 own (Some t) e) as [[e' vt']|x] eqn:C.
  - assert (A : e' = converted t e /\ vt' = Some t).
    { destruct e as [[z|b]|[z|b]]; cbn in C; try (injection C as <- <-; split; reflexivity).
      destruct own; [injection C as <- <-; split; reflexivity|]. destruct (vtype_eqb _ _); [injection C as <- <-; split; reflexivity|discriminate]. }
    destruct A as [-> ->]. destruct (cast_in_place own (Some t) l) as [r o]. cbn [fst snd] in *. exists (S k). cbn [firstn skipn map app length]. split; [congruence|].
    split; [intros H; f_equal; apply K; exact H|]. intros o' ->. destruct (O _ eq_refl). split; [congruence|assumption].
  - exists 0. cbn. split; [reflexivity|]. split; [|discriminate]. intros NO. exfalso.
    destruct e as [[z|b]|[z|b]]; cbn in C; try discriminate. destruct own; [discriminate|congruence].
Qed.
Lemma in_place_any own vt l : exists t k, fst (cast_in_place own vt l) = map (converted t) (firstn k l) ++ skipn k l /\
  (forall t', vt = Some t' -> t = t') /\ (vt <> None -> own <> None -> k = length l) /\ (forall o, snd (cast_in_place own vt l) = Ok o -> k = length l /\ (l <> [] -> o = Some t)).
Proof.
  destruct vt as [t|].
  - destruct (in_place_some own t l) as (k & E & K & O). exists t, k. split; [exact E|]. split; [congruence|]. split; [auto|].
    intros o H. destruct (O _ H). auto.
  - destruct l as [|e l]; [exists VBool, 0; cbn; repeat split; congruence|]. cbn [cast_in_place].
    assert (C : exists t, cast1 own None e = Ok (converted t e, Some t)).
    { destruct e as [[z|b]|[z|b]]; [exists (vtype_of z)|exists VFloat|exists VFloat|exists VFloat]; reflexivity. }
    destruct C as (t & ->). destruct (in_place_some own t l) as (k & E & K & O). destruct (cast_in_place own (Some t) l) as [r o]. cbn [fst snd] in *.
    exists t, (S k). cbn [firstn skipn map app length]. split; [congruence|]. split; [discriminate|]. split; [congruence|].
    intros o' H. destruct (O _ H). split; [congruence|auto].
Qed.

Lemma given h v a h' v' e : a < length h -> assign_list h v a = (h', v', e) ->
  exists t k, read h' a = map (converted t) (firstn k (read h a)) ++ skipn k (read h a) /\
    (forall t', av_type v = Some t' -> t = t' /\ k = length (read h a)) /\
    (e = None -> k = length (read h a) /\ av_type v' = Some t).
Proof.
  intros L. unfold assign_list. destruct (in_place_any (av_type v) (av_type v) (read h a)) as (t & k & E & A & B & C).
  destruct (cast_in_place (av_type v) (av_type v) (read h a)) as [l o]. cbn [fst snd] in *. subst l.
  assert (RW : forall l, read (write h a l) a = l) by (intros l; rewrite read_write, Nat.eqb_refl by exact L; reflexivity).
  assert (TY : forall t', av_type v = Some t' -> t = t' /\ k = length (read h a)) by (intros t' H; split; [exact (A _ H)|apply B; congruence]).
  destruct o as [vt|x].
  - destruct (C _ eq_refl) as [KL VT]. unfold finish.
    assert (NE : forall l', eval_vlims vt (map (converted t) (firstn k (read h a)) ++ skipn k (read h a)) = Ok l' -> vt = Some t).
    { intros l' H. apply VT. intros N. rewrite N, firstn_nil, skipn_nil in H. destruct vt as [[| |]|]; discriminate. }
    destruct (eval_vlims vt _) as [l'|x] eqn:EV.
    + specialize (NE _ eq_refl). destruct (reversed vt _); intros H; injection H as <- <- <-; exists t, k.
      * split; [rewrite read_app by (rewrite write_length; exact L); apply RW|]. split; [exact TY|]. intros _. split; [exact KL|exact NE].
      * split; [apply RW|]. split; [exact TY|]. intros _. split; [exact KL|exact NE].
    + intros H; injection H as <- <- <-. exists t, k. split; [apply RW|]. split; [exact TY|discriminate].
  - intros H; injection H as <- <- <-. exists t, k. split; [apply RW|]. split; [exact TY|discriminate].
Qed.
