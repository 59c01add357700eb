(** Lemmas about arrays that are shared between distributions. *)
From Coq Require Import String ZArith Bool Arith Lia Reals Permutation List.
From Verif Require Import Base Num RNumLemmas Tensor PScales PScales_Spec Names Distr OdLemmas TensorLemmas PDModel PD_Spec PD_Cond_Spec PD_Call_Spec ShareModel Share_Spec.
Import ListNotations.
Local Open Scope nat_scope.

Section S.
Context {F : Fmt R}.

Lemma bindE {A B} (r : result A) (f : A -> result B) b : bind r f = Ok b -> exists a, r = Ok a /\ f a = Ok b.
Proof. destruct r; cbn; [eauto|discriminate]. Qed.

Tactic Notation "bd" ident(H) ident(a) ident(E) := apply bindE in H; destruct H as (a & E & H).

Lemma made_prob nm vals dims pr ps (q : pd R) : make_pd nm vals dims pr ps = Ok q -> p_prob q = pr.
Proof.
  unfold make_pd. intros H. bd H mc E. destruct mc as [m c]. bd H d E1. bd H mc' E2. destruct mc' as [m' c'].
  bd H psc E3. bd H u E4. injection H as <-. reflexivity.
Qed.

Lemma moveaxis_tmap {A B} (f : A -> B) (t : tensor A) o n u : moveaxis (tmap f t) o n = Ok u ->
  exists v, moveaxis t o n = Ok v /\ u = tmap f v.
Proof.
  unfold moveaxis. intros H. bd H s E1. bd H d E2. change (ndim (tmap f t)) with (ndim t) in *. rewrite E1, E2. cbn [bind].
  destruct (_ =? _) in *; [|discriminate]. injection H as <-. eexists. split; reflexivity.
Qed.

Lemma np_index_tmap {A B} (f : A -> B) (t : tensor A) ixs : existsb is_arr ixs = false ->
  np_index (tmap f t) ixs = Ok (tmap f (mkT (basic_shape ixs (shape t)) (fun idx => get t (basic_idx ixs idx)))) /\
  np_index t ixs = Ok (mkT (basic_shape ixs (shape t)) (fun idx => get t (basic_idx ixs idx))).
Proof. unfold np_index. intros ->. split; reflexivity. Qed.

Lemma rescale_one (t : tensor R) a b : eval_pscale a = Ok (Lin 1%R) -> eval_pscale b = Ok (Lin 1%R) -> rescale t a b = Ok t.
Proof.
  unfold rescale. intros -> ->. cbn [bind is_log Bool.eqb andb pscale_eqb]. 
  replace (n_eqb 1%R 1%R) with true; [reflexivity|]. symmetry. apply Reqb_iff. reflexivity.
Qed.

(** The result is a view exactly as [view] has it. *)
Lemma view_reads (m : method R) (p q : pd R) f pl : p_prob p = Some (tmap f pl) -> apply m p = Ok q ->
  exists v t, view m p pl = Ok v /\ p_prob q = Some t /\ (forall pl', v = Some pl' -> t = tmap f pl').
Proof.
  intros P H. destruct m as [ks|ks|ks|km|ks|k ix|s|vs kd]; cbn [apply view] in *.
  - unfold marginalise in H. bd H u E. bd H st E1. bd H p0 E2. bd H p1 E3. bd H p2 E4. bd H p3 E5.
    apply made_prob in H. exists None, p3. repeat split; [exact H|discriminate].
  - unfold marginal in H. 
    assert (X : exists ks', marginalise p ks' = Ok q).
    { repeat (first [ eexists; exact H | let a := fresh in let E := fresh in bd H a E ]). }
    clear H. destruct X as (ks' & H). unfold marginalise in H. bd H u E. bd H st E1. bd H p0 E2. bd H p1 E3. bd H p2 E4. bd H p3 E5.
    apply made_prob in H. exists None, p3. repeat split; [exact H|discriminate].
  - unfold conditionalise in H. unfold cond_view. bd H u E. bd H st E1. rewrite E1. cbn [bind].
    destruct (lower_dims (c_dims st)) as [d1 dm]. bd H dims E2. rewrite E2. cbn [bind].
    bd H dv E3. bd H ax E4. destruct ax as [[od nd] sa]. rewrite E4. cbn [bind].
    bd H p0 E5. bd H p1 E6. bd H p2 E7. bd H p3 E8. bd H p4 E9. bd H p5 E10. bd H p6 E11.
    apply made_prob in H.
    destruct (c_norm st); [exists None, p6; repeat split; [exact H|discriminate]|].
    destruct sa; [|exists None, p6; repeat split; [exact H|discriminate]].
    destruct (p_pscale p) as [c|c i] eqn:Sc; [|exists None, p6; repeat split; [exact H|discriminate]].
    destruct (n_eqb c n1) eqn:C1; [|exists None, p6; repeat split; [exact H|discriminate]].
    apply Reqb_iff in C1. cbn in C1. subst c.
    unfold p_probR in E5. rewrite P in E5. cbn in E5. injection E5 as <-.
    destruct (moveaxis_tmap f pl od nd p1 E6) as (v & Ev & ->). rewrite Ev. cbn [bind].
    cbn [andb] in E7. injection E7 as <-. injection E9 as <-. injection E10 as <-.
    assert (S1 : eval_pscale (spec_of (Lin 1%R)) = Ok (Lin 1%R)).
    { cbn. rewrite Reqb_refl. reflexivity. }
    assert (S2 : eval_pscale (one_ps (T := R)) = Ok (Lin 1%R)) by exact S1.
    rewrite (rescale_one _ _ _ S1 S2) in E8. injection E8 as <-.
    rewrite (rescale_one _ _ _ S2 S1) in E11. injection E11 as <-.
    exists (Some v), (tmap f v). repeat split; [exact H|]. intros pl' X. injection X as <-. reflexivity.
  - unfold pd_rekey in H. bd H d E. bd H mg E1. bd H cd E2. apply made_prob in H. rewrite P in H.
    exists (Some pl), (tmap f pl). repeat split; [exact H|]. intros pl' X. injection X as <-. reflexivity.
  - unfold pd_prod in H. bd H u E. bd H st E1. bd H ax E2. bd H p0 E3. bd H p1 E4. apply made_prob in H.
    exists None, p1. repeat split; [exact H|discriminate].
  - unfold sorted in H. bd H dim E. rewrite E. cbn [bind]. destruct dim as [dz|].
    + bd H d E1. bd H p0 E2. bd H vs E3. apply made_prob in H. eexists None, _. repeat split; [exact H|discriminate].
    + apply made_prob in H. rewrite P in H. exists (Some pl), (tmap f pl). repeat split; [exact H|]. intros pl' X. injection X as <-. reflexivity.
  - unfold rescaled in H. bd H p0 E. bd H p1 E1. apply made_prob in H. exists None, p1. repeat split; [exact H|discriminate].
  - unfold call in H. unfold call_view. destruct (negb _); [discriminate|]. bd H st E. rewrite E. cbn [bind].
    bd H p0 E1. bd H p1 E2. apply made_prob in H. unfold p_probR in E1. rewrite P in E1. cbn in E1. injection E1 as <-.
    destruct (existsb is_arr (k_slices st)) eqn:A; [exists None, p1; repeat split; [exact H|discriminate]|].
    destruct (np_index_tmap f pl _ A) as [X1 X2]. rewrite X2. cbn [bind shape]. rewrite X1 in E2. injection E2 as <-.
    destruct (basic_shape (k_slices st) (shape pl)) as [|n0 sh] eqn:Sh.
    + eexists None, _. repeat split; [exact H|discriminate].
    + eexists (Some _), _. split; [reflexivity|]. split; [exact H|]. intros pl' X. injection X as <-. reflexivity.
Qed.

Lemma read_alloc (h : heap R) t : read (fst (alloc h t)) (snd (alloc h t)) = t.
Proof.
  destruct t as [sh g]. unfold alloc, read, buffer. cbn [fst snd a_buf a_place]. rewrite app_nth2, Nat.sub_diag by lia. reflexivity.
Qed.

Lemma read_more (h : heap R) t a : a_buf a < length h -> read (h ++ [t])%list a = read h a.
Proof. intros H. unfold read, buffer. rewrite app_nth1 by auto. reflexivity. Qed.

Lemma look_prob h (x : held R) : p_prob (look h x) = Some (tmap (get (buffer h (a_buf (h_arr x)))) (a_place (h_arr x))).
Proof. reflexivity. Qed.

Lemma with_same (q : pd R) t : p_prob q = Some t -> with_prob q t = q.
Proof. destruct q as [d m c p s]. cbn. intros ->. reflexivity. Qed.

(** Deriving shows what the method returns; other arrays stay. *)
Lemma derive_shows (h : heap R) (x : held R) m q : apply m (look h x) = Ok q ->
  exists h' y, derive h x m = Ok (h', y) /\ look h' y = q /\
    (forall a, a_buf a < length h -> read h' a = read h a) /\ length h <= length h' /\
    (a_buf (h_arr x) < length h -> a_buf (h_arr y) < length h') /\
    ((a_buf (h_arr y) = a_buf (h_arr x) /\ h' = h /\ view m (look h x) (a_place (h_arr x)) = Ok (Some (a_place (h_arr y)))) \/
     (a_buf (h_arr y) = length h /\ view m (look h x) (a_place (h_arr x)) = Ok None)).
Proof.
  intros H. destruct (view_reads m (look h x) q _ _ (look_prob h x) H) as (v & t & V & P & R0).
  unfold derive. rewrite H. cbn [bind]. rewrite V. cbn [bind]. destruct v as [pl|].
  - eexists _, _. split; [reflexivity|]. split.
    { unfold look. cbn [h_pd h_arr]. apply with_same. rewrite P. f_equal. exact (R0 pl eq_refl). }
    cbn [h_arr a_buf a_place]. repeat split; auto.
  - unfold p_probR. rewrite P. cbn [bind]. eexists _, _. split; [reflexivity|]. split.
    { unfold look. cbn [h_pd h_arr]. apply with_same. rewrite P. f_equal. symmetry. exact (read_alloc h t). }
    cbn [h_arr a_buf a_place alloc fst snd]. split; [intros a; apply read_more|]. rewrite app_length. cbn.
    repeat split; try lia. right. auto.
Qed.

Lemma derive_raises (h : heap R) (x : held R) m e : apply m (look h x) = Err e -> derive h x m = Err e.
Proof. intros H. unfold derive. rewrite H. reflexivity. Qed.

Lemma write_length (h : heap R) a idx v : length (fst (write h a idx v)) = length h.
Proof.
  unfold write. destruct (shape (a_place a)); [reflexivity|]. destruct (within _ _); [|reflexivity]. cbn. apply set_nth_length.
Qed.

Lemma write_other (h : heap R) a idx v b : a_buf b <> a_buf a -> read (fst (write h a idx v)) b = read h b.
Proof.
  intros H. unfold write. destruct (shape (a_place a)); [reflexivity|]. destruct (within _ _); [|reflexivity]. cbn.
  unfold read, buffer. rewrite nth_set_nth_ne by auto. reflexivity.
Qed.

(** Distributions in fam have no array in common with the others. *)
Definition separate (fam : list nat) (w : world R) : Prop :=
  forall i j x y, In i fam -> ~ In j fam -> nth_error (w_pds w) i = Some (Some x) -> nth_error (w_pds w) j = Some (Some y) ->
  a_buf (h_arr x) <> a_buf (h_arr y).

Lemma nth_snoc {A} (l : list A) z i y : nth_error (l ++ [z])%list i = Some y ->
  (i < length l /\ nth_error l i = Some y) \/ (i = length l /\ y = z).
Proof.
  intros H. destruct (Nat.lt_ge_cases i (length l)) as [L|L].
  - rewrite nth_error_app1 in H by auto. auto.
  - rewrite nth_error_app2 in H by auto. destruct (i - length l) eqn:E; cbn in H.
    + injection H as <-. right. split; [lia|reflexivity].
    + destruct n; discriminate.
Qed.

(** One derivation. *)
Lemma derive_step (w : world R) i m fam : sound w -> separate fam w -> (forall k, In k fam -> k < length (w_pds w)) ->
  let w' := do_step w (SDerive i m) in
  let fam' := if in_dec Nat.eq_dec i fam then length (w_pds w) :: fam else fam in
  sound w' /\ separate fam' w' /\ length (w_pds w') = S (length (w_pds w)) /\
  (forall j, j < length (w_pds w) -> shows w' j = shows w j).
Proof.
  intros So Se Lt w' fam'.
  assert (None_case : w' = mkWorld (w_heap w) (w_pds w ++ [None]) ->
    sound w' /\ separate fam' w' /\ length (w_pds w') = S (length (w_pds w)) /\ (forall j, j < length (w_pds w) -> shows w' j = shows w j)).
  { intros ->. cbn [w_pds w_heap]. split; [|split; [|split]].
    - intros k x E. cbn in E. apply nth_snoc in E as [[_ E]|[_ E]]; [exact (So k x E)|discriminate].
    - intros a b x y A B E1 E2. cbn in E1, E2. apply nth_snoc in E1 as [[L1 E1]|[_ E1]]; [|discriminate].
      apply nth_snoc in E2 as [[L2 E2]|[_ E2]]; [|discriminate]. apply (Se a b); auto.
      + unfold fam' in A. destruct (in_dec _ i fam); [destruct A as [A|A]; [lia|exact A]|exact A].
      + unfold fam' in B. destruct (in_dec _ i fam); [intros C; apply B; right; exact C|exact B].
    - rewrite app_length. cbn. lia.
    - intros j L. unfold shows. cbn. rewrite nth_error_app1 by auto. reflexivity. }
  destruct (nth_error (w_pds w) i) as [[x|]|] eqn:Ei; try (apply None_case; unfold w'; cbn [do_step]; rewrite Ei; reflexivity).
  destruct (apply m (look (w_heap w) x)) as [q|e] eqn:Ap.
  2: { apply None_case. unfold w'. cbn [do_step]. rewrite Ei, (derive_raises _ _ _ _ Ap). reflexivity. }
  destruct (derive_shows _ _ _ _ Ap) as (h' & y & D & Ly & Rd & Ln & Bf & Cs).
  assert (W : w' = mkWorld h' (w_pds w ++ [Some y])) by (unfold w'; cbn [do_step]; rewrite Ei, D; reflexivity).
  clear None_case. rewrite W. cbn [w_pds w_heap].
  assert (Bx : a_buf (h_arr x) < length (w_heap w)) by exact (So i x Ei).
  split; [|split; [|split]].
  - intros k z E. cbn in E. cbn. apply nth_snoc in E as [[_ E]|[_ E]]; [specialize (So k z E); lia|]. injection E as ->. auto.
  - intros a b z z' A B E1 E2. cbn in E1, E2. apply nth_snoc in E1 as [[L1 E1]|[-> E1]]; apply nth_snoc in E2 as [[L2 E2]|[-> E2]].
    + apply (Se a b); auto.
      * unfold fam' in A. destruct (in_dec _ i fam); [destruct A as [A|A]; [lia|exact A]|exact A].
      * unfold fam' in B. destruct (in_dec _ i fam); [intros C; apply B; right; exact C|exact B].
    + injection E2 as ->. unfold fam' in A, B. destruct (in_dec _ i fam) as [I|I]; [exfalso; apply B; left; reflexivity|].
      destruct Cs as [(-> & _)|(-> & _)]; [apply (Se a i); auto|]. specialize (So a z E1). lia.
    + injection E1 as ->. unfold fam' in A, B. destruct (in_dec _ i fam) as [I|I].
      * destruct Cs as [(-> & _)|(-> & _)]; [apply (Se i b); auto; intros C; apply B; right; exact C|]. specialize (So b z' E2). lia.
      * specialize (Lt _ A). lia.
    + congruence.
  - rewrite app_length. cbn. lia.
  - intros j L. unfold shows. cbn. rewrite nth_error_app1 by auto. destruct (nth_error (w_pds w) j) as [[z|]|] eqn:Ej; try reflexivity.
    unfold look. rewrite Rd by exact (So j z Ej). reflexivity.
Qed.

(** One write. *)
Lemma write_step (w : world R) i idx v fam : sound w -> separate fam w ->
  let w' := do_step w (SWrite i idx v) in
  sound w' /\ separate fam w' /\ length (w_pds w') = length (w_pds w) /\
  (forall j, (In i fam /\ ~ In j fam) \/ (~ In i fam /\ In j fam) -> shows w' j = shows w j).
Proof.
  intros So Se w'. unfold w'. cbn [do_step]. destruct (nth_error (w_pds w) i) as [[x|]|] eqn:Ei; try (repeat split; auto; fail).
  cbn [w_pds w_heap]. split; [|split; [|split]].
  - intros k z E. cbn in *. rewrite write_length. exact (So k z E).
  - exact Se.
  - reflexivity.
  - intros j H. unfold shows. cbn. destruct (nth_error (w_pds w) j) as [[z|]|] eqn:Ej; try reflexivity.
    unfold look. rewrite write_other; [reflexivity|]. destruct H as [[A B]|[A B]].
    + apply not_eq_sym. exact (Se i j x z A B Ei Ej).
    + exact (Se j i z x B A Ej Ei).
Qed.

Lemma run_outside (l : list (step R)) : forall (w : world R) fam, sound w -> separate fam w ->
  (forall k, In k fam -> k < length (w_pds w)) -> outside fam (length (w_pds w)) l ->
  forall i, In i fam -> shows (run w l) i = shows w i.
Proof.
  induction l as [|[j m|j idx v] l IH]; intros w fam So Se Lt O i I; [reflexivity| |].
  - cbn [outside] in O. destruct (derive_step w j m fam So Se Lt) as (So' & Se' & L' & Sh).
    cbn [run fold_left]. change (fold_left do_step l (do_step w (SDerive j m))) with (run (do_step w (SDerive j m)) l).
    rewrite (IH _ _ So' Se').
    + apply Sh. auto.
    + rewrite L'. intros k K. destruct (in_dec _ j fam); [destruct K as [<-|K]; [lia|]|]; specialize (Lt _ K); lia.
    + rewrite L'. exact O.
    + destruct (in_dec _ j fam); [right|]; exact I.
  - cbn [outside] in O. destruct O as [N O]. destruct (write_step w j idx v fam So Se) as (So' & Se' & L' & Sh).
    cbn [run fold_left]. change (fold_left do_step l (do_step w (SWrite j idx v))) with (run (do_step w (SWrite j idx v)) l).
    rewrite (IH _ _ So' Se'); auto; rewrite L'; auto.
Qed.

Lemma run_inside (l : list (step R)) : forall (w : world R) fam, sound w -> separate fam w ->
  (forall k, In k fam -> k < length (w_pds w)) -> inside fam (length (w_pds w)) l ->
  forall i, i < length (w_pds w) -> ~ In i fam -> shows (run w l) i = shows w i.
Proof.
  induction l as [|[j m|j idx v] l IH]; intros w fam So Se Lt O i I NI; [reflexivity| |].
  - cbn [inside] in O. destruct (derive_step w j m fam So Se Lt) as (So' & Se' & L' & Sh).
    cbn [run fold_left]. change (fold_left do_step l (do_step w (SDerive j m))) with (run (do_step w (SDerive j m)) l).
    rewrite (IH _ _ So' Se').
    + apply Sh. auto.
    + rewrite L'. intros k K. destruct (in_dec _ j fam); [destruct K as [<-|K]; [lia|]|]; specialize (Lt _ K); lia.
    + rewrite L'. exact O.
    + rewrite L'. lia.
    + destruct (in_dec _ j fam); [|exact NI]. intros [C|C]; [lia|exact (NI C)].
  - cbn [inside] in O. destruct O as [N O]. destruct (write_step w j idx v fam So Se) as (So' & Se' & L' & Sh).
    cbn [run fold_left]. change (fold_left do_step l (do_step w (SWrite j idx v))) with (run (do_step w (SWrite j idx v)) l).
    rewrite (IH _ _ So' Se'); auto; rewrite L'; auto.
Qed.

(** Deriving shows what the method returns and changes nothing else; if it raises, there
    is no new distribution. *)
Lemma derived_shows (w : world R) i p m : sound w -> shows w i = Some p ->
  let w' := do_step w (SDerive i m) in
  sound w' /\ (forall j, j < length (w_pds w) -> shows w' j = shows w j) /\
  shows w' (length (w_pds w)) = match apply m p with Ok q => Some q | Err _ => None end.
Proof.
  intros So Sh w'. destruct (derive_step w i m [] So) as (So' & _ & _ & St).
  { intros a b x y []. } { intros k []. }
  split; [exact So'|]. split; [exact St|]. unfold shows in Sh. unfold w', shows. cbn [do_step].
  destruct (nth_error (w_pds w) i) as [[x|]|] eqn:Ei; try discriminate. injection Sh as <-.
  destruct (apply m (look (w_heap w) x)) as [q|e] eqn:Ap.
  - destruct (derive_shows _ _ _ _ Ap) as (h' & y & D & Ly & _). rewrite D. cbn. rewrite nth_error_app2, Nat.sub_diag by lia. cbn. rewrite Ly. reflexivity.
  - rewrite (derive_raises _ _ _ _ Ap). cbn. rewrite nth_error_app2, Nat.sub_diag by lia. reflexivity.
Qed.

(** If no axis is summed over, no marginal column is left. *)
Lemma axes_rest (p : pd R) L keys dims o n : valid_pd p L -> cond_axes p keys dims = Ok (o, n, []) -> rest p L keys = [].
Proof.
  intros V E. unfold cond_axes in E.
  apply (fold_res_inv _ (fun pre (acc : list Z * list Z * list Z) =>
     (forall z, Zmem z (fst (fst acc)) = true -> exists k', In k' pre /\ od_get (p_dims p) k' = Some (Some z)) /\
     (snd acc = [] -> forall k, In k pre -> In k L -> In k keys \/ ~ In k (od_keys (p_marg p))))) in E.
  - destruct E as [_ E]. specialize (E eq_refl). destruct (rest p L keys) as [|k l] eqn:Re; [reflexivity|]. exfalso.
    assert (I : In k (rest p L keys)) by (rewrite Re; left; reflexivity).
    unfold rest, marg_columns, without, restrict in I. apply filter_In in I as [I J]. apply filter_In in I as [I M].
    apply mem_str_iff in M. apply negb_true_iff, mem_str_false in J.
    destruct (E k (vp_incl p L V k I) I) as [C|C]; auto.
  - split; [discriminate|intros _ k []].
  - intros pre k post [[a b] c] [[a' b'] c'] El [I1 I2] S. cbn [fst snd] in *.
    pose proof (vp_keys p L V) as ND. rewrite El in ND.
    assert (NK : ~ In k pre) by (apply NoDup_remove_2 in ND; intros C; apply ND; apply in_or_app; auto).
    bd S dd D. unfold od_getR in D. destruct (od_get (p_dims p) k) as [dk|] eqn:Dk; [|discriminate]. injection D as ->.
    destruct dd as [z|].
    2: { injection S as <- <- <-. split.
         - intros z Z. destruct (I1 z Z) as (k' & A & B). exists k'. split; [apply in_or_app; auto|exact B].
         - intros C k' K KL. apply in_app_or in K as [K|[<-|[]]]; [auto|]. exfalso.
           apply In_nth_error in KL as (j & J). destruct (vp_column p L V j k J) as (? & ? & _ & _ & _ & _ & G). congruence. }
    destruct (Zmem z a) eqn:Zm.
    { injection S as <- <- <-. split.
      - intros z' Z. destruct (I1 z' Z) as (k' & A & B). exists k'. split; [apply in_or_app; auto|exact B].
      - intros C k' K KL. apply in_app_or in K as [K|[<-|[]]]; [auto|]. exfalso.
        destruct (I1 z Zm) as (k' & A & B). apply In_nth_error in KL as (j & J).
        destruct (vp_column p L V j k J) as (? & ? & _ & _ & _ & _ & G).
        assert (KL' : In k' L).
        { destruct (in_dec string_dec k' L) as [Y|Y]; [exact Y|]. exfalso.
          destruct (od_get (p_vals p) k') as [v|] eqn:Gv; [pose proof (proj2 (vp_scalar p L V k' v Gv Y)); congruence|].
          apply od_get_none in Gv. apply Gv. change (In k' (p_keylist p)). rewrite El. apply in_or_app. auto. }
        apply In_nth_error in KL' as (j' & J'). destruct (vp_column p L V j' k' J') as (? & ? & _ & _ & _ & _ & G').
        assert (j = j') as <- by (rewrite Dk in G; rewrite B in G'; injection G; injection G'; lia). rewrite J in J'. injection J' as <-. exact (NK A). }
    bd S nd D1. destruct nd as [z'|]; [|discriminate]. injection S as <- <- <-. split.
    + intros y Y. unfold Zmem in Y. rewrite existsb_app in Y. apply orb_true_iff in Y as [Y|Y].
      * destruct (I1 y Y) as (k' & A & B). exists k'. split; [apply in_or_app; auto|exact B].
      * cbn in Y. rewrite orb_false_r in Y. apply Z.eqb_eq in Y. subst y. exists k. split; [apply in_or_app; right; left; reflexivity|exact Dk].
    + intros C k' K KL. destruct (negb (mem_str k keys) && od_mem (p_marg p) k) eqn:Bq.
      * exfalso. unfold set_addZ in C. destruct (Zmem z' c) eqn:Q; [subst c; discriminate|]. apply app_eq_nil in C as [_ C]. discriminate.
      * apply in_app_or in K as [K|[<-|[]]]; [auto|]. apply andb_false_iff in Bq as [Bq|Bq].
        -- left. apply negb_false_iff in Bq. apply mem_str_iff. exact Bq.
        -- right. apply od_mem_false. exact Bq.
Qed.

(** Results with an array of their own. *)
Lemma own_view m (p q : pd R) pl v : own_array m p -> apply m p = Ok q -> view m p pl = Ok v -> v = None.
Proof.
  intros O Ap V. destruct m as [ks|ks|ks|km|ks|k ix|s|vs kd]; cbn [view own_array] in *; try (injection V as <-; reflexivity); try contradiction.
  - unfold cond_view in V. bd V st E. destruct (lower_dims _) as [d1 dm]. bd V dims E1. bd V ax E2. destruct ax as [[od nd] sa].
    destruct (c_norm st); [injection V as <-; reflexivity|]. destruct sa; [|injection V as <-; reflexivity].
    destruct (p_pscale p) as [c|c im] eqn:Sc; [|injection V as <-; reflexivity].
    destruct (n_eqb c n1) eqn:C1; [|injection V as <-; reflexivity]. exfalso. apply Reqb_iff in C1. cbn in C1. subst c.
    destruct O as [O|(L & Va & O)]; [exact (O eq_refl)|]. exact (O (axes_rest p L ks dims od nd Va E2)).
  - bd V dim E. destruct dim; [injection V as <-; reflexivity|]. exfalso. unfold od_getR in E.
    destruct (od_get (p_dims p) k) as [dk|]; [|discriminate]. injection E as ->. apply O. reflexivity.
Qed.

Lemma own_separate (w : world R) i p m : sound w -> shows w i = Some p -> own_array m p ->
  separate [length (w_pds w)] (do_step w (SDerive i m)).
Proof.
  intros So Sh O a b x y [<-|[]] B E1 E2. cbn [do_step] in E1, E2. unfold shows in Sh.
  destruct (nth_error (w_pds w) i) as [[z|]|] eqn:Ei; try discriminate. injection Sh as <-.
  destruct (apply m (look (w_heap w) z)) as [q|e] eqn:Ap.
  2: { rewrite (derive_raises _ _ _ _ Ap) in E1. cbn in E1. rewrite nth_error_app2, Nat.sub_diag in E1 by lia. discriminate. }
  destruct (derive_shows _ _ _ _ Ap) as (h' & z' & D & _ & _ & _ & _ & Cs). rewrite D in E1, E2. cbn in E1, E2.
  rewrite nth_error_app2, Nat.sub_diag in E1 by lia. cbn in E1. injection E1 as <-.
  apply nth_snoc in E2 as [[L E2]|[-> E2]]; [|exfalso; apply B; left; reflexivity].
  destruct Cs as [(_ & _ & C)|(-> & _)]; [pose proof (own_view _ _ _ _ _ O Ap C); discriminate|]. specialize (So b y E2). lia.
Qed.

Lemma own_outside (w : world R) i p m l : sound w -> shows w i = Some p -> own_array m p ->
  let k := length (w_pds w) in let w' := do_step w (SDerive i m) in
  outside [k] (S k) l -> shows (run w' l) k = shows w' k.
Proof.
  intros So Si O k w' U. destruct (derive_step w i m [] So) as (So' & _ & L & _).
  { intros a b x y []. } { intros j []. }
  apply (run_outside l w' [k]); auto.
  - apply own_separate with (p := p); auto.
  - intros j [<-|[]]. unfold w', k. rewrite L. lia.
  - unfold w'. rewrite L. exact U.
  - left. reflexivity.
Qed.

Lemma own_inside (w : world R) i p m l : sound w -> shows w i = Some p -> own_array m p ->
  let k := length (w_pds w) in let w' := do_step w (SDerive i m) in
  inside [k] (S k) l -> forall j, j < k -> shows (run w' l) j = shows w j.
Proof.
  intros So Si O k w' U j J. destruct (derive_step w i m [] So) as (So' & _ & L & St).
  { intros a b x y []. } { intros a []. }
  rewrite <- (St j J). apply (run_inside l w' [k]); auto.
  - apply own_separate with (p := p); auto.
  - intros a [<-|[]]. unfold w', k. rewrite L. lia.
  - unfold w'. rewrite L. exact U.
  - unfold w'. rewrite L. unfold k in J. lia.
  - intros [C|[]]. lia.
Qed.

Lemma within_range sh idx : within sh idx = true <-> in_range sh idx.
Proof.
  unfold within, in_range. revert idx. induction sh as [|n sh IH]; intros [|i idx]; cbn; split; intros H; try discriminate; try constructor;
    try (inversion H; fail).
  - rewrite andb_true_iff in H. destruct H as [L H]. rewrite andb_true_iff in H. apply Nat.ltb_lt. tauto.
  - apply IH. rewrite andb_true_iff in *. rewrite andb_true_iff in H. tauto.
  - inversion H as [|? ? ? ? A B]; subst. apply IH in B. rewrite andb_true_iff in *. rewrite andb_true_iff. apply Nat.ltb_lt in A. tauto.
Qed.

(** Writing into a view writes into what it is a view of. *)
Lemma view_written (w : world R) i p m q t u : sound w -> shows w i = Some p -> apply m p = Ok q ->
  p_prob p = Some t -> p_prob q = Some u -> shape u <> [] ->
  (forall pl : tensor (list nat), shape pl = shape t -> exists pl', view m p pl = Ok (Some pl')) ->
  forall (P : list nat -> list nat -> Prop),
  (forall pl pl', shape pl = shape t -> view m p pl = Ok (Some pl') -> forall idx, in_range (shape u) idx ->
     exists idx', P idx idx' /\ get pl' idx = get pl idx') ->
  let k := length (w_pds w) in let w' := do_step w (SDerive i m) in
  forall idx v, in_range (shape u) idx ->
  exists idx' t', P idx idx' /\ get u idx = get t idx' /\
    shows (do_step w' (SWrite k idx v)) i = Some (with_prob p t') /\ get t' idx' = v.
Proof.
  intros So Sh Ap Pt Pu NE Vw P HP k w' idx v IR.
  unfold shows in Sh. destruct (nth_error (w_pds w) i) as [[x|]|] eqn:Ei; try discriminate. injection Sh as <-.
  assert (Bx := So i x Ei).
  destruct (derive_shows _ _ _ _ Ap) as (h' & y & D & Ly & _ & _ & _ & Cs).
  assert (Et : t = read (w_heap w) (h_arr x)) by (cbn in Pt; congruence).
  assert (Shp : shape (a_place (h_arr x)) = shape t) by (rewrite Et; reflexivity).
  destruct (Vw (a_place (h_arr x)) Shp) as (pl' & V). rewrite V in Cs.
  destruct Cs as [(B & -> & C)|(_ & C)]; [|discriminate]. injection C as ->.
  assert (Eu : u = read (w_heap w) (h_arr y)).
  { rewrite <- Ly in Pu. cbn in Pu. congruence. }
  destruct (HP _ _ Shp V idx IR) as (idx' & HI & G).
  assert (W : w' = mkWorld (w_heap w) (w_pds w ++ [Some y])) by (unfold w'; cbn [do_step]; rewrite Ei, D; reflexivity).
  assert (Li : i < length (w_pds w)) by (apply nth_error_Some; congruence).
  exists idx', (read (fst (write (w_heap w) (h_arr y) idx v)) (h_arr x)).
  split; [exact HI|]. split.
  { rewrite Eu, Et. unfold read. cbn [get tmap]. rewrite B, G. reflexivity. }
  split.
  { rewrite W. cbn [do_step w_pds w_heap]. unfold k. rewrite nth_error_app2, Nat.sub_diag by lia. cbn [nth_error].
    unfold shows. cbn [w_pds w_heap]. rewrite nth_error_app1 by auto. rewrite Ei. reflexivity. }
  assert (Sy : shape (a_place (h_arr y)) = shape u) by (rewrite Eu; reflexivity).
  unfold write. rewrite Sy. destruct (shape u) as [|n sh] eqn:Su; [congruence|].
  rewrite (proj2 (within_range _ _) IR). cbn [fst]. unfold read, buffer. rewrite B.
  rewrite nth_set_nth_eq by exact Bx. cbn [tmap get]. rewrite G.
  unfold idx_eqb. rewrite (proj2 (list_eqb_nat _ _) eq_refl). reflexivity.
Qed.

Lemma rekeyed_written (w : world R) i p m q t : sound w -> shows w i = Some p -> pd_rekey p m = Ok q ->
  p_prob p = Some t -> shape t <> [] ->
  forall idx v, in_range (shape t) idx ->
  exists t', shows (do_step (do_step w (SDerive i (Rekey m))) (SWrite (length (w_pds w)) idx v)) i = Some (with_prob p t') /\ get t' idx = v.
Proof.
  intros So Sh Ap Pt NE idx v IR.
  assert (Pq : p_prob q = Some t).
  { unfold pd_rekey in Ap. bd Ap d E. bd Ap mg E1. bd Ap cd E2. apply made_prob in Ap. congruence. }
  destruct (view_written w i p (Rekey m) q t t So Sh Ap Pt Pq NE) with (P := fun a b : list nat => b = a) (idx := idx) (v := v)
    as (idx' & t' & -> & _ & H1 & H2); auto.
  - intros pl _. exists pl. reflexivity.
  - intros pl pl' _ H. cbn in H. injection H as <-. eauto.
  - eauto.
Qed.

Lemma step_keeps (w : world R) st j (x : option (held R)) : nth_error (w_pds w) j = Some x -> nth_error (w_pds (do_step w st)) j = Some x.
Proof.
  intros H. assert (L : j < length (w_pds w)) by (apply nth_error_Some; congruence).
  destruct st as [i m|i idx v]; cbn [do_step].
  - destruct (nth_error (w_pds w) i) as [[y|]|]; [destruct (derive (w_heap w) y m) as [[h z]|]| |];
      cbn [w_pds]; rewrite nth_error_app1 by exact L; exact H.
  - destruct (nth_error (w_pds w) i) as [[y|]|]; exact H.
Qed.

Lemma run_keeps l : forall (w : world R) j x, nth_error (w_pds w) j = Some x -> nth_error (w_pds (run w l)) j = Some x.
Proof. induction l as [|st l IH]; intros w j x H; [exact H|]. apply IH. apply step_keeps. exact H. Qed.

(** The original and the renamed distribution hold the same probabilities for ever. *)
Lemma rekeyed_together (w : world R) i p m q : sound w -> shows w i = Some p -> pd_rekey p m = Ok q ->
  let k := length (w_pds w) in let w' := do_step w (SDerive i (Rekey m)) in
  forall l, exists t, shows (run w' l) i = Some (with_prob p t) /\ shows (run w' l) k = Some (with_prob q t).
Proof.
  intros So Sh Ap k w' l. unfold shows in Sh. destruct (nth_error (w_pds w) i) as [[x|]|] eqn:Ei; try discriminate. injection Sh as <-.
  destruct (derive_shows _ _ (Rekey m) _ Ap) as (h' & y & D & Ly & _ & _ & _ & Cs).
  destruct Cs as [(B & -> & C)|(_ & C)]; [|discriminate]. cbn [view] in C. injection C as C.
  assert (W : w' = mkWorld (w_heap w) (w_pds w ++ [Some y])) by (unfold w'; cbn [do_step]; rewrite Ei, D; reflexivity).
  assert (Li : i < length (w_pds w)) by (apply nth_error_Some; congruence).
  assert (A : h_arr y = h_arr x) by (destruct (h_arr y), (h_arr x); cbn in *; congruence).
  exists (read (w_heap (run w' l)) (h_arr x)). unfold shows.
  rewrite (run_keeps l w' i (Some x)), (run_keeps l w' k (Some y)).
  - split; [reflexivity|]. unfold look. rewrite A, <- Ly. reflexivity.
  - rewrite W. cbn [w_pds]. unfold k. rewrite nth_error_app2, Nat.sub_diag by lia. reflexivity.
  - rewrite W. cbn [w_pds]. rewrite nth_error_app1 by exact Li. exact Ei.
Qed.

Lemma sorted_written (w : world R) i p key ix q t : sound w -> shows w i = Some p -> od_get (p_dims p) key = Some None ->
  sorted p key ix = Ok q -> p_prob p = Some t -> shape t <> [] ->
  forall idx v, in_range (shape t) idx ->
  exists t', shows (do_step (do_step w (SDerive i (Sorted key ix))) (SWrite (length (w_pds w)) idx v)) i = Some (with_prob p t') /\ get t' idx = v.
Proof.
  intros So Sh Dk Ap Pt NE idx v IR.
  assert (Od : od_getR (p_dims p) key = Ok None) by (unfold od_getR; rewrite Dk; reflexivity).
  assert (Pq : p_prob q = Some t).
  { unfold sorted in Ap. rewrite Od in Ap. cbn in Ap. apply made_prob in Ap. congruence. }
  destruct (view_written w i p (Sorted key ix) q t t So Sh Ap Pt Pq NE) with (P := fun a b : list nat => b = a) (idx := idx) (v := v)
    as (idx' & t' & -> & _ & H1 & H2); auto.
  - intros pl _. exists pl. cbn. rewrite Od. reflexivity.
  - intros pl pl' _ H. cbn in H. rewrite Od in H. cbn in H. injection H as <-. eauto.
  - eauto.
Qed.

Lemma no_repeats (a : tensor R) x :
  (forall i j, nth_error (to_list a) i = Some x -> nth_error (to_list a) j = Some x -> i = j) -> length (matches a x) <= 1.
Proof.
  intros H. unfold matches.
  assert (ND : NoDup (filter (fun k => n_eqb (nth k (to_list a) n0) x) (seq 0 (tsize a)))) by (apply NoDup_filter, seq_NoDup).
  assert (A : forall k, In k (filter (fun k => n_eqb (nth k (to_list a) n0) x) (seq 0 (tsize a))) -> nth_error (to_list a) k = Some x).
  { intros k I. apply filter_In in I as [I E]. apply in_seq in I. apply Reqb_iff in E.
    rewrite (nth_error_nth' (to_list a) n0); [cbn in E; cbn; congruence|]. rewrite to_list_length. lia. }
  destruct (filter _ _) as [|k [|k' l]]; cbn; try lia. exfalso.
  inversion ND as [|? ? N _]. apply N. left. apply (H k' k); apply A; cbn; auto.
Qed.

Lemma set_nth_plain n x l : is_arr x = false -> existsb is_arr l = false -> existsb is_arr (set_nth n x l) = false.
Proof.
  revert n. induction l as [|y l IH]; intros [|n] X H; cbn in *; auto; apply orb_false_iff in H as [H1 H2].
  - rewrite X. exact H2.
  - rewrite H1. cbn. auto.
Qed.

Lemma call_plain (p : pd R) values st :
  (forall k a x i j, In (k, VArr a) (p_vals p) -> od_get values k = Some x ->
     nth_error (to_list a) i = Some x -> nth_error (to_list a) j = Some x -> i = j) ->
  fold_res (call_step p values false) (p_items p)
    (mkKS (p_marg p) (p_cond p) (p_dims p) (p_vals p) (repeat IxFull (p_ndim p)) 0%Z) = Ok st ->
  existsb is_arr (k_slices st) = false.
Proof.
  intros H. apply (fold_res_inv _ (fun _ st => existsb is_arr (k_slices st) = false)).
  - cbn. induction (p_ndim p); cbn; auto.
  - intros pre [[k v] sg] post s1 s2 E I S. unfold call_step in S. destruct sg; [injection S as <-; exact I|].
    bd S dim D. destruct dim as [dz|]; [|discriminate]. destruct (od_get values k) as [x|] eqn:V; [|injection S as <-; exact I].
    destruct v as [ | |a| | ]; try discriminate. bd S n Nn.
    assert (L : length (matches a x) <= 1).
    { apply no_repeats. intros i j. apply (H k a x i j); auto. unfold p_items in E.
      apply (in_combine_l (p_vals p) (d_aresing (p_d p)) (k, VArr a) false). rewrite E. apply in_or_app. right. left. reflexivity. }
    destruct (matches a x) as [|m [|m' l]]; [| |cbn in L; lia].
    + injection S as <-. destruct (od_mem _ k); [|destruct (od_mem _ k)]; cbn; apply set_nth_plain; auto.
    + injection S as <-. destruct (od_mem _ k); [|destruct (od_mem _ k)]; cbn; apply set_nth_plain; auto.
Qed.

Lemma called_written (w : world R) i p values q t u : sound w -> shows w i = Some p -> call p values false = Ok q ->
  (forall k a x i j, In (k, VArr a) (p_vals p) -> od_get values k = Some x ->
     nth_error (to_list a) i = Some x -> nth_error (to_list a) j = Some x -> i = j) ->
  p_prob p = Some t -> p_prob q = Some u -> shape u <> [] ->
  forall idx v, in_range (shape u) idx ->
  exists idx' t', get u idx = get t idx' /\ shows (do_step (do_step w (SDerive i (Call values false))) (SWrite (length (w_pds w)) idx v)) i = Some (with_prob p t') /\ get t' idx' = v.
Proof.
  intros So Sh Ap H Pt Pu NE idx v IR.
  assert (X : exists st, fold_res (call_step p values false) (p_items p)
       (mkKS (p_marg p) (p_cond p) (p_dims p) (p_vals p) (repeat IxFull (p_ndim p)) 0%Z) = Ok st /\ shape u = basic_shape (k_slices st) (shape t) /\ existsb is_arr (k_slices st) = false).
  { pose proof Ap as A. unfold call in A. destruct (negb _); [discriminate|]. bd A st E. exists st. split; [exact E|].
    pose proof (call_plain p values st H E) as B. split; [|exact B].
    bd A p0 E1. bd A p1 E2. apply made_prob in A. unfold p_probR in E1. rewrite Pt in E1. injection E1 as <-.
    unfold np_index in E2. rewrite B in E2. injection E2 as <-. rewrite Pu in A. injection A as ->. reflexivity. }
  destruct X as (st & E & Su & B).
  assert (V : forall pl : tensor (list nat), shape pl = shape t ->
     view (Call values false) p pl = Ok (Some (mkT (basic_shape (k_slices st) (shape pl)) (fun idx => get pl (basic_idx (k_slices st) idx))))).
  { intros pl Sp. cbn [view]. unfold call_view. rewrite E. cbn [bind]. rewrite B. unfold np_index. rewrite B. cbn [bind shape].
    rewrite Sp, <- Su. destruct (shape u); [congruence|reflexivity]. }
  destruct (view_written w i p (Call values false) q t u So Sh Ap Pt Pu NE) with (P := fun _ _ : list nat => True) (idx := idx) (v := v)
    as (idx' & t' & _ & G & H1 & H2); auto.
  - intros pl Sp. eexists. exact (V pl Sp).
  - intros pl pl' Sp H0 j _. rewrite (V pl Sp) in H0. injection H0 as <-. eexists. split; [exact I|reflexivity].
  - eauto.
Qed.

Lemma cond_plain (p : pd R) keys st :
  (forall k v, In (k, v, true) (combine (p_vals p) (d_aresing (p_d p))) -> ~ In k keys) ->
  fold_res (cond_step p keys) (p_items p) (mkCS (p_marg p) (p_cond p) [] 0%Z false) = Ok st -> c_norm st = false.
Proof.
  intros H. apply (fold_res_inv _ (fun _ st => c_norm st = false)); [reflexivity|].
  intros pre [[k v] sg] post s1 s2 E I S. unfold cond_step in S. bd S mc M. destruct mc as [m c]. destruct sg.
  - injection S as <-. cbn. rewrite I. cbn. destruct (mem_str k keys) eqn:K; [|reflexivity]. exfalso.
    apply (H k v); [unfold p_items in E; rewrite E; apply in_or_app; right; left; reflexivity|]. apply mem_str_iff. exact K.
  - bd S dim D. destruct dim as [d|]; [|discriminate]. destruct (od_mem _ k); [destruct (mem_str k keys)|]; injection S as <-; exact I.
Qed.

Lemma axes_plain (p : pd R) keys dims o n s :
  (forall k, In k (od_keys (p_marg p)) -> In k keys \/ od_get (p_dims p) k = Some None) -> cond_axes p keys dims = Ok (o, n, s) -> s = [].
Proof.
  intros H E. unfold cond_axes in E.
  apply (fold_res_inv _ (fun _ (acc : list Z * list Z * list Z) => snd acc = [])) in E; [exact E|reflexivity|].
  intros pre k post [[a b] c] [[a' b'] c'] _ I S. cbn in I. subst c. bd S od0 D. destruct od0 as [z|]; [|injection S as <- <- <-; reflexivity].
  destruct (Zmem z a); [injection S as <- <- <-; reflexivity|]. bd S nd D1. destruct nd as [z'|]; [|discriminate].
  injection S as <- <- <-. cbn. destruct (mem_str k keys) eqn:K; [reflexivity|]. cbn. destruct (od_mem (p_marg p) k) eqn:M; [|reflexivity].
  exfalso. apply od_mem_iff in M. apply H in M as [M|M]; [apply mem_str_iff in M; congruence|]. unfold od_getR in D. rewrite M in D. discriminate.
Qed.

Lemma moved_written (w : world R) i p keys q t u : sound w -> shows w i = Some p -> conditionalise p keys = Ok q ->
  p_pscale p = Lin 1%R -> (forall k, In k (od_keys (p_marg p)) -> In k keys \/ od_get (p_dims p) k = Some None) ->
  (forall k v, In (k, v, true) (combine (p_vals p) (d_aresing (p_d p))) -> ~ In k keys) ->
  p_prob p = Some t -> p_prob q = Some u -> shape u <> [] ->
  forall idx v, in_range (shape u) idx ->
  exists idx' t', get u idx = get t idx' /\ shows (do_step (do_step w (SDerive i (Conditionalise keys))) (SWrite (length (w_pds w)) idx v)) i = Some (with_prob p t') /\ get t' idx' = v.
Proof.
  intros So Sh Ap Sc HM HS Pt Pu NE idx v IR.
  assert (X : exists st dims od nd, fold_res (cond_step p keys) (p_items p) (mkCS (p_marg p) (p_cond p) [] 0%Z false) = Ok st /\ append_key_dims p keys (fst (lower_dims (c_dims st))) (snd (lower_dims (c_dims st))) = Ok dims /\ cond_axes p keys dims = Ok (od, nd, []) /\ c_norm st = false /\ exists p1, moveaxis t od nd = Ok p1).
  { pose proof Ap as H. unfold conditionalise in H. bd H uu E. bd H st E1. destruct (lower_dims (c_dims st)) as [d1 dm] eqn:Ld.
    bd H dims E2. bd H dv E3. bd H ax E4. destruct ax as [[od nd] sa]. pose proof (axes_plain p keys dims od nd sa HM E4) as ->.
    bd H p0 E5. bd H p1 E6. unfold p_probR in E5. rewrite Pt in E5. injection E5 as <-.
    exists st, dims, od, nd. split; [exact E1|]. rewrite Ld. split; [exact E2|]. split; [exact E4|].
    split; [exact (cond_plain p keys st HS E1)|]. eauto. }
  destruct X as (st & dims & od & nd & E1 & E2 & E4 & Nm & p1 & Mv).
  assert (V : forall pl : tensor (list nat), view (Conditionalise keys) p pl = let! q := moveaxis pl od nd in Ok (Some q)).
  { intros pl. cbn [view]. unfold cond_view. rewrite E1. cbn [bind]. destruct (lower_dims (c_dims st)) as [d1 dm]. cbn in E2. rewrite E2. cbn [bind].
    rewrite E4. cbn [bind]. rewrite Nm, Sc. replace (n_eqb 1%R n1) with true; [reflexivity|]. symmetry. apply Reqb_iff. reflexivity. }
  destruct (view_written w i p (Conditionalise keys) q t u So Sh Ap Pt Pu NE) with (P := fun _ _ : list nat => True) (idx := idx) (v := v)
    as (idx' & t' & _ & G & H1 & H2); auto.
  - intros pl Sp. rewrite V. unfold moveaxis in *. unfold ndim in *. rewrite Sp. bd Mv s F1. bd Mv d F2. rewrite F1, F2. cbn [bind].
    destruct (_ =? _) in *; [|discriminate]. eexists. reflexivity.
  - intros pl pl' Sp H0 j _. rewrite V in H0. bd H0 z Z. injection H0 as <-. unfold moveaxis in Z. bd Z s F1. bd Z d F2.
    destruct (_ =? _) in Z; [|discriminate]. injection Z as <-. unfold transpose. cbn [get]. eexists. split; [exact I|reflexivity].
  - eauto.
Qed.

Lemma in_combine_flags (d : odict (value R)) k v :
  In (k, v, true) (combine d (map (fun kv => issingleton (snd kv)) d)) -> In (k, v) d /\ issingleton v = true.
Proof.
  induction d as [|[k0 v0] d IH]; cbn; [intros []|]. intros [E|H]; [|destruct (IH H); auto]. injection E as <- <- E. auto.
Qed.

Lemma conditionalised_written (w : world R) i p L keys q t u : sound w -> shows w i = Some p -> valid_pd p L ->
  p_pscale p = Lin 1%R -> incl keys L -> rest p L keys = [] -> conditionalise p keys = Ok q ->
  p_prob p = Some t -> p_prob q = Some u -> shape u <> [] ->
  forall idx v, in_range (shape u) idx ->
  exists idx' t', get u idx = get t idx' /\
    shows (do_step (do_step w (SDerive i (Conditionalise keys))) (SWrite (length (w_pds w)) idx v)) i = Some (with_prob p t') /\ get t' idx' = v.
Proof.
  intros So Sh Va Sc IL Re Ap Pt Pu NE. apply moved_written with (q := q); auto.
  - intros k K. destruct (in_dec string_dec k L) as [I|I].
    + destruct (in_dec string_dec k keys) as [J|J]; [auto|]. exfalso.
      assert (In k (rest p L keys)) as C; [|rewrite Re in C; destruct C].
      unfold rest, marg_columns, without, restrict. apply filter_In. split; [apply filter_In; split; [exact I|apply mem_str_iff; exact K]|].
      apply negb_true_iff. apply mem_str_false. exact J.
    + right. assert (KL : In k (p_keylist p)) by (apply (Permutation_in _ (vp_names p L Va)); apply in_or_app; auto).
      destruct (od_get (p_vals p) k) as [v|] eqn:G; [exact (proj2 (vp_scalar p L Va k v G I))|]. exfalso.
      apply od_get_none in G. exact (G KL).
  - intros k v H C. rewrite (vp_aresing p L Va) in H. apply in_combine_flags in H as [H1 H2].
    apply IL in C. apply In_nth_error in C as (j & J). destruct (vp_column p L Va j k J) as (a & n & G & N0 & Sa & _).
    assert (v = VArr a) as ->. { assert (X := vp_keys p L Va). pose proof (od_in_get (p_vals p) k v X H1) as Y. congruence. }
    unfold issingleton in H2. cbn in H2. rewrite Sa in H2. destruct j; discriminate.
Qed.

Lemma sliced_written (w : world R) i p L values at_ q t u : sound w -> shows w i = Some p -> valid_pd p L -> locates p values at_ ->
  call p values false = Ok q -> p_prob p = Some t -> p_prob q = Some u -> shape u <> [] ->
  forall idx v, in_range (shape u) idx ->
  exists idx' t', get u idx = get t idx' /\
    shows (do_step (do_step w (SDerive i (Call values false))) (SWrite (length (w_pds w)) idx v)) i = Some (with_prob p t') /\ get t' idx' = v.
Proof.
  intros So Sh Va Lo Ap. apply called_written; auto. intros k a x m n I G M N.
  pose proof (od_in_get (p_vals p) k (VArr a) (vp_keys p L Va) I) as Gk.
  assert (Lm : m < tsize a) by (rewrite <- to_list_length; apply nth_error_Some; congruence).
  assert (Ln : n < tsize a) by (rewrite <- to_list_length; apply nth_error_Some; congruence).
  destruct (shape a) as [|d sh] eqn:Sa.
  - unfold tsize in Lm, Ln. rewrite Sa in Lm, Ln. cbn in Lm, Ln. lia.
  - assert (W : variable p k = Some (Col (to_list a))).
    { unfold variable. rewrite Gk. unfold var_of, issingleton. cbn [isunitset isscalar orb]. rewrite Sa. reflexivity. }
    destruct (Lo k x (to_list a) G W) as (_ & _ & H).
    apply (nth_error_nth _ _ 0%R) in M as M'. apply (nth_error_nth _ _ 0%R) in N as N'. rewrite to_list_length in H.
    rewrite (H m Lm M'), (H n Ln N'). reflexivity.
Qed.

End S.
