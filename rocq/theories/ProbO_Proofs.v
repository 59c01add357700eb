(** Proofs about probability objects. *)
From Coq Require Import String ZArith Bool Arith Lia List.
From Verif Require Import Base OdLemmas Num PScales RVModel SymModel Sym_Spec Sym_More ProbModel ProbO_Spec.
Import ListNotations.
Set Implicit Arguments.
Local Open Scope string_scope.
Local Open Scope list_scope.

Section P.
Context {T : Type} {N : Num T} {E A V : Type} (repr : E -> string) (log_of : E -> E) (ev : E -> A -> result V).
Notation pobj := (pobj T E A V).
Notation change := (@change T N E A V repr log_of).
Notation history := (@history T N E A V repr log_of).
Implicit Types (p : pobj) (h : list (pcall T E A V)) (d : sdist A V) (r : rsym E) (g : given E A V).

Lemma history_cons p c h : history p (c :: h) = history (fst (change p c)) h.
Proof. reflexivity. Qed.

Lemma kept {B} (f : pobj -> B) (bad : pcall T E A V -> Prop) :
  (forall p c, ~ bad c -> f (fst (change p c)) = f p) ->
  forall h p, (forall c, In c h -> ~ bad c) -> f (history p h) = f p.
Proof.
  intros K. induction h as [|c h IH]; intros p Hb; [reflexivity|]. rewrite history_cons, IH by (intros x I; apply Hb; right; exact I).
  apply K. apply Hb. left. reflexivity.
Qed.

(** ** Tables *)
Lemma okey_iff a b : okey_eqb a b = true <-> a = b.
Proof. destruct a, b; cbn; try (split; congruence). rewrite String.eqb_eq. split; congruence. Qed.

Lemma lookup_map (d : sdist A V) m l : lookup (map (fun m => (Some m, @EMeth E A V d m)) l) (Some m) = if in_dec string_dec m l then Some (EMeth d m) else None.
Proof.
  induction l as [|x l IH]; [reflexivity|]. cbn [map lookup okey_eqb]. rewrite IH. destruct (String.eqb m x) eqn:Q.
  - apply String.eqb_eq in Q. subst. destruct (in_dec string_dec x (x :: l)) as [_|n]; [reflexivity|]. exfalso. apply n. left. reflexivity.
  - apply String.eqb_neq in Q. destruct (in_dec string_dec m l) as [i|n], (in_dec string_dec m (x :: l)) as [i'|n']; try reflexivity; exfalso.
    + apply n'. right. exact i.
    + destruct i' as [->|i']; [apply Q; reflexivity|contradiction].
Qed.
Lemma lookup_app (t u : table E A V) k : lookup (t ++ u) k = match lookup t k with Some e => Some e | None => lookup u k end.
Proof. induction t as [|[k' e] t IH]; cbn; [reflexivity|]. destruct (okey_eqb k k'); auto. Qed.
Lemma lookup_put (t : table E A V) k k' e : lookup (put t k e) k' = if okey_eqb k' k then Some e else lookup t k'.
Proof.
  induction t as [|[k0 e0] t IH]; cbn; [destruct (okey_eqb k' k); reflexivity|].
  destruct (okey_eqb k k0) eqn:Q; cbn.
  - apply okey_iff in Q. subst k0. destruct (okey_eqb k' k); reflexivity.
  - rewrite IH. destruct (okey_eqb k' k0) eqn:R, (okey_eqb k' k) eqn:S; try reflexivity. exfalso.
    apply okey_iff in R. apply okey_iff in S. assert (X : k = k0) by congruence. apply okey_iff in X. congruence.
Qed.
Lemma in_keys (t : table E A V) k : In k (map fst t) <-> exists e, lookup t k = Some e.
Proof.
  induction t as [|[k' e'] t IH]; cbn; [split; [tauto|intros [e Q]; discriminate]|]. destruct (okey_eqb k k') eqn:Q.
  - apply okey_iff in Q. subst. split; eauto.
  - rewrite <- IH. split; [intros [R|R]; [|exact R]|auto]. subst. assert (X : k = k) by reflexivity. apply okey_iff in X. congruence.
Qed.

Lemma lookup_filter (d : sdist A V) m l :
  lookup (map (fun m => (Some m, @EMeth E A V d m)) (filter (fun m => mem_str m (sc_methods d)) l)) (Some m) =
  if in_dec string_dec m l then if in_dec string_dec m (sc_methods d) then Some (EMeth d m) else None else None.
Proof.
  rewrite lookup_map. destruct (in_dec string_dec m (filter _ l)) as [i|i]; rewrite filter_In, mem_str_iff in i;
    destruct (in_dec string_dec m l), (in_dec string_dec m (sc_methods d)); reflexivity || (exfalso; tauto).
Qed.
Notation ms := methods_of.
Definition known (m : string) : bool := if in_dec string_dec m scipy_methods then true else false.
Lemma ms_known d m : lookup (map (fun m => (Some m, @EMeth E A V d m)) (ms d)) (Some m) =
  if known m then if in_dec string_dec m (sc_methods d) then Some (EMeth d m) else None else None.
Proof. unfold methods_of, known. generalize scipy_methods. intros l. rewrite lookup_filter. destruct (in_dec string_dec m l); reflexivity. Qed.
Opaque methods_of.
Lemma ms_lookup d m : known m = true ->
  lookup (map (fun m => (Some m, @EMeth E A V d m)) (ms d)) (Some m) = if in_dec string_dec m (sc_methods d) then Some (EMeth d m) else None.
Proof. intros I. rewrite ms_known, I. reflexivity. Qed.
Lemma not_ms d m : known m = false -> lookup (map (fun m => (Some m, @EMeth E A V d m)) (ms d)) (Some m) = None.
Proof. intros I. rewrite ms_known, I. reflexivity. Qed.

Ltac inm := reflexivity.

Lemma scipy_full d : full d -> scipy_partials (E := E) d =
  (map (fun m => (Some m, EMeth d m)) (ms d) ++ [(Some "prob", EMeth d (method d false)); (Some "logp", EMeth d (method d true))], None).
Proof.
  intros F. unfold scipy_partials, has. unfold method.
  rewrite (@ms_lookup d "pdf"), (@ms_lookup d "logpdf"), (@ms_lookup d "pmf"), (@ms_lookup d "logpmf") by inm.
  destruct F as [[F1 F2]|[F1 [F2 F3]]].
  - destruct (in_dec string_dec "pdf" (sc_methods d)); [|contradiction]. destruct (in_dec string_dec "logpdf" (sc_methods d)); [|contradiction]. reflexivity.
  - destruct (in_dec string_dec "pdf" (sc_methods d)); [contradiction|]. destruct (in_dec string_dec "pmf" (sc_methods d)); [|contradiction].
    destruct (in_dec string_dec "logpmf" (sc_methods d)); [|contradiction]. reflexivity.
Qed.

Lemma scipy_none d (log : bool) : ~ full d -> (exists t e, scipy_partials (E := E) d = (t, Some e)) \/
  (exists t, scipy_partials (E := E) d = (t, None) /\ lookup t (Some (if log then "logp" else "prob" : string)) = None).
Proof.
  intros F. unfold scipy_partials, has. unfold full in F.
  rewrite (@ms_lookup d "pdf"), (@ms_lookup d "logpdf"), (@ms_lookup d "pmf"), (@ms_lookup d "logpmf") by inm.
  destruct (in_dec string_dec "pdf" (sc_methods d)).
  - destruct (in_dec string_dec "logpdf" (sc_methods d)); [exfalso; tauto|]. left. eauto.
  - destruct (in_dec string_dec "pmf" (sc_methods d)).
    + destruct (in_dec string_dec "logpmf" (sc_methods d)); [exfalso; tauto|]. left. eauto.
    + right. eexists. split; [reflexivity|]. apply not_ms. destruct log; reflexivity.
Qed.

Definition full_table (d : sdist A V) : table E A V :=
  map (fun m => (Some m, EMeth d m)) (ms d) ++ [(Some "prob", EMeth d (method d false)); (Some "logp", EMeth d (method d true))].
Lemma full_prob d (log : bool) : lookup (full_table d) (Some (if log then "logp" else "prob")) = Some (EMeth d (method d log)).
Proof.
  unfold full_table. rewrite lookup_app. destruct log.
  - rewrite not_ms by reflexivity. reflexivity.
  - rewrite not_ms by reflexivity. reflexivity.
Qed.
Lemma full_method d m : known m = true -> lookup (full_table d) (Some m) = if in_dec string_dec m (sc_methods d) then Some (EMeth d m) else None.
Proof.
  intros I. unfold full_table. rewrite lookup_app, ms_lookup by exact I. destruct (in_dec string_dec m (sc_methods d)); [reflexivity|].
  cbn [lookup okey_eqb]. destruct (String.eqb m "prob") eqn:Q1; [apply String.eqb_eq in Q1; subst; discriminate I|].
  destruct (String.eqb m "logp") eqn:Q2; [apply String.eqb_eq in Q2; subst; discriminate I|reflexivity].
Qed.

(** ** Accepted probabilities *)
Definition scale_of p (q : pspec T) := new_pscale q (spec_of (po_scale p)).
Definition fit_for (g : given E A V) : Prop :=
  match g with GScipy d => full d | GSympy r => usable r | _ => True end.

Definition quant_scipy p d : option (entry E A V * entry E A V) :=
  if in_dec string_dec "cdf" (sc_methods d) then if in_dec string_dec "ppf" (sc_methods d) then Some (EMeth d "cdf", EMeth d "ppf") else po_pfun p else po_pfun p.

Lemma set_scipy p d q s : full d -> scale_of p q = Ok s -> exists sf,
  set_prob repr log_of p (GScipy d) q = (mkPO s KScipy (full_table d) (Some []) (po_distr p) (po_probj p) (quant_scipy p d) sf, None).
Proof.
  intros F Q. unfold set_prob. fold (scale_of p q). rewrite Q. rewrite (scipy_full F). fold (full_table d).
  rewrite full_prob, !full_method by inm. unfold quant_scipy.
  destruct (in_dec string_dec "cdf" (sc_methods d)); destruct (in_dec string_dec "ppf" (sc_methods d));
    destruct (in_dec string_dec "rvs" (sc_methods d)); eexists; reflexivity.
Qed.

Lemma dist_lookup r (log : bool) : rs_pdf r <> None -> exists e, rs_pdf r = Some e /\
  lookup (@dist_exprs E A V repr log_of r) (Some (if log then "logp" else "prob")) = Some (EExpr (if log then log_of e else e)).
Proof. intros P. destruct (rs_pdf r) as [e|] eqn:Q; [|congruence]. exists e. split; [reflexivity|]. unfold dist_exprs. rewrite Q. destruct log; reflexivity. Qed.

Lemma dist_cdf r : lookup (@dist_exprs E A V repr log_of r) (Some "cdf") = match rs_cdf r with Some c => Some (EExpr c) | None => None end.
Proof.
  unfold dist_exprs. rewrite !lookup_app. destruct (rs_pdf r); cbn; (destruct (rs_cdf r); cbn; [reflexivity|reflexivity]).
Qed.
Lemma dist_icdf r : lookup (@dist_exprs E A V repr log_of r) (Some "icdf") =
  match rs_cdf r, rs_solve r with Some _, i :: l => Some (EExpr (shortest repr i l)) | _, _ => None end.
Proof.
  unfold dist_exprs. rewrite !lookup_app. destruct (rs_pdf r); cbn; (destruct (rs_cdf r); cbn; [destruct (rs_solve r); reflexivity|reflexivity]).
Qed.

Definition quant_sympy p r : option (entry E A V * entry E A V) :=
  match rs_cdf r, rs_solve r with Some c, i :: l => Some (EExpr c, EExpr (shortest repr i l)) | _, _ => po_pfun p end.

Lemma set_sympy p r q s : usable r -> scale_of p q = Ok s -> exists o, obj_from_dist (rs_tree r) = Ok o /\
  set_prob repr log_of p (GSympy r) q =
  (mkPO s KSympy (put (dist_exprs repr log_of r) (Some "sfun") (ESamp r true)) (Some (dist_exprs repr log_of r)) (DASym r) (Some o) (quant_sympy p r) (Some (ESamp r false)), None).
Proof.
  intros ((o & O) & F & P) Q. exists o. split; [exact O|]. unfold set_prob. fold (scale_of p q). rewrite Q.
  unfold set_distr. rewrite O. destruct (rs_first r) as [x|]; [|congruence].
  destruct (dist_lookup r (is_log s) P) as (e & Pe & L). rewrite L, dist_cdf, dist_icdf. unfold quant_sympy.
  destruct (rs_cdf r); [destruct (rs_solve r)|]; reflexivity.
Qed.

Lemma accepted_iff p g q : snd (change p (SetProb g q)) = None <-> (exists s, new_pscale q (spec_of (po_scale p)) = Ok s) /\ fit_for g.
Proof.
  cbn [ProbModel.change]. destruct (scale_of p q) as [s|x] eqn:Q.
  2:{ unfold set_prob. fold (scale_of p q). rewrite Q. split; [discriminate|intros [[s Y] _]; unfold scale_of in Q; congruence]. }
  unfold scale_of in Q. split.
  - intros H. split; [exists s; exact Q|]. destruct g as [f|e|d|r]; cbn; auto.
    + assert (D : full d \/ ~ full d).
      { unfold full. destruct (in_dec string_dec "pdf" (sc_methods d)), (in_dec string_dec "logpdf" (sc_methods d)),
          (in_dec string_dec "pmf" (sc_methods d)), (in_dec string_dec "logpmf" (sc_methods d)); tauto. }
      destruct D as [D|D]; [exact D|]. exfalso. unfold set_prob in H. rewrite Q in H.
      destruct (scipy_none (is_log s) D) as [(t & x & X)|(t & X & L)]; rewrite X in H; [discriminate H|]. rewrite L in H. discriminate H.
    + unfold set_prob in H. rewrite Q in H. unfold set_distr in H. unfold usable.
      destruct (obj_from_dist (rs_tree r)) as [o|x] eqn:O; [|discriminate H]. split; [eauto|].
      destruct (rs_first r) as [x|] eqn:F; [|discriminate H]. split; [discriminate|]. intros P. unfold dist_exprs in H. rewrite P in H.
      revert H. destruct (is_log s); destruct (rs_cdf r); [destruct (rs_solve r)| |destruct (rs_solve r)|]; cbn; discriminate.
  - intros [_ F]. destruct g as [f|e|d|r]; [| |destruct (set_scipy p q F Q) as (sf & ->); reflexivity|destruct (set_sympy p q F Q) as (o & _ & ->); reflexivity].
    + unfold set_prob. rewrite Q. reflexivity.
    + unfold set_prob. rewrite Q. reflexivity.
Qed.

(** The table of calls and the kind of probability, after an accepted one. *)
Lemma made p g q : snd (change p (SetProb g q)) = None ->
  let p' := fst (change p (SetProb g q)) in
  forall s a, stands_for log_of ev g (is_log s) a
    (let! e := get (po_partials p') (match po_kind p' with KScipy | KSympy => Some (if is_log (s : pscale T) then "logp" else "prob") | _ => None end) in call ev e a).
Proof.
  intros H p' s a. apply accepted_iff in H as [[sc Q] F]. subst p'. cbn [ProbModel.change]. destruct g as [f|e|d|r]; cbn in F.
  - unfold set_prob. rewrite Q. reflexivity.
  - unfold set_prob. rewrite Q. reflexivity.
  - destruct (set_scipy p q F Q) as (sf & ->). cbn [fst po_partials po_kind]. unfold get. rewrite full_prob. reflexivity.
  - destruct (set_sympy p q F Q) as (o & _ & ->). cbn [fst po_partials po_kind]. unfold get. rewrite lookup_put.
    replace (okey_eqb (Some (if is_log s then "logp" else "prob")) (Some "sfun")) with false by (destruct (is_log s); reflexivity).
    destruct F as (_ & _ & P). destruct (dist_lookup r (is_log s) P) as (e & Pe & ->). exists e. auto.
Qed.

Lemma value p g q h a : snd (change p (SetProb g q)) = None -> (forall c, In c h -> ~ sets_prob c) ->
  let p' := history p (SetProb g q :: h) in stands_for log_of ev g (is_log (po_scale p')) a (eval_prob ev p' a).
Proof.
  intros H Hb p'. pose proof (made p g q H (po_scale p') a) as M. cbn zeta in M.
  assert (K : (po_partials p', po_kind p') = (po_partials (fst (change p (SetProb g q))), po_kind (fst (change p (SetProb g q))))).
  { subst p'. rewrite history_cons. apply (kept (fun p => (po_partials p, po_kind p)) (fun c => sets_prob c)); [|exact Hb].
    clear. intros p c NB. destruct c as [g q|q|d|f]; cbn [ProbModel.change].
    - exfalso. apply NB. exists g, q. reflexivity.
    - unfold set_pscale. destruct (eval_pscale q); reflexivity.
    - unfold set_distr. destruct d as [|i|r]; try reflexivity. destruct (obj_from_dist (rs_tree r)); [destruct (rs_first r)|]; reflexivity.
    - reflexivity. }
  injection K as K1 K2. unfold eval_prob. rewrite K1, K2. exact M.
Qed.

Lemma scale_kept p h : (forall c, In c h -> ~ (sets_prob c \/ sets_scale c)) -> po_scale (history p h) = po_scale p.
Proof.
  apply kept. clear. intros p c NB. destruct c as [g q|q|d|f]; cbn [ProbModel.change].
  - exfalso. apply NB. left. exists g, q. reflexivity.
  - exfalso. apply NB. right. exists q. reflexivity.
  - unfold set_distr. destruct d as [|i|r]; try reflexivity. destruct (obj_from_dist (rs_tree r)); [destruct (rs_first r)|]; reflexivity.
  - reflexivity.
Qed.
Lemma scale_set p q s : eval_pscale q = Ok s -> po_scale (fst (change p (SetPscale q))) = s.
Proof. intros Q. cbn. unfold set_pscale. rewrite Q. reflexivity. Qed.
Lemma scale_given p g q : snd (change p (SetProb g q)) = None ->
  new_pscale q (spec_of (po_scale p)) = Ok (po_scale (fst (change p (SetProb g q)))).
Proof.
  intros H. pose proof H as H'. apply accepted_iff in H' as [[s Q] F]. rewrite Q. f_equal. symmetry. cbn [ProbModel.change].
  destruct g as [f|e|d|r]; [unfold set_prob; rewrite Q; reflexivity|unfold set_prob; rewrite Q; reflexivity| |].
  - destruct (set_scipy p q F Q) as (sf & ->). reflexivity.
  - destruct (set_sympy p q F Q) as (o & _ & ->). reflexivity.
Qed.

(** ** Quantile functions *)
Lemma first_of r i : first_shortest repr (rs_solve r) i -> exists x l, rs_solve r = x :: l /\ i = shortest repr x l.
Proof.
  destruct (rs_solve r) as [|x l] eqn:Q; intros (l1 & l2 & L & F1 & F2); [destruct l1; discriminate|].
  exists x, l. split; [reflexivity|]. destruct (shortest_first repr l x) as (m1 & m2 & M & G1 & G2).
  revert L M F1 F2 G1 G2. generalize (shortest repr x l). intros j. generalize (x :: l). clear. intros l L M F1 F2 G1 G2. subst l.
  rewrite Forall_forall in *. revert m1 M F1 F2 G1 G2. revert l1. induction l1 as [|y l1 IH]; intros [|z m1] M F1 F2 G1 G2; cbn in M; injection M as M1 M2.
  - exact M1.
  - subst z. exfalso. specialize (G1 i (or_introl eq_refl)). assert (I : In j l2) by (rewrite M2; apply in_or_app; right; left; reflexivity). specialize (F2 j I). lia.
  - subst y. exfalso. specialize (F1 j (or_introl eq_refl)). assert (I : In i m2) by (rewrite <- M2; apply in_or_app; right; left; reflexivity). specialize (G2 i I). lia.
  - apply (IH m1); auto; intros w I; [apply F1|apply G1]; right; exact I.
Qed.

Lemma quantiles_after p g q h : snd (change p (SetProb g q)) = None -> (forall c, In c h -> ~ (sets_prob c \/ sets_pfun c)) ->
  (forall f, quantiles repr g f -> po_pfun (history p (SetProb g q :: h)) = Some f) /\
  ((forall f, ~ quantiles repr g f) -> po_pfun (history p (SetProb g q :: h)) = po_pfun p).
Proof.
  clear ev. intros H Hb. rewrite history_cons.
  assert (K : po_pfun (history (fst (change p (SetProb g q))) h) = po_pfun (fst (change p (SetProb g q)))).
  { apply (kept (@po_pfun T E A V) (fun c => sets_prob c \/ sets_pfun c)); [|exact Hb]. clear. intros p c NB.
    destruct c as [g q|q|d|f]; cbn [ProbModel.change].
    - exfalso. apply NB. left. exists g, q. reflexivity.
    - unfold set_pscale. destruct (eval_pscale q); reflexivity.
    - unfold set_distr. destruct d as [|i|r]; try reflexivity. destruct (obj_from_dist (rs_tree r)); [destruct (rs_first r)|]; reflexivity.
    - exfalso. apply NB. right. exists f. reflexivity. }
  rewrite K. clear K Hb. apply accepted_iff in H as [[s Q] F]. cbn [ProbModel.change].
  destruct g as [f|e|d|r]; cbn [quantiles].
  - split; [tauto|]. intros _. unfold set_prob. rewrite Q. reflexivity.
  - split; [tauto|]. intros _. unfold set_prob. rewrite Q. reflexivity.
  - destruct (set_scipy p q F Q) as (sf & ->). cbn [fst po_pfun]. unfold quant_scipy.
    destruct (in_dec string_dec "cdf" (sc_methods d)) as [c|c], (in_dec string_dec "ppf" (sc_methods d)) as [i|i]; (split; [intros f (X & Y & Z); congruence || contradiction|intros X]); try reflexivity.
    exfalso. apply (X _ (conj c (conj i eq_refl))).
  - destruct (set_sympy p q F Q) as (o & _ & ->). cbn [fst po_pfun]. unfold quant_sympy. split.
    + intros f (c & i & C & S & ->). rewrite C. destruct (first_of r S) as (x & l & -> & ->). reflexivity.
    + intros X. destruct (rs_cdf r) as [c|] eqn:C; [|reflexivity]. destruct (rs_solve r) as [|x l] eqn:S; [reflexivity|].
      exfalso. apply (X (EExpr c, EExpr (shortest repr x l))). exists c, (shortest repr x l). split; [reflexivity|]. split; [apply shortest_first|reflexivity].
Qed.

Lemma sampler_after p g q h : snd (change p (SetProb g q)) = None -> (forall c, In c h -> ~ sets_prob c) ->
  (forall f, sampler g f -> po_sfun (history p (SetProb g q :: h)) = Some f) /\
  ((forall f, ~ sampler g f) -> po_sfun (history p (SetProb g q :: h)) = po_sfun p).
Proof.
  clear ev. intros H Hb. rewrite history_cons.
  assert (K : po_sfun (history (fst (change p (SetProb g q))) h) = po_sfun (fst (change p (SetProb g q)))).
  { apply (kept (@po_sfun T E A V) (fun c => sets_prob c)); [|exact Hb]. clear. intros p c NB.
    destruct c as [g q|q|d|f]; cbn [ProbModel.change].
    - exfalso. apply NB. exists g, q. reflexivity.
    - unfold set_pscale. destruct (eval_pscale q); reflexivity.
    - unfold set_distr. destruct d as [|i|r]; try reflexivity. destruct (obj_from_dist (rs_tree r)); [destruct (rs_first r)|]; reflexivity.
    - reflexivity. }
  rewrite K. clear K Hb. apply accepted_iff in H as [[s Q] F]. cbn [ProbModel.change].
  destruct g as [f|e|d|r]; cbn [sampler].
  - split; [tauto|]. intros _. unfold set_prob. rewrite Q. reflexivity.
  - split; [tauto|]. intros _. unfold set_prob. rewrite Q. reflexivity.
  - unfold set_prob. rewrite Q, (scipy_full F). fold (full_table d). rewrite full_prob, !full_method by inm.
    destruct (in_dec string_dec "rvs" (sc_methods d)) as [i|i].
    + split; [intros f [_ ->]; reflexivity|]. intros X. exfalso. apply (X _ (conj i eq_refl)).
    + split; [intros f [X _]; contradiction|]. intros _.
      destruct (in_dec string_dec "cdf" (sc_methods d)); destruct (in_dec string_dec "ppf" (sc_methods d)); reflexivity.
  - destruct (set_sympy p q F Q) as (o & _ & ->). split; [intros f ->; reflexivity|]. intros X. exfalso. apply (X _ eq_refl).
Qed.

Lemma scale_refused p q x : snd (change p (SetPscale q)) = Some x -> eval_pscale q = Err x /\ fst (change p (SetPscale q)) = p.
Proof. cbn. unfold set_pscale. destruct (eval_pscale q); cbn; intros H; [discriminate|]. injection H as ->. auto. Qed.

Lemma containers p : item p PSlice = Err TypeError /\
  forall k, In k [PList; PDict; PSet; PTuple] ->
    item p (k false) = Err AttributeError /\ (is_sympy p = false -> item p (k true) = Err AttributeError).
Proof.
  split; [reflexivity|]. intros k [<-|[<-|[<-|[<-|[]]]]]; cbn; unfold container; rewrite andb_false_r; (split; [reflexivity|intros ->; reflexivity]).
Qed.

(** ** Parts *)
Definition views p := (po_partials p, po_kind p, po_exprs p).
Lemma views_kept p h : (forall c, In c h -> ~ (sets_prob c \/ sets_distr c)) -> views (history p h) = views p.
Proof.
  apply kept. clear. intros p c NB. destruct c as [g q|q|d|f]; cbn [ProbModel.change].
  - exfalso. apply NB. left. exists g, q. reflexivity.
  - unfold set_pscale. destruct (eval_pscale q); reflexivity.
  - exfalso. apply NB. right. exists d. reflexivity.
  - reflexivity.
Qed.

Lemma dist_keys r : map fst (@dist_exprs E A V repr log_of r) = map Some (part_names r).
Proof. unfold dist_exprs, part_names. destruct (rs_pdf r); (destruct (rs_cdf r); [destruct (rs_solve r)|]); reflexivity. Qed.

Lemma sympy_keys p r q h : snd (change p (SetProb (GSympy r) q)) = None -> (forall c, In c h -> ~ (sets_prob c \/ sets_distr c)) ->
  let p' := history p (SetProb (GSympy r) q :: h) in
  item p' (PStr "") = Ok (VKeys (map Some (part_names r))) /\
  (forall s, s <> "" -> ((exists e, item p' (PStr s) = Ok (VExpr e)) <-> In s (part_names r))).
Proof.
  intros H Hb p'. assert (K := views_kept (fst (change p (SetProb (GSympy r) q))) h Hb). apply accepted_iff in H as [[sc Q] F].
  subst p'. rewrite history_cons. cbn [ProbModel.change] in *. destruct (set_sympy p q F Q) as (o & _ & X). rewrite X in *. cbn [fst] in *.
  set (p' := history _ h) in *. injection K as K1 K2 K3. cbn [po_partials po_kind po_exprs] in *. split.
  - cbn. rewrite K3, dist_keys. reflexivity.
  - intros s NS. cbn [item]. apply String.eqb_neq in NS. rewrite NS. unfold is_multi. rewrite K2. cbn [assert_ bind]. unfold get. rewrite K1, lookup_put.
    transitivity (exists e, lookup (@dist_exprs E A V repr log_of r) (Some s) = Some e).
    + cbn [okey_eqb]. destruct (String.eqb s "sfun") eqn:S.
      * apply String.eqb_eq in S. subst s. cbn. split; [|intros _; eauto]. intros _. apply in_keys. rewrite dist_keys. apply in_map.
        unfold part_names. rewrite !in_app_iff. right. right. left. reflexivity.
      * destruct (lookup (dist_exprs repr log_of r) (Some s)) as [e|]; cbn; (split; intros [x Y]; [eauto|eauto]); discriminate Y.
    + rewrite <- in_keys, dist_keys. split; intros I; [|apply in_map; exact I]. apply in_map_iff in I as (y & Y & I). congruence.
Qed.

Lemma scipy_keys p d q h : snd (change p (SetProb (GScipy d) q)) = None -> (forall c, In c h -> ~ (sets_prob c \/ sets_distr c)) ->
  let p' := history p (SetProb (GScipy d) q :: h) in
  item p' (PStr "") = Ok (VKeys []) /\
  (forall log : bool, item p' (PStr (if log then "logp" else "prob")) = Ok (VExpr (EMeth d (method d log)))).
Proof.
  intros H Hb p'. assert (K := views_kept (fst (change p (SetProb (GScipy d) q))) h Hb). apply accepted_iff in H as [[sc Q] F].
  subst p'. rewrite history_cons. cbn [ProbModel.change] in *. destruct (set_scipy p q F Q) as (o & X). rewrite X in *. cbn [fst] in *.
  set (p' := history _ h) in *. injection K as K1 K2 K3. cbn [po_partials po_kind po_exprs] in *. split.
  - cbn. rewrite K3. reflexivity.
  - intros log. cbn [item]. replace (String.eqb (if log then "logp" else "prob") "") with false by (destruct log; reflexivity).
    unfold is_multi. rewrite K2. cbn [assert_ bind]. unfold get. rewrite K1, full_prob. reflexivity.
Qed.

(** ** Assigning distr *)
Lemma distr_shown p (d : darg E) : is_sympy p = true ->
  let p' := fst (change p (SetDistr d)) in
  item p' (PSet true) = Ok (VDistr d) /\
  (snd (change p (SetDistr d)) = None -> forall r, d = DASym r -> rs_pdf r <> None ->
     exists e, rs_pdf r = Some e /\ item p' (PTuple true) = Ok (VExpr (EExpr (if is_log (po_scale p) then log_of e else e)))) /\
  (snd (change p (SetDistr d)) <> None -> exists x, item p' (PTuple true) = Err x) /\
  po_partials p' = po_partials p /\ po_kind p' = po_kind p /\ po_scale p' = po_scale p.
Proof.
  intros S p'. subst p'. cbn [ProbModel.change]. unfold set_distr, item, container, is_sympy in *. destruct d as [|i|r].
  - cbn in *. destruct (po_kind p); try discriminate S. cbn. repeat split; try reflexivity; try congruence.
  - cbn in *. destruct (po_kind p); try discriminate S. cbn. repeat split; try reflexivity; try congruence. eexists; reflexivity.
  - destruct (obj_from_dist (rs_tree r)) as [o|x] eqn:O; [destruct (rs_first r) as [c|] eqn:C|]; cbn -[dist_exprs] in *; destruct (po_kind p); try discriminate S; cbn -[dist_exprs]; repeat split; try reflexivity; try congruence.
    + intros _ r' R P. injection R as <-. destruct (dist_lookup r (is_log (po_scale p)) P) as (e & Pe & L). exists e. split; [exact Pe|]. unfold get. rewrite L. reflexivity.
    + intros _. eexists. reflexivity.
    + intros _. eexists. reflexivity.
Qed.

End P.

(** ** Samples *)
Lemma sfun_size {X} (draw : nat -> X) size dtype :
  let conv x := match dtype with Some f => f x | None => x end in
  match sfun draw size dtype with
  | One x => size = 0%Z /\ x = conv (draw 0)
  | Many l => size <> 0%Z /\ length l = Z.to_nat size /\ (forall i, i < length l -> nth_error l i = Some (conv (draw i)))
  end.
Proof.
  intros conv. unfold sfun. destruct (Z.eqb size 0) eqn:Q; [apply Z.eqb_eq in Q; auto|]. apply Z.eqb_neq in Q. split; [exact Q|].
  rewrite map_length, seq_length. split; [reflexivity|]. intros i L. rewrite nth_error_map, nth_error_nth' with (d := 0) by (rewrite seq_length; exact L).
  rewrite seq_nth by exact L. reflexivity.
Qed.
