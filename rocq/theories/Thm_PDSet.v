(** Property theorems about assignments to the members of a distribution (C238-C241). *)
From Coq Require Import Ascii String ZArith Reals Lra Bool Arith Lia Permutation List.
From Verif Require Import Base Num Tensor RNumLemmas PScales PScales_Spec Names Names_Spec Names_Proofs Distr Distr_Spec PDModel PD_Spec
  PD_Sort_Spec PD_Examples PD_SortEx PD_Marg PDSetModel PDSet_Spec PDSet_Proofs PDSet_Ex.
Import ListNotations.
Local Open Scope R_scope.

(** C238: distributions that are made note how many axes they have, and whether they are
    singletons. *)
Theorem C238_made :
  forall (F : Fmt R) name (vals : odict (value R)) dims n pr ps p,
  NoDup (od_keys vals) -> vals <> [] -> naxes dims n -> make_pd name vals (Some dims) pr ps = Ok p ->
  d_ndim (p_d p) = Some n /\ d_issing (p_d p) = Some (n =? 0)%nat.
Proof. exact @made_flags. Qed.
Print Assumptions C238_made.

(** C238: d.prob = t is accepted exactly if t has the shape of the distribution, and
    changes nothing else. *)
Theorem C238_prob :
  forall (F : Fmt R) (p : pd R) n t, ready p n ->
  exists q e, set_prob p (Some t) = (q, e) /\ p_prob q = Some t /\ p_pscale q = p_pscale p /\ same_space p q /\
    (e = None <-> shape t = p_shape p) /\ (e = None -> ready q n).
Proof. exact @prob_assigned. Qed.
Print Assumptions C238_prob.

(** C238 is false: refused probabilities are kept all the same. *)
Theorem C238_prob_refuted :
  forall (F : Fmt R) (p : pd R) n t, ready p n -> shape t <> p_shape p ->
  exists q, set_prob p (Some t) = (q, Some AssertionError) /\ p_prob q = Some t /\ q <> p /\ ~ laid_out q n.
Proof. exact @prob_refused. Qed.
Print Assumptions C238_prob_refuted.

(** C238: d.prob = None is accepted; nothing can be marginalised afterwards. *)
Theorem C238_removed :
  forall (F : Fmt R) (p : pd R) n, ready p n ->
  exists q, set_prob p None = (q, None) /\ p_prob q = None /\ same_space p q /\
    forall ks r, marginalise q ks <> Ok r.
Proof. exact @prob_removed. Qed.
Print Assumptions C238_removed.

(** C238: after accepted assignments of probabilities and scales, in any number and
    order, the distribution is as consistent as one that was made. *)
Theorem C238_accepted :
  forall (F : Fmt R) (l : list (act R)) (p : pd R) n q es, ready p n -> Forall of_prob l -> acts_do p l = (q, es) ->
  Forall (fun e => e = None) es -> ready q n /\ same_space p q.
Proof. exact @runs_ready. Qed.
Print Assumptions C238_accepted.

(** C238: whatever is assigned, accepted or not, the probabilities are the ones assigned
    last, and values, axes and shape stay. *)
Theorem C238_last :
  forall (l : list (act R)) (p : pd R) q es, acts_do p l = (q, es) ->
  p_prob q = last_prob (p_prob p) l /\ p_shape q = p_shape p /\ p_vals q = p_vals p /\ p_dims q = p_dims p.
Proof. exact @runs_last. Qed.
Print Assumptions C238_last.

Example C238_hypotheses_met : exists p q r es es', srt_make = Ok p /\ @ready fmt_ex p 2 /\
  Forall of_prob [ActScale (PSInt 2); ActProb (Some (mkT [3; 2]%nat (fun _ => 1)))] /\
  acts_do p [ActScale (PSInt 2); ActProb (Some (mkT [3; 2]%nat (fun _ => 1)))] = (q, es) /\ Forall (fun e => e = None) es /\
  acts_do p [ActProb (Some (mkT [2]%nat (fun _ => 1))); ActName "x|u|z"] = (r, es') /\
  es' = [Some AssertionError; Some AssertionError].
Proof.
  destruct ex_ready as (p & E & V & Sh & S & P & _).
  destruct (proj1 (scale_assigned p 2 (PSInt 2) V) I) as (q1 & E1 & V1 & _ & (D1 & _) & _).
  destruct (prob_assigned q1 2 (mkT [3; 2]%nat (fun _ => 1)) V1) as (q2 & e2 & E2 & _ & _ & _ & I2 & _).
  assert (Z : e2 = None). { apply I2. unfold p_shape. rewrite D1. symmetry. exact Sh. }
  destruct (prob_refused p 2 (mkT [2]%nat (fun _ => 1)) V) as (r1 & R1 & _). { rewrite Sh. discriminate. }
  destruct (name_refused r1 "x" "u" "z") as (r2 & R2 & _).
  { intros s [<-|[<-|[<-|[]]]]; unfold occurs; cbn; intuition discriminate. }
  exists p, q2, r2, [None; e2], [Some AssertionError; Some AssertionError]. split; [exact E|]. split; [exact V|].
  split; [repeat constructor|]. split; [cbn [acts_do act_do]; rewrite E1, E2; reflexivity|].
  split; [subst e2; repeat constructor|]. split; [|reflexivity]. cbn [acts_do act_do]. rewrite R1.
  change "x|u|z"%string with ("x" ++ "|" ++ "u" ++ "|" ++ "z")%string. rewrite R2. reflexivity.
Qed.

(** C239: d.pscale = s is accepted exactly for scales, and otherwise changes nothing; the
    numbers that are held stay. *)
Theorem C239_scale :
  forall (F : Fmt R) (p : pd R) n s, ready p n ->
  (is_scale s -> exists q, set_pscale p s = (q, None) /\ ready q n /\ p_prob q = p_prob p /\ same_space p q /\
     eval_pscale s = Ok (p_pscale q)) /\
  (~ is_scale s -> exists e, set_pscale p s = (p, Some e)).
Proof. exact @scale_assigned. Qed.
Print Assumptions C239_scale.

(** C239: they are read on the new scale. *)
Theorem C239_meaning :
  forall (F : Fmt R) (p : pd R) n s q t idx, ready p n -> ~ unit_log s -> set_pscale p s = (q, None) -> p_prob p = Some t ->
  prob_pos p idx = denote (spec_of (p_pscale p)) (get t idx) /\ prob_pos q idx = denote s (get t idx).
Proof. exact @scale_meaning. Qed.
Print Assumptions C239_meaning.

(** C239 is false: between linear scales, or between logarithmic ones, all probabilities
    are multiplied by the ratio of the scales, ... *)
Theorem C239_ratio :
  forall (F : Fmt R) (p : pd R) n s q idx, ready p n -> ~ unit_log s -> set_pscale p s = (q, None) ->
  log_kind s = log_kind (spec_of (p_pscale p)) ->
  prob_pos q idx * factor (spec_of (p_pscale p)) = prob_pos p idx * factor s.
Proof. exact @scale_ratio. Qed.
Print Assumptions C239_ratio.

(** ... so those that are not zero stay exactly if the scale does. *)
Theorem C239_kept_iff_refuted :
  forall (F : Fmt R) (p : pd R) n s q idx, ready p n -> ~ unit_log s -> set_pscale p s = (q, None) ->
  log_kind s = log_kind (spec_of (p_pscale p)) -> prob_pos p idx <> 0 ->
  (prob_pos q idx = prob_pos p idx <-> factor s = factor (spec_of (p_pscale p))).
Proof. exact @scale_changes. Qed.
Print Assumptions C239_kept_iff_refuted.

Example C239_hypotheses_met : exists p q, srt_make = Ok p /\ @ready fmt_ex p 2 /\ is_scale (PSInt 2) /\ ~ is_scale (PSStr "lin") /\
  ~ unit_log (PSInt 2) /\ set_pscale p (PSInt 2) = (q, None) /\ log_kind (PSInt 2) = log_kind (spec_of (p_pscale p)) /\
  prob_pos p [0; 0]%nat = / 2 /\ prob_pos q [0; 0]%nat = 1.
Proof.
  destruct ex_ready as (p & E & V & Sh & S & P & _).
  destruct (proj1 (scale_assigned p 2 (PSInt 2) V) I) as (q1 & E1 & _).
  exists p, q1. split; [exact E|]. split; [exact V|]. split; [exact I|]. split; [cbn; intuition discriminate|].
  assert (U : ~ unit_log (PSInt 2)) by discriminate.
  split; [exact U|]. split; [exact E1|].
  destruct (scale_meaning p 2 (PSInt 2) q1 srt_prob [0; 0]%nat V U E1 P) as [-> ->]. rewrite S. cbn [spec_of].
  unfold denote. rewrite log_kind_one, factor_one. cbn. split; [reflexivity|]. split; lra.
Qed.

(** C240: after d.name = n the variables before the bar are marginal, those after it
    conditional; values, axes and probabilities stay.  The distribution is then as
    consistent as one that was made exactly if these are its variables and the entries
    of scalars show their values. *)
Theorem C240_name :
  forall (F : Fmt R) (p : pd R) n ms cs dm dc, ready p n -> Forall good_entry ms -> Forall good_entry cs ->
  entries_dict ms dm -> entries_dict cs dc -> NoDup (map fst dm) -> NoDup (map fst dc) ->
  exists q, set_name p (margcond_str ms cs) = (q, None) /\
    p_name q = margcond_str ms cs /\ p_marg q = dm /\ p_cond q = dc /\
    p_vals q = p_vals p /\ p_dims q = p_dims p /\ p_shape q = p_shape p /\ p_prob q = p_prob p /\ p_pscale q = p_pscale p /\
    (laid_out q n <-> Permutation (map fst dm ++ map fst dc) (p_keylist p) /\ shows_scalars p (dm ++ dc)).
Proof. exact @name_assigned. Qed.
Print Assumptions C240_name.

(** C240 is false: a refused name is kept, with the roles of the old one. *)
Theorem C240_refused_refuted :
  forall (p : pd R) a b c, (forall s, In s [a; b; c] -> ~ occurs "(" s /\ ~ occurs ")" s) ->
  exists q, set_name p (a ++ "|" ++ b ++ "|" ++ c) = (q, Some AssertionError) /\
    p_name q = (a ++ "|" ++ b ++ "|" ++ c)%string /\ p_marg q = p_marg p /\ p_cond q = p_cond p.
Proof. exact @name_refused. Qed.
Print Assumptions C240_refused_refuted.

Example C240_hypotheses_met : exists p, srt_make = Ok p /\ @ready fmt_ex p 2 /\ p_keylist p = ["x"; "u"; "z"]%string /\
  Forall good_entry ["x"; "z"]%string /\ Forall good_entry ["u"]%string /\
  entries_dict ["x"; "z"]%string [("x", "x"); ("z", "z")]%string /\ entries_dict ["u"]%string [("u", "u")]%string /\
  margcond_str ["x"; "z"]%string ["u"]%string = "x,z|u"%string /\
  Permutation (map fst [("x", "x"); ("z", "z")]%string ++ map fst [("u", "u")]%string)%list ["x"; "u"; "z"]%string /\
  (forall s, In s ["x"; "u"; "z"]%string -> ~ occurs "(" s /\ ~ occurs ")" s).
Proof.
  destruct ex_ready as (p & E & V & Sh & S & P & _ & K & _). exists p. split; [exact E|]. split; [exact V|]. split; [exact K|].
  assert (G : forall s, s <> ""%string -> has_char "," s = false -> has_char "|" s = false ->
               has_char "(" s = false -> has_char ")" s = false -> good_entry s).
  { intros s H1 H2 H3 H4 H5. rewrite has_char_false in *. repeat split; auto. }
  split; [repeat constructor; apply G; try discriminate; reflexivity|].
  split; [repeat constructor; apply G; try discriminate; reflexivity|].
  split; [apply entries_dict_unique; reflexivity|]. split; [apply entries_dict_unique; reflexivity|].
  split; [reflexivity|]. split; [cbn; apply perm_skip, perm_swap|].
  intros s [<-|[<-|[<-|[]]]]; unfold occurs; cbn; intuition discriminate.
Qed.

(** C241: d.dims = dims is accepted exactly if dims describes the values; variables,
    roles, name and the array of probabilities stay, while the shape follows dims. *)
Theorem C241_dims :
  forall (F : Fmt R) (p : pd R) n dims m, ready p n -> naxes dims m ->
  ((exists q, set_dims p (Some dims) = Ok q) <-> describes (p_vals p) dims m) /\
  (forall q, set_dims p (Some dims) = Ok q ->
     p_prob q = p_prob p /\ p_pscale q = p_pscale p /\ p_marg q = p_marg p /\ p_cond q = p_cond p /\ p_name q = p_name p /\
     p_keylist q = p_keylist p /\ (forall k, variable q k = variable p k) /\ length (p_shape q) = m /\
     (forall k d, od_get dims k = Some d -> In k (p_keylist p) -> od_get (p_dims q) k = Some d) /\
     (forall j, (j < m)%nat -> exists k a, column (p_vals p) k a /\ on_axis m dims k j /\ nth_error (p_shape q) j = Some (tsize a))).
Proof. exact @dims_assigned. Qed.
Print Assumptions C241_dims.

(** C241 is false: exchanging the two axes of any distribution is accepted, and leaves
    the probabilities in the old shape. *)
Theorem C241_exchanged_refuted :
  forall (F : Fmt R) (p : pd R) a b, ready p 2 -> NoDup (od_keys (p_dims p)) -> p_shape p = [a; b] ->
  exists q t, set_dims p (Some (exchanged (p_dims p))) = Ok q /\ p_shape q = [b; a] /\ p_prob q = Some t /\ shape t = [a; b].
Proof. exact @dims_exchanged. Qed.
Print Assumptions C241_exchanged_refuted.

(** C241: d[k] = values is never refused; the shape and the probabilities stay, so that
    the distribution is consistent exactly if there are as many values as before. *)
Theorem C241_item :
  forall (F : Fmt R) (p : pd R) n k a j b, ready p n -> column (p_vals p) k a -> on_axis n (p_dims p) k j -> one_axis b ->
  p_shape (set_item p k (VArr b)) = p_shape p /\ p_prob (set_item p k (VArr b)) = p_prob p /\
  variable (set_item p k (VArr b)) k = Some (Col (to_list b)) /\
  (forall k', k' <> k -> variable (set_item p k (VArr b)) k' = variable p k') /\
  (laid_out (set_item p k (VArr b)) n <-> tsize b = tsize a).
Proof. exact @item_assigned. Qed.
Print Assumptions C241_item.

Example C241_hypotheses_met : exists p a, srt_make = Ok p /\ @ready fmt_ex p 2 /\ NoDup (od_keys (p_dims p)) /\ p_shape p = [3; 2]%nat /\
  column (p_vals p) "z" a /\ on_axis 2 (p_dims p) "z" 1 /\ tsize a = 2%nat /\
  one_axis (of_list 0 [5; 6; 7]) /\ tsize (of_list 0 [5; 6; 7]) = 3%nat.
Proof.
  destruct ex_ready as (p & E & V & Sh & S & P & N & K & (a & C & T) & O). exists p, a.
  do 7 (split; [assumption|]). split; [split; [discriminate|reflexivity]|reflexivity].
Qed.
