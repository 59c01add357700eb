(** Property theorems about lengths and membership (C234-C236). *)
From Coq Require Import String ZArith Reals Lra Lia Bool Arith List.
From Verif Require Import Base Num RNumLemmas VariableModel Var_Spec Var_Proofs FieldModel Field_Spec LenModel Len_Spec Len_Proofs.
Import ListNotations.
Local Open Scope R_scope.

(** C234: eval_length() of a field returns the root of the sum of the squares of the
    lengths its variables have now, and no number exactly if one of them has none. *)
Theorem C234_value : forall f : lfield R,
  (forall lens, Forall2 has_length (lf_vars f) lens -> snd (eval_length f) = Some (root_sum_squares lens)) /\
  (snd (eval_length f) = None <-> exists v, In v (lf_vars f) /\ forall x, ~ has_length v x).
Proof. exact (fun f => conj (@length_value f) (length_none f)). Qed.
Print Assumptions C234_value.

(** C234 (false of the code): field.set_delta(x, scale=True) scales by the lengths the
    variables had when one was last added or eval_length() last called, whatever sets and
    transformations they were given since: a variable whose length has changed since has a
    step that is not x times its length. *)
Theorem C234_outdated_refuted :
  forall (f0 f f' : lfield R) c h lens (g : field R) vds x bound, refreshes c -> l_change f0 c = Ok f ->
  (forall d, In d h -> ~ refreshes d) -> l_run f h = Ok f' -> Forall2 has_length (lf_vars f) lens ->
  fd_keys g = lf_names f' -> NoDup (fd_keys g) -> length (fd_varlist g) = length (fd_keys g) -> length lens = length (fd_keys g) ->
  exists cf vds', f_set_delta (fd_keys g) (lf_lens f') vds (GNum x) [] true bound = Ok (cf, vds') /\
    (forall rs u, f_eval_delta g (lf_lens f') cf vds' rs u = Ok (Steps (map (fun l => DDelta (PF (x * l))) lens))) /\
    (forall i v l y, nth_error (lf_vars f') i = Some v -> has_length v y -> nth_error lens i = Some l -> l <> y -> x <> 0 ->
       nth_error (map (fun l => DDelta (PF (x * l))) lens) i <> Some (DDelta (PF (x * y)))).
Proof. exact step_outdated. Qed.
Print Assumptions C234_outdated_refuted.

(** C234: eval_length() brings the lengths up to date, and so does adding a variable. *)
Theorem C234_refreshed :
  forall (f f' : lfield R) c lens, refreshes c -> l_change f c = Ok f' -> Forall2 has_length (lf_vars f') lens -> lf_lens f' = map Some lens.
Proof. exact (fun f f' c lens RF C H => eq_trans (@refreshed f c f' RF C) (lens_some H)). Qed.
Print Assumptions C234_refreshed.

(** C234: a transformation can be set for real variables and no others; it changes no other
    variable of the field. *)
Theorem C234_transformed : forall (f : lfield R) i u,
  ((exists f', l_change f (LUfun i u) = Ok f') <-> exists v, nth_error (lf_vars f) i = Some v /\ vs_vtype (fst v) = Some VFloat) /\
  (forall f', l_change f (LUfun i u) = Ok f' -> exists v, nth_error (lf_vars f) i = Some v /\ nth_error (lf_vars f') i = Some (fst v, Some u) /\
     lf_names f' = lf_names f /\ forall j, j <> i -> nth_error (lf_vars f') j = nth_error (lf_vars f) j).
Proof. exact (fun f i u => conj (transformed_iff f i u) (fun f' => @transformed_only f f' i u)). Qed.
Print Assumptions C234_transformed.

(** C235: len(x) is the number of members of a discrete variable, and two for bools. *)
Theorem C235_len_iff : forall (v : lvar R) n, py_len v = Ok n <->
  exists l t, vs_vset (fst v) = Some l /\ vs_vtype (fst v) = t /\ t <> Some VFloat /\
    n = if match t with Some VBool => true | _ => false end then 2%Z else Z.of_nat (length l).
Proof. exact len_iff. Qed.
Print Assumptions C235_len_iff.

(** C235 (false of the code): real variables have a length, but len(x) raises an error, and
    so does any test for truth such as "if x". *)
Theorem C235_real_refuted : forall (v : lvar R), vs_vtype (fst v) = Some VFloat -> py_len v = Err TypeError /\ py_bool v = Err TypeError.
Proof. exact len_real. Qed.
Print Assumptions C235_real_refuted.

(** C235: "v in x" tells for a number if it is in the set of the variable; for an array of
    more than one it raises an error; nothing is in a variable without a set. *)
Theorem C235_in :
  (forall w t vals (x : pyval R), t <> VFloat -> exists b, contains w (discrete t vals) [x] = Ok b /\ (b = true <-> In (num x) (map num vals))) /\
  (forall w e0 e1 (x : pyval R), exists b, contains w (interval e0 e1) [x] = Ok b /\ (b = true <-> over e0 (num x) /\ under e1 (num x))) /\
  (forall w s (xs : list (pyval R)), (2 <= length xs)%nat ->
     (exists t vals, t <> VFloat /\ s = discrete t vals) \/ (exists e0 e1, s = interval e0 e1) -> contains w s xs = Err ValueError) /\
  (forall w (s : vstate R) xs, vs_vset s = None -> contains w s xs = Ok false).
Proof. exact (conj in_discrete (conj in_interval (conj in_array in_no_set))). Qed.
Print Assumptions C235_in.

(** C236: inside(xs) of a discrete variable is, element by element, membership in the set if
    no value is repeated, and in any case unless numpy sorts. *)
Theorem C236_distinct :
  forall w t vals (xs : list (pyval R)), t <> VFloat -> w <> Sort \/ NoDup (map num xs) ->
  exists bs, inside_all w (discrete t vals) xs = Some bs /\ length bs = length xs /\
    forall i b x, nth_error bs i = Some b -> nth_error xs i = Some x -> (b = true <-> In (num x) (map num vals)).
Proof. exact member_exact. Qed.
Print Assumptions C236_distinct.

(** C236 (false of the code): if numpy sorts, a value counts as inside also if it occurs
    again later in the array, because numpy is told that no value is repeated. *)
Theorem C236_repeated_refuted :
  forall t vals (xs : list (pyval R)), t <> VFloat ->
  exists bs, inside_all Sort (discrete t vals) xs = Some bs /\ length bs = length xs /\
    forall i b x, nth_error bs i = Some b -> nth_error xs i = Some x ->
      (b = true <-> In (num x) (map num vals) \/ again_later (map num xs) i).
Proof. exact member_sorted. Qed.
Print Assumptions C236_repeated_refuted.

(** C236 (false of the code): then the default probability of a value outside of the set is
    that of the members, except where it occurs last. *)
Theorem C236_probability_refuted :
  forall t vals (xs : list (pyval R)) p z, t <> VFloat ->
  exists ps, uniform_all Sort (discrete t vals) p z xs = Some ps /\ length ps = length xs /\
    forall i x, nth_error xs i = Some x -> ~ In (num x) (map num vals) ->
      (again_later (map num xs) i -> nth_error ps i = Some p) /\ (~ again_later (map num xs) i -> nth_error ps i = Some z).
Proof. exact prob_sorted. Qed.
Print Assumptions C236_probability_refuted.

(** A field of x in [0, 2] and a variable n of three integers; then x is transformed. *)
Local Definition vx : lvar R := (interval (Bare (AV (PF 0))) (Bare (AV (PF 2))), None).
Local Definition vn : lvar R := (discrete VInt [PI 1; PI 2; PI 5], None).
Local Definition cube : ufun R := mkUfun (fun x => x * x * x) (fun x => x) (fun b => AOO b).
Local Definition fxn : lfield R := make_lf [("x"%string, vx); ("n"%string, vn)].

Local Lemma span_of a b : a <= b -> n_sub (n_max a b) (n_min a b) = b - a.
Proof.
  intros H. unfold n_max, n_min. assert (L : n_leb a b = true) by (apply Rleb_iff; exact H). rewrite L. reflexivity.
Qed.

Example C234_instance : exists f f',
  l_change fxn LEval = Ok f /\ l_run f [LUfun 0 cube] = Ok f' /\ (forall d, In d [LUfun 0 cube] -> ~ refreshes d) /\
  Forall2 has_length (lf_vars f) [2; 3] /\ Forall2 has_length (lf_vars f') [8; 3] /\ lf_names f' = ["x"; "n"]%string /\ NoDup (lf_names f') /\
  exists g : field R, make_field false (AddMany [Some (mkFV 0 "x" (fst vx) false); Some (mkFV 1 "n" (fst vn) false)]) = Ok g /\
    fd_keys g = lf_names f' /\ length (fd_varlist g) = length (fd_keys g).
Proof.
  do 2 eexists. split; [reflexivity|]. split; [reflexivity|].
  split; [intros d [<-|[]] [C|(n & v & C)]; discriminate|].
  assert (HN : has_length vn 3) by (eexists; split; reflexivity).
  split; [|split; [|split; [reflexivity|split; [|eexists; split; [reflexivity|split; reflexivity]]]]].
  - constructor; [|constructor; [exact HN|constructor]]. eexists. split; [reflexivity|]. cbn [num as_num]. rewrite span_of by lra. lra.
  - constructor; [|constructor; [exact HN|constructor]]. eexists. split; [reflexivity|]. cbn [num as_num u_fwd cube]. rewrite span_of by lra. lra.
  - cbn. repeat constructor; cbn; intuition discriminate.
Qed.

(** seven occurs twice and is not in the set *)
Example C236_instance : again_later (map num [PI 7; PI 1; PI 7]) 0 /\ ~ In (num (PI 7)) (map num [PI 1; PI 2; PI 5]) /\
  ~ again_later (map num [PI 7; PI 1; PI 7]) 2 /\ NoDup (map num [PI 7; PI 1]) /\
  py_len (discrete VInt [PI 1; PI 2; PI 5], None) = Ok 3%Z /\ vs_vtype (fst vx) = Some VFloat.
Proof.
  split; [exists 2%nat, 7; repeat split; lia|]. split; [cbn; lra|].
  split; [intros (j & x & A & B & C); destruct j as [|[|[|[|j]]]]; try lia; discriminate|].
  split; [repeat constructor; cbn; lra|]. split; reflexivity.
Qed.
