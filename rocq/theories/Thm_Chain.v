(** Property theorems about samplers with a transition function (C132-C136, C146). *)
From Coq Require Import String ZArith Reals Lra Lia Bool Arith List.
From Verif Require Import Base Num Tensor PScales PScales_Spec Distr PDModel PD_Spec VariableModel RVModel RV_Spec FieldModel Field_Spec
  RFModel RF_Spec RF_Thm SDModel SD_Spec SD_Ex SPModel SP_Spec PD_Examples PD_ProductEx ChainModel Chain_Spec Chain_Thm Chain_Uniform Chain_Rules Chain_Set Chain_Ex.
Import ListNotations.
Local Open Scope R_scope.

(** C132: a process of real variables with a density, any transition function, a
    function that draws the moves and scores by the name of metropolis: whatever the
    history of its samplers, each yields the chain that starts at the given values,
    adds the numbers drawn, and keeps the old values where Metropolis' rule for the
    density says so.  The first move is always made. *)
Theorem C132_metropolis_chain :
  forall (F : Fmt R) (TR : Trunc R) (vs : list (rv R)) (vds : list (dconf R)) (start : list R),
  let names := names_of vs in
  printable F -> vs <> [] -> named_apart names -> unprimed names -> scales_ok vs ->
  length vds = length vs -> Forall (fun dc => dc_delta dc = DNone) vds -> length start = length vs ->
  Forall real_rv vs ->
  exists d0, make_sd vs [] None = Ok d0 /\
  forall (fn : probfun R) (h : list (pyval R) -> R) given d (t : tranin R) qd,
  elementwise names h fn -> sd_set_prob d0 (Some fn) given = Ok d -> computes names qd (tran_of t) ->
  (forall x, length x = length vs -> scored (spec_of (sd_pscale d)) (h (map PF x))) ->
  let dens x := denote (spec_of (sd_pscale d)) (h (map PF x)) in
  samples_as (mkChain d t (DeltaFun false vds) (combine names (map PF start))) Metropolis names start
    dens moved (metropolis_rule dens).
Proof. exact @metropolis_law. Qed.
Print Assumptions C132_metropolis_chain.

(** C132: the rule is in detailed balance with the density for symmetric proposals. *)
Theorem C132_balance :
  forall (dens : list R -> R) prop x y, 0 <= dens x -> 0 <= dens y -> prop x y = prop y x ->
  balances dens prop (metropolis_rule dens) x y.
Proof. exact metropolis_balances. Qed.
Print Assumptions C132_balance.

(** C132: it is the ratio of densities unless both are below the smallest float. *)
Theorem C132_ratio :
  forall (dens : list R -> R) x y, 0 < dens x -> npz <= dens x \/ npz <= dens y ->
  metropolis_rule dens x y = Rmin 1 (dens y / dens x).
Proof. exact (fun dens x y => ratio_clamped (dens x) (dens y)). Qed.
Print Assumptions C132_ratio.

Example C132_instance :
  printable fmt_ex /\ named_apart (names_of [ex_x; ex_y]) /\ unprimed (names_of [ex_x; ex_y]) /\ scales_ok [ex_x; ex_y] /\
  Forall real_rv [ex_x; ex_y] /\
  (forall h, elementwise (names_of [ex_x; ex_y]) h (ufunc (names_of [ex_x; ex_y]) h)) /\
  (forall h, computes (names_of [ex_x; ex_y]) h (tran_of (TranOne (tfunc (names_of [ex_x; ex_y]) h)))) /\
  (forall fn, exists d0, make_sd [ex_x; ex_y] [] None = Ok d0 /\
    (exists d, sd_set_prob d0 (Some fn) (Some (PSFloat 1)) = Ok d /\ linear_scale (spec_of (sd_pscale d)) /\
       forall v, denote (spec_of (sd_pscale d)) v = v) /\
    (exists d, sd_set_prob d0 (Some fn) (Some (PSStr "log"%string)) = Ok d /\ spec_of (sd_pscale d) = PSCplx 0 0)) /\
  (let dens x := match x with [a] => Rabs a | _ => 0 end in
   sampled_chain moved (metropolis_rule dens) [1] [([1], / 2); ([2], 1); ([-3], / 2)] = [[2]; [4]; [4]]).
Proof.
  destruct ex_field as (H1 & H2 & H3 & H4 & _). split; [exact ex_printable|]. split; [exact H1|]. split; [exact H2|]. split; [exact H3|].
  split; [exact H4|]. split; [intros; apply ufunc_elementwise|]. split; [intros; apply tfunc_computes|]. split; [exact ex_set|exact ex_chain].
Qed.

(** C133: given a pair (q, r) of transition functions, hastings scores multiply both
    densities with q of the move itself: r is never called, and the ratio is that of
    the densities, as if the proposals were symmetric. *)
Theorem C133_two_way_chain :
  forall (F : Fmt R) (TR : Trunc R) (vs : list (rv R)) (vds : list (dconf R)) (start : list R),
  let names := names_of vs in
  printable F -> vs <> [] -> named_apart names -> unprimed names -> scales_ok vs ->
  length vds = length vs -> Forall (fun dc => dc_delta dc = DNone) vds -> length start = length vs ->
  Forall real_rv vs -> (forall v, vs = [v] -> rv_tran v = TRNone) ->
  exists d0, make_sd vs [] None = Ok d0 /\
  forall (fn : probfun R) (h : list (pyval R) -> R) given d (q r : tranfun R) qd,
  elementwise names h fn -> sd_set_prob d0 (Some fn) given = Ok d -> computes names qd q ->
  linear_scale (spec_of (sd_pscale d)) ->
  let dens x := denote (spec_of (sd_pscale d)) (h (map PF x)) in
  let prop := prop_density (spec_of (sd_pscale d)) qd in
  samples_as (mkChain d (TranTwo q r) (DeltaFun false vds) (combine names (map PF start))) Hastings names start
    dens moved (unless_improper prop (weighted_rule dens prop)).
Proof. exact @two_way_law. Qed.
Print Assumptions C133_two_way_chain.

(** C133 (false of the code): so the chain is in detailed balance with the density, and
    follows the rule of Metropolis and Hastings, only where the proposals are symmetric. *)
Theorem C133_balance_refuted :
  forall (dens : list R -> R) (prop : list R -> list R -> R) x y,
  0 < dens x -> 0 < dens y -> 0 < prop x y -> 0 < prop y x ->
  npz <= dens x * prop x y \/ npz <= dens y * prop x y -> npz <= dens x * prop y x \/ npz <= dens y * prop y x ->
  let rule := unless_improper prop (weighted_rule dens prop) in
  (balances dens prop rule x y <-> prop x y = prop y x) /\
  (rule x y = hastings_rule dens prop x y /\ rule y x = hastings_rule dens prop y x <-> prop x y = prop y x).
Proof. exact weighted_balance. Qed.
Print Assumptions C133_balance_refuted.

Example C133_instance :
  (forall v, [ex_x; ex_y] = [v] -> rv_tran v = TRNone) /\
  (let dens (_ : list R) := 1 in let prop (_ y : list R) := nth 0 y 0 in
   0 < dens [1] /\ 0 < prop [1] [2] /\ 0 < prop [2] [1] /\ npz <= dens [1] * prop [1] [2] /\ npz <= dens [1] * prop [2] [1] /\ prop [1] [2] <> prop [2] [1]).
Proof.
  split; [discriminate|]. pose proof RNumLemmas.npz_lt_1 as Z. cbn. repeat split; lra.
Qed.

(** C134: with bound=True the numbers are added within the limits of each variable's
    interval (moved to the nearest end of a closed one, left alone by an open one), and
    Metropolis' rule applies to the density there. *)
Theorem C134_bounded_chain :
  forall (F : Fmt R) (TR : Trunc R) (vs : list (rv R)) (vds : list (dconf R)) (start : list R),
  let names := names_of vs in
  printable F -> vs <> [] -> named_apart names -> unprimed names -> scales_ok vs ->
  length vds = length vs -> Forall (fun dc => dc_delta dc = DNone) vds -> length start = length vs ->
  forall lims, Forall2 interval_rv vs lims -> within lims start ->
  exists d0, make_sd vs [] None = Ok d0 /\
  forall (fn : probfun R) (h : list (pyval R) -> R) given d (t : tranin R) qd,
  elementwise names h fn -> sd_set_prob d0 (Some fn) given = Ok d -> computes names qd (tran_of t) ->
  (forall x, length x = length vs -> scored (spec_of (sd_pscale d)) (h (map PF x))) ->
  let dens x := denote (spec_of (sd_pscale d)) (h (map PF x)) in
  samples_as (mkChain d t (DeltaFun true vds) (combine names (map PF start))) Metropolis names start
    dens (moved_in lims) (metropolis_rule dens).
Proof. exact @bounded_law. Qed.
Print Assumptions C134_bounded_chain.

(** C134: the same if the delta was set to a number, a list or a tuple with bound=True,
    scaled or not. *)
Theorem C134_set_delta_chain :
  forall (F : Fmt R) (TR : Trunc R) (vs : list (rv R)) (vds : list (dconf R)) (start lens : list R),
  let names := names_of vs in
  printable F -> vs <> [] -> named_apart names -> unprimed names -> scales_ok vs ->
  length vds = length vs -> Forall (fun dc => dc_delta dc = DNone) vds -> length start = length vs -> length lens = length vs ->
  forall (g : fdelta_in R) (scale : bool) (lims : list limits), moving g -> Forall2 interval_rv vs lims -> within lims start ->
  exists c vds', f_set_delta names (map Some lens) vds g [] scale true = Ok (c, vds') /\
  exists d0, make_sd vs [] None = Ok d0 /\
  forall (fn : probfun R) (h : list (pyval R) -> R) given d (t : tranin R) qd,
  elementwise names h fn -> sd_set_prob d0 (Some fn) given = Ok d -> computes names qd (tran_of t) ->
  (forall x, length x = length vs -> scored (spec_of (sd_pscale d)) (h (map PF x))) ->
  let dens x := denote (spec_of (sd_pscale d)) (h (map PF x)) in
  samples_by (set_moves g scale lens) (mkChain d t (DeltaSet c vds' (map Some lens)) (combine names (map PF start))) Metropolis names start
    dens (moved_in lims) (metropolis_rule dens).
Proof. exact @set_bounded_law. Qed.
Print Assumptions C134_set_delta_chain.

(** C134: such a chain never leaves the limits, whatever the rule. *)
Theorem C134_within :
  forall (lims : list limits) (rule : list R -> list R -> R) (x : list R) (n : nat) (steps : list (list R * R)),
  within lims x -> length x = n -> Forall (fun s => length (fst s) = n) steps ->
  Forall (within lims) (sampled_chain (moved_in lims) rule x steps).
Proof. exact chain_within. Qed.
Print Assumptions C134_within.

Example C134_instance :
  Forall2 interval_rv [ex_x; ex_y] ex_lims /\ within ex_lims [2; / 2] /\ Forall (fun dc : dconf R => dc_delta dc = DNone) [ex_dc; ex_dc].
Proof. destruct ex_field as (_ & _ & _ & _ & H5 & H6). split; [exact H5|]. split; [exact H6|]. repeat constructor. Qed.

(** C135: after set_delta([p]) on the field, a step adds to every real variable a number
    drawn from -p to p, and leaves every bool as it is: bools never change, whatever
    is drawn. *)
Theorem C135_bool_stays_refuted :
  forall (F : Fmt R) (vs : list (rv R)),
  let names := names_of vs in
  vs <> [] -> named_apart names -> unprimed names -> scales_ok vs -> printable F ->
  exists d0, make_sd vs [] None = Ok d0 /\ forall lengths vds p, 0 <= p < 1 ->
  exists c vds', f_set_delta names lengths vds (GList p) [] false false = Ok (c, vds') /\
  forall (t : tranin R) st r (xs : list (pyval R)) qd, Forall2 value_for vs xs -> computes names qd (tran_of t) ->
  exists d, chain_step (mkChain d0 t (DeltaSet c vds' lengths) st) (combine names xs) r = Ok d /\
    forall i v x, nth_error vs i = Some v -> nth_error xs i = Some x ->
      od_get (cd_held d) (rv_name v) = Some x /\
      od_get (cd_held d) (rv_name v ++ "'")%string = Some (uniform_step p v x (d_unif (cr_vars r i) 0)).
Proof. exact @uniform_step_law. Qed.
Print Assumptions C135_bool_stays_refuted.

Example C135_instance :
  named_apart (names_of [ex_x; ex_b]) /\ unprimed (names_of [ex_x; ex_b]) /\ scales_ok [ex_x; ex_b] /\
  Forall2 value_for [ex_x; ex_b] [PF 3; PB true] /\
  uniform_step (/ 2) ex_x (PF 3) (/ 4) = PF (3 + (2 * / 4 - 1) * / 2) /\ uniform_step (/ 2) ex_b (PB true) (/ 4) = PB true.
Proof. destruct ex_mixed as (H1 & H2 & H3 & H4). repeat (split; [assumption|]). split; reflexivity. Qed.

(** C136: with a single transition function, hastings scores are those of metropolis,
    except that a move that the transition function gives no density is always made. *)
Theorem C136_hastings_chain :
  forall (F : Fmt R) (TR : Trunc R) (vs : list (rv R)) (vds : list (dconf R)) (start : list R),
  let names := names_of vs in
  printable F -> vs <> [] -> named_apart names -> unprimed names -> scales_ok vs ->
  length vds = length vs -> Forall (fun dc => dc_delta dc = DNone) vds -> length start = length vs ->
  Forall real_rv vs ->
  exists d0, make_sd vs [] None = Ok d0 /\
  forall (fn : probfun R) (h : list (pyval R) -> R) given d (q : tranfun R) qd,
  elementwise names h fn -> sd_set_prob d0 (Some fn) given = Ok d -> computes names qd q ->
  (forall x, length x = length vs -> scored (spec_of (sd_pscale d)) (h (map PF x))) ->
  (forall x y, length x = length vs -> length y = length vs -> scored (spec_of (sd_pscale d)) (qd (map PF x) (map PF y))) ->
  let dens x := denote (spec_of (sd_pscale d)) (h (map PF x)) in
  let prop := prop_density (spec_of (sd_pscale d)) qd in
  samples_as (mkChain d (TranOne q) (DeltaFun false vds) (combine names (map PF start))) Hastings names start
    dens moved (unless_improper prop (metropolis_rule dens)).
Proof. exact @hastings_law. Qed.
Print Assumptions C136_hastings_chain.

(** A move the transition function rules out is made although its target has no density. *)
Example C136_instance :
  let dens x := match x with [a] => if Rle_dec a 0 then 0 else 1 | _ => 0 end in
  let prop (x y : list R) := if Rle_dec (nth 0 y 0) 0 then 0 else 1 in
  unless_improper prop (metropolis_rule dens) [1] [-1] = 1 /\ metropolis_rule dens [1] [-1] = 0.
Proof.
  cbv zeta. unfold unless_improper, metropolis_rule. cbn [nth]. destruct (Rle_dec (-1) 0); [|lra]. destruct (Rle_dec 1 0); [lra|].
  destruct (Rle_dec 0 0); [|lra]. split; [reflexivity|]. unfold Rdiv. rewrite Rmult_0_l. apply Rmin_right. lra.
Qed.

(** C146: after set_delta of a number, a list or a tuple, scaled or not, the samples of a
    process with metropolis scores are those of the Metropolis chain that moves by the
    numbers that such a delta stands for. *)
Theorem C146_set_delta_chain :
  forall (F : Fmt R) (TR : Trunc R) (vs : list (rv R)) (vds : list (dconf R)) (start lens : list R),
  let names := names_of vs in
  printable F -> vs <> [] -> named_apart names -> unprimed names -> scales_ok vs ->
  length vds = length vs -> Forall (fun dc => dc_delta dc = DNone) vds -> length start = length vs -> length lens = length vs ->
  forall (g : fdelta_in R) (scale : bool), moving g -> Forall real_rv vs ->
  exists c vds', f_set_delta names (map Some lens) vds g [] scale false = Ok (c, vds') /\
  exists d0, make_sd vs [] None = Ok d0 /\
  forall (fn : probfun R) (h : list (pyval R) -> R) given d (t : tranin R) qd,
  elementwise names h fn -> sd_set_prob d0 (Some fn) given = Ok d -> computes names qd (tran_of t) ->
  (forall x, length x = length vs -> scored (spec_of (sd_pscale d)) (h (map PF x))) ->
  let dens x := denote (spec_of (sd_pscale d)) (h (map PF x)) in
  samples_by (set_moves g scale lens) (mkChain d t (DeltaSet c vds' (map Some lens)) (combine names (map PF start))) Metropolis names start
    dens moved (metropolis_rule dens).
Proof. exact @set_law. Qed.
Print Assumptions C146_set_delta_chain.

Example C146_instance :
  let r := mkCR [] [3; 4] (fun _ => mkDR (fun _ => / 4) 0%Z) 1 in
  moving (GTup 5) /\ moving (GList 2) /\ set_moves (GTup 5) false [1; 1] r = [3; 4] /\ set_moves (GList 2) true [10; 1] r = [-10; -1] /\
  set_moves (GNum 2) true [10; 1] r = [20; 2].
Proof.
  cbn [moving set_moves cr_sphere cr_vars length seq combine map fst snd]. split; [exact I|]. split; [exact I|].
  assert (S : Field_Spec.sumsq [3; 4] = 5 * 5) by (cbn; lra). rewrite S.
  destruct (Req_EM_T (5 * 5) 0) as [E|_]; [lra|]. rewrite sqrt_square by lra. cbn [Nat.eqb negb d_unif].
  split; [|split]; repeat (apply f_equal2; [lra|]); reflexivity.
Qed.
