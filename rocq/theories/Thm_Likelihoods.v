(** Property theorems about binary codes, boolean frequencies and uniform grids
    (C35-C38, C62, C63). *)
From Coq Require Import String ZArith Reals Lra Lia List.
From Verif Require Import Base Num Tensor RNumLemmas Likelihoods Lik_Spec Lik_Proofs Lik_Slice.
Import ListNotations.
Local Open Scope R_scope.

(** C35: the code of n has as many digits as asked for or as needed, it is n
    written in binary, and bin_to_int returns n exactly if n fits a signed 64-bit
    integer. *)
Theorem C35_code_round_trip :
  forall (n : Z) (w : nat), (0 <= n)%Z ->
  exists bits, int_to_bin1 n w = Ok bits /\ length bits = Nat.max w (digits n) /\
    bits_value bits = n /\ (bin_to_int1 bits = n <-> n < 2 ^ 63)%Z.
Proof. exact code_round_trip. Qed.
Print Assumptions C35_code_round_trip.

(** C35: digits n is the least number of digits that can hold n (at least 1). *)
Theorem C35_no_superfluous_digits :
  forall (n : Z), (0 <= n)%Z -> (1 <= digits n)%nat /\
    forall bits, bits_value bits = n -> bits <> [] -> (digits n <= length bits)%nat.
Proof. exact digits_least. Qed.
Print Assumptions C35_no_superfluous_digits.

(** C35: arrays of integers. *)
Theorem C35_code_array :
  forall (nums : list Z) (w : nat), nums <> [] -> Forall (fun n => 0 <= n)%Z nums ->
  exists rows width, int_to_bin nums w = Ok rows /\ (w <= width)%nat /\
    Forall2 (fun n bits => length bits = width /\ bits_value bits = n) nums rows /\
    (Forall (fun n => n < 2 ^ 63)%Z nums -> bin_to_int rows = Ok nums).
Proof. exact code_array. Qed.
Print Assumptions C35_code_array.

Example C35_instance :
  int_to_bin1 6 5 = Ok [false; false; true; true; false] /\ bin_to_int1 [false; false; true; true; false] = 6%Z /\
  int_to_bin [5; 2]%Z 0 = Ok [[true; false; true]; [false; true; false]].
Proof. repeat split. Qed.

(** C36: the counts are the occurrences of each combination and add up to the
    number of rows; the frequencies add up to one. *)
Theorem C36_counts :
  forall (cols : nat) (rows : list (list bool)) (base : Z),
  Forall (fun r => length r = cols) rows -> rows <> [] ->
  (forall c, length c = cols ->
     get (rel_freq (T := R) cols rows base) (position c) = INR (occurrences rows c) / INR (length rows)) /\
  Rsum_over (fun c => INR (occurrences rows c)) (all_bools cols) = INR (length rows) /\
  Rsum_over (fun c => get (rel_freq (T := R) cols rows base) (position c)) (all_bools cols) = 1 /\
  (forall c, In c (all_bools cols) <-> length c = cols) /\ NoDup (all_bools cols).
Proof.
  intros cols rows base H NE. split; [intros c _; apply freq_value|]. split; [apply count_total; exact H|].
  split; [apply freq_total; assumption|]. split; [apply all_bools_spec|apply all_bools_nodup].
Qed.
Print Assumptions C36_counts.

Example C36_instance :
  let rows := [[true; false]; [true; true]; [true; false]] in
  Forall (fun r => length r = 2%nat) rows /\ rows <> [] /\ occurrences rows [true; false] = 2%nat.
Proof. repeat split; [repeat constructor|discriminate]. Qed.

(** C37 (false of the code): the base frequency has no effect on the result,
    which is never (count + base)/n and is the smoothed frequency only for
    combinations whose unsmoothed frequency is exactly uniform. *)
Theorem C37_smoothing_refuted :
  forall (cols : nat) (rows : list (list bool)) (base : Z) (c : list bool),
  rows <> [] -> (0 < base)%Z ->
  let count := INR (occurrences rows c) in
  let n := INR (length rows) in
  let f := get (rel_freq (T := R) cols rows base) (position c) in
  f = count / n /\ f <> (count + IZR base) / n /\
  (f = (count + IZR base) / (n + IZR base * 2 ^ cols) <-> count * 2 ^ cols = n).
Proof. exact smoothing_ineffective. Qed.
Print Assumptions C37_smoothing_refuted.

Example C37_instance : [[true]; [true]; [false]] <> ([] : list (list bool)) /\ (0 < 1)%Z /\
  INR (occurrences [[true]; [true]; [false]] [true]) * 2 ^ 1 <> INR (length [[true]; [true]; [false]]).
Proof. split; [discriminate|]. split; [lia|]. cbn. lra. Qed.

(** C38: n equally spaced increasing points; an excluded limit is one step
    away, a limit not excluded is met. *)
Theorem C38_uniform_points :
  forall (a b : R) (n : Z) (ex0 ex1 : bool) (us : nat -> R), a < b -> (0 < n)%Z ->
  (n = 1%Z -> ex0 = true \/ ex1 = true) ->
  exists l h, uniform (T := R) a b (Some n) ex0 ex1 us = UArray l /\ 0 < h /\ Z.of_nat (length l) = n /\
    (forall i, (i < length l)%nat -> nth i l 0 = (if ex0 then a + h else a) + INR i * h) /\
    last l 0 = if ex1 then b - h else b.
Proof. exact uniform_points. Qed.
Print Assumptions C38_uniform_points.

(** C38: a single point with no exclusions is the middle. *)
Theorem C38_uniform_one :
  forall (a b : R) (us : nat -> R), uniform (T := R) a b (Some 1%Z) false false us = UArray [(a + b) / 2].
Proof. exact uniform_one. Qed.
Print Assumptions C38_uniform_one.

(** C38: without a count, or a count that is not positive, the points are drawn
    from [a,b). *)
Theorem C38_uniform_random :
  forall (a b : R) (n : option Z) (ex0 ex1 : bool) (us : nat -> R),
  a < b -> (forall i, 0 <= us i < 1) -> (match n with Some z => z <= 0 | None => True end)%Z ->
  match uniform (T := R) a b n ex0 ex1 us with
  | UScalar x => (n = None \/ n = Some 0%Z) /\ a <= x < b
  | UArray l => (exists z, n = Some z /\ z < 0 /\ Z.of_nat (length l) = - z)%Z /\ Forall (fun x => a <= x < b) l
  end.
Proof. exact uniform_random. Qed.
Print Assumptions C38_uniform_random.

Example C38_instance : 0 < 4 /\ (0 < 3)%Z /\
  exists l, uniform (T := R) 0 4 (Some 3%Z) true true (fun _ => 0) = UArray l /\ nth 2 l 0 = 3.
Proof.
  split; [lra|]. split; [lia|]. eexists. split; [reflexivity|].
  change (Pos.to_nat 3) with 3%nat. rewrite linspace_cut by lia. cbn. unfold cut. cbn. lra.
Qed.

(** C62: whatever values or axes are asked for, in the order of the labels, the
    likelihood function returns the relative frequency of every combination. *)
Theorem C62_likelihood_of_request :
  forall (labels : list string) (rows : list (list bool)) (base : Z) (req : list (option bool)),
  labels <> [] -> NoDup labels -> length req = length labels ->
  exists t, bool_perm_fun (T := R) labels rows base (req_spec labels req (asked req) 0) (req_dims labels req 0) = Ok t /\
    shape t = repeat 2%nat (asked req) /\
    forall idx, in_range (shape t) idx ->
      get t idx = INR (occurrences rows (fill req idx)) / INR (length rows).
Proof. exact likelihood_reads. Qed.
Print Assumptions C62_likelihood_of_request.

Example C62_instance : ["a"; "b"; "c"]%string <> [] /\ NoDup ["a"; "b"; "c"]%string /\
  length [None; Some true; None] = length ["a"; "b"; "c"]%string /\ asked [None; Some true; None] = 2%nat /\
  fill [None; Some true; None] [1; 0]%nat = [true; true; false].
Proof. split; [discriminate|]. split; [|repeat split]. repeat constructor; cbn; intuition discriminate. Qed.

(** C63 (false of the code): asked for the axes of two labels the other way
    round, the function accepts, and its answer is right only if the table is
    symmetric. *)
Theorem C63_other_axis_order_refuted :
  forall (a b : string) (rows : list (list bool)) (base : Z), a <> b -> rows <> [] ->
  let spec := [(a, SArray (both 2 1)); (b, SArray (both 2 0))] in
  let dims := [(b, Some 0%nat); (a, Some 1%nat)] in
  exists t, bool_perm_fun (T := R) [a; b] rows base spec dims = Ok t /\ shape t = [2; 2]%nat /\
    ((forall vb va : bool, get t (position [vb; va]) = INR (occurrences rows [va; vb]) / INR (length rows)) <->
     occurrences rows [true; false] = occurrences rows [false; true]).
Proof. exact likelihood_swapped_iff. Qed.
Print Assumptions C63_other_axis_order_refuted.

Example C63_instance : "a"%string <> "b"%string /\ [[true; false]] <> ([] : list (list bool)) /\
  occurrences [[true; false]] [true; false] <> occurrences [[true; false]] [false; true].
Proof. repeat split; discriminate. Qed.

(** C63: and without both dictionaries of dimensions it always fails. *)
Theorem C63_dims_required_refuted :
  forall (V P : Type) (veqb : V -> V -> bool) (p0 : P) (spec vals : odict (sval V)) prob vd sd,
  vd = None \/ sd = None -> exists e, slice_by_keyvals veqb p0 spec vals prob vd sd = Err e.
Proof. exact @slice_needs_dims. Qed.
Print Assumptions C63_dims_required_refuted.
