(** Writing distributions to files and reading them back (C32, C111, C112, C113). *)
From Coq Require Import String Ascii ZArith Reals List Permutation Sorted.
From Verif Require Import Base Num Tensor PScales Names_Spec Distr PDModel PDUtils PDFile PD_Spec PD_Examples
  PD_File_Spec PD_File PD_FileThm.
Import ListNotations.

(** C32: what writing does to objects.  Of the distributions given, the last of
    each name is changed: None in its dims becomes the string 'None'.  Everything
    else stays. *)
Theorem C32_effect_of_writing :
  forall (T : Type) (N : Num T) (F : Fmt T) (heap heap' : list (live T)) (refs : list nat) (f : odict (group T)),
  write_dist heap refs = Ok (heap', f) ->
  length heap' = length heap /\
  forall i l, nth_error heap i = Some l -> exists l', nth_error heap' i = Some l' /\
    l_name l' = l_name l /\ l_short l' = l_short l /\ l_vals l' = l_vals l /\ l_prob l' = l_prob l /\
    l_pscale l' = l_pscale l /\ od_keys (l_dims l') = od_keys (l_dims l) /\
    (~ last_of_name heap refs i -> l' = l) /\
    (last_of_name heap refs i -> forall k, od_get (l_dims l') k =
       match od_get (l_dims l) k with Some PyNone => Some (PyStr "None") | d => d end).
Proof. exact @write_effect. Qed.
Print Assumptions C32_effect_of_writing.

(** C32 refuted: writing a distribution leaves it as it was exactly when it has no
    scalar variable. *)
Theorem C32_unchanged_iff :
  forall (F : Fmt R) (p : pd R) (L : list string), valid_pd p L -> storable p ->
  exists l' f, write_dist [live_of p] [0] = Ok ([l'], f) /\ (l' = live_of p <-> ~ has_scalar p).
Proof. exact @write_unchanged_iff. Qed.
Print Assumptions C32_unchanged_iff.

(** C32 refuted: once written, a distribution with a scalar variable is unusable for
    anything that builds a distribution on its dims (rescaled, sorted, division,
    deserialise): TypeError, where it worked before. *)
Theorem C32_written_is_unusable_refuted :
  forall (F : Fmt R) (p : pd R) (L : list string), valid_pd p L -> storable p -> has_scalar p ->
  (exists q, rebuild (live_of p) (p_name p) (p_prob p) (spec_of (p_pscale p)) = Ok q) /\
  exists l' f, write_dist [live_of p] [0] = Ok ([l'], f) /\
  forall name prob ps, rebuild l' name prob ps = Err TypeError.
Proof. exact @written_unusable. Qed.
Print Assumptions C32_written_is_unusable_refuted.

(** C111: distributions of which no two have the same variables are all read back,
    each with its variables, roles, values, axes, probabilities and scale.  They
    come in the order of their names, not in the order written, and the variables
    of each in the order of its dims. *)
Theorem C111_file_round_trip :
  forall (F : Fmt R) (ps : list (pd R)) (axes : pd R -> list string),
  (forall p, In p ps -> valid_pd p (axes p) /\ storable p /\ plain_keys p) ->
  NoDup (map (fun p => (od_keys (p_marg p), od_keys (p_cond p))) ps) ->
  exists heap' f ps' qs,
    write_dist (map live_of ps) (seq 0 (length ps)) = Ok (heap', f) /\ read_dist f = Ok qs /\
    Permutation ps ps' /\ Sorted (fun p q => String.leb (short_name p) (short_name q) = true) ps' /\
    Forall2 (fun p q => read_back p q (axes p)) ps' qs.
Proof. exact @saved_and_loaded. Qed.
Print Assumptions C111_file_round_trip.

Example C32_C111_hypotheses_met :
  exists p q : pd R, ex_make = Ok p /\ ext_make = Ok q /\
  (forall r, In r [p; q] ->
      @valid_pd fmt_ex r (if String.eqb (short_name r) "x,y" then ["y"; "x"]%string else ["x"; "y"; "z"]%string) /\
      storable r /\ plain_keys r) /\
  NoDup (map (fun p => (od_keys (p_marg p), od_keys (p_cond p))) [p; q]) /\ has_scalar p.
Proof. exact ex_file. Qed.

(** C112 refuted: a distribution with a variable called order can be written, but
    reading the file raises KeyError. *)
Theorem C112_order_unreadable_refuted :
  forall (F : Fmt R) (p : pd R) (L : list string), valid_pd p L -> storable p -> In "order"%string (p_keylist p) ->
  (forall k, In k (p_keylist p) -> ~ occurs " "%char k) ->
  exists heap' f, write_dist [live_of p] [0] = Ok (heap', f) /\ read_dist f = Err KeyError.
Proof. exact @order_unreadable. Qed.
Print Assumptions C112_order_unreadable_refuted.

Example C112_hypotheses_met :
  exists p : pd R, @valid_pd fmt_ex p ["order"]%string /\ storable p /\ In "order"%string (p_keylist p) /\
  (forall k, In k (p_keylist p) -> ~ occurs " "%char k).
Proof. exact ex_order. Qed.

(** C113 refuted: everything written is read back exactly when no variable has a
    space in its name; other distributions are left out without error. *)
Theorem C113_spaces_lost_iff :
  forall (F : Fmt R) (ps : list (pd R)) (axes : pd R -> list string),
  (forall p, In p ps -> valid_pd p (axes p) /\ storable p /\ ~ In "order"%string (p_keylist p)) ->
  NoDup (map (fun p => (od_keys (p_marg p), od_keys (p_cond p))) ps) ->
  exists heap' f qs, write_dist (map live_of ps) (seq 0 (length ps)) = Ok (heap', f) /\ read_dist f = Ok qs /\
    (length qs <= length ps)%nat /\
    (length qs = length ps <-> forall p k, In p ps -> In k (p_keylist p) -> ~ occurs " "%char k).
Proof. exact @spaces_left_out. Qed.
Print Assumptions C113_spaces_lost_iff.

Example C113_hypotheses_met :
  exists p q : pd R,
  (forall r, In r [p; q] -> @valid_pd fmt_ex r (p_keylist r) /\ storable r /\ ~ In "order"%string (p_keylist r)) /\
  NoDup (map (fun p => (od_keys (p_marg p), od_keys (p_cond p))) [p; q]) /\
  p_keylist p = ["my var"]%string /\ p_keylist q = ["x"]%string.
Proof. exact ex_space. Qed.
