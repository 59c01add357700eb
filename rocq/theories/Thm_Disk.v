(** Files with distributions and auxiliary data, written or left half written
    (C209, C210, C211, C212, C213, C214). *)
From Coq Require Import String Ascii ZArith Reals List Permutation.
From Verif Require Import Base Num Tensor PScales Names_Spec Distr PDModel PDUtils PDFile PD_Spec PD_File_Spec PD_File PD_Examples
  DiskModel Disk_Spec Disk_Proofs Disk_Reads Disk_Ex.
Import ListNotations.

(** C209: writing to one path leaves the files under all others as they were,
    whether it raises or not. *)
Theorem C209_other_files :
  forall (T : Type) (N : Num T) (F : Fmt T) (heap : list (live T)) (refs : list nat) (aux : list (akey * aval T))
    (k k' : disk T) (path : string) (h : list (live T)) (e : option exn) (path' : string),
  present heap refs -> save heap refs aux k path = (h, k', e) -> path' <> path ->
  od_get k' path' = od_get k path'.
Proof. exact (fun T _ _ heap refs aux k k' path h e path' => @save_others T heap refs aux k path h k' e path'). Qed.
Print Assumptions C209_other_files.

(** C209: the file under the path is replaced as a whole: what it is afterwards
    does not depend on the disk, and its groups are exactly those given. *)
Theorem C209_replaced :
  forall (T : Type) (N : Num T) (F : Fmt T) (heap : list (live T)) (refs : list nat) (aux : list (akey * aval T)) (path : string),
  present heap refs -> well_formed aux -> NoDup (aux_names aux) ->
  exists h f e, (forall k, save heap refs aux k path = (h, od_set k path f, e)) /\
  (forall n, In n (od_keys f) ->
     (exists i l, In i refs /\ nth_error heap i = Some l /\ l_short l = n) \/ In n (aux_names aux)) /\
  (e = None -> forall n,
     (exists i l, In i refs /\ nth_error heap i = Some l /\ l_short l = n) \/ In n (aux_names aux) -> In n (od_keys f)).
Proof. exact (fun T _ _ => @save_replaces T). Qed.
Print Assumptions C209_replaced.

Example C209_hypotheses_met :
  present [good_live; text_live] [0] /\ well_formed one_array /\ NoDup (aux_names one_array) /\
  snd (save [good_live; text_live] [0] one_array old_disk "f") = None.
Proof.
  split; [intros i [<-|[]]; cbn; auto|]. split; [apply one_array_ok|]. split; [apply one_array_ok|]. reflexivity.
Qed.

(** C210: auxiliary data that are not as asked for are refused before anything is
    changed, on the disk or in the distributions. *)
Theorem C210_refused_first :
  forall (T : Type) (N : Num T) (F : Fmt T) (heap : list (live T)) (refs : list nat) (aux : list (akey * aval T))
    (k : disk T) (path : string),
  present heap refs -> ~ well_formed aux -> save heap refs aux k path = (heap, k, Some AssertionError).
Proof. exact (fun T _ _ => @save_refused T). Qed.
Print Assumptions C210_refused_first.

(** C210 refuted: apart from that, a call raises exactly if a distribution has a
    value that cannot be stored or no probabilities, or auxiliary data have the
    name of a distribution or text in their arrays. *)
Theorem C210_raises_iff :
  forall (T : Type) (N : Num T) (F : Fmt T) (heap : list (live T)) (refs : list nat) (aux : list (akey * aval T))
    (k k' : disk T) (path : string) (h : list (live T)) (e : option exn),
  present heap refs -> well_formed aux -> NoDup (aux_names aux) -> save heap refs aux k path = (h, k', e) ->
  (e <> None <-> (exists i l, last_of_name heap refs i /\ nth_error heap i = Some l /\ broken l) \/
                 (exists i l, In i refs /\ nth_error heap i = Some l /\ In (l_short l) (aux_names aux)) \/ has_text aux).
Proof. exact (fun T _ _ heap refs aux k k' path h e => @save_raises T heap refs aux k path h k' e). Qed.
Print Assumptions C210_raises_iff.

(** C210 refuted: and whenever it then raises, what the file held is gone: no group
    other than of the distributions and auxiliary data given is left. *)
Theorem C210_lost_refuted :
  forall (T : Type) (N : Num T) (F : Fmt T) (heap : list (live T)) (refs : list nat) (aux : list (akey * aval T))
    (k k' : disk T) (path : string) (h : list (live T)) (e : exn),
  present heap refs -> well_formed aux -> NoDup (aux_names aux) -> save heap refs aux k path = (h, k', Some e) ->
  exists f, od_get k' path = Some f /\
  forall n, In n (od_keys f) ->
    (exists i l, In i refs /\ nth_error heap i = Some l /\ l_short l = n) \/ In n (aux_names aux).
Proof. exact (fun T _ _ heap refs aux k k' path h e => @save_lost T heap refs aux k path h k' e). Qed.
Print Assumptions C210_lost_refuted.

Example C210_hypotheses_met :
  present [good_live; text_live] [0; 1] /\ ~ well_formed bad_name /\
  well_formed one_array /\ NoDup (aux_names one_array) /\
  (exists h k', save [good_live; text_live] [0; 1] one_array old_disk "f" = (h, k', Some TypeError) /\
     option_map (@od_keys _) (od_get old_disk "f") = Some ["old"%string] /\
     option_map (@od_keys _) (od_get k' "f") = Some ["a"; "s"]%string).
Proof.
  split; [exact ex_present|]. split; [exact bad_name_ok|]. split; [apply one_array_ok|]. split; [apply one_array_ok|].
  do 2 eexists. split; [reflexivity|]. split; reflexivity.
Qed.

(** C211 refuted: distributions ps are written before one, q, of which a column can
    be stored but a later value cannot.  The call raises, read_dist of the file it
    leaves raises AssertionError, and so none of ps can be read; yet each of ps was
    changed as by a successful call (None in its dims became 'None'). *)
Theorem C211_unreadable_refuted :
  forall (F : Fmt R) (ps rest : list (pd R)) (q : pd R) (axes : pd R -> list string) (k : disk R) (path : string),
  (forall p, In p ps -> valid_pd p (axes p) /\ storable p /\ plain_keys p) -> valid_pd q (axes q) -> plain_keys q ->
  (forall p, In p rest -> valid_pd p (axes p)) ->
  NoDup (map (fun p => (od_keys (p_marg p), od_keys (p_cond p))) (ps ++ q :: rest)) -> breaks_after_column q ->
  exists changed f e,
    save (map live_of (ps ++ q :: rest)) (seq 0 (length (ps ++ q :: rest))) [] k path =
      (changed ++ map live_of (q :: rest), od_set k path f, Some e) /\
    load f = Err AssertionError /\ Forall2 marked (map live_of ps) changed.
Proof. exact @left_and_changed. Qed.
Print Assumptions C211_unreadable_refuted.

Example C211_hypotheses_met :
  exists p q : pd R,
  (forall r, In r [p] -> @valid_pd fmt_ex r ["x"; "y"; "z"]%string /\ storable r /\ plain_keys r) /\
  @valid_pd fmt_ex q ["x"]%string /\ plain_keys q /\
  NoDup (map (fun p => (od_keys (p_marg p), od_keys (p_cond p))) ([p] ++ q :: [])) /\ breaks_after_column q /\ has_scalar p.
Proof. exact ex_c211. Qed.

(** C212: distributions and auxiliary data written together are both read back: the
    distributions as in C111, and under every name exactly the arrays given. *)
Theorem C212_data_round_trip :
  forall (F : Fmt R) (ps : list (pd R)) (axes : pd R -> list string) (data : odict (odict (tensor R))) (k : disk R) (path : string),
  (forall p, In p ps -> valid_pd p (axes p) /\ storable p /\ plain_keys p) ->
  NoDup (map (fun p => (od_keys (p_marg p), od_keys (p_cond p))) ps) ->
  dictionary data -> (forall n, In n (od_keys data) -> occurs " "%char n) ->
  exists h f ps' qs ser extra,
    save (map live_of ps) (seq 0 (length ps)) (given data) k path = (h, od_set k path f, None) /\
    read_file f = Ok (ser, extra) /\ same_data data extra /\
    load f = Ok (map LPd qs) /\ Permutation ps ps' /\ Forall2 (fun p q => read_back p q (axes p)) ps' qs.
Proof. exact @saved_with_data. Qed.
Print Assumptions C212_data_round_trip.

Example C212_hypotheses_met :
  exists p q : pd R,
  (forall r, In r [p; q] ->
      @valid_pd fmt_ex r (if String.eqb (short_name r) "x,y" then ["y"; "x"]%string else ["x"; "y"; "z"]%string) /\
      storable r /\ plain_keys r) /\
  NoDup (map (fun p => (od_keys (p_marg p), od_keys (p_cond p))) [p; q]) /\
  dictionary [("my notes", [("t", of_list 0%R [1%R; 2%R]); ("a", of_list 0%R [3%R])]); ("a b", [])]%string /\
  (forall n, In n (od_keys (A := odict (tensor R))
     [("my notes", [("t", of_list 0%R [1%R; 2%R]); ("a", of_list 0%R [3%R])]); ("a b", [])]%string) -> occurs " "%char n).
Proof. exact ex_c212. Qed.

(** C213 refuted: auxiliary data can be read though none was written: a
    distribution with a space in a variable's name comes back as auxiliary data
    under its short name, its arrays and probabilities among them, and not as a
    distribution. *)
Theorem C213_becomes_data_refuted :
  forall (F : Fmt R) (p : pd R) (L : list string) (k : disk R) (path : string),
  valid_pd p L -> storable p -> (exists v, In v (p_keylist p) /\ occurs " "%char v) ->
  exists h f d, save [live_of p] [0] [] k path = (h, od_set k path f, None) /\
  load f = Ok [] /\ read_file f = Ok ([], [(short_name p, d)]) /\
  od_get d "prob"%string = option_map ADArr (p_prob p) /\
  forall v a, In (v, VArr a) (p_vals p) -> od_get d v = Some (ADArr a).
Proof. exact @become_data. Qed.
Print Assumptions C213_becomes_data_refuted.

Example C213_hypotheses_met :
  exists p : pd R, @valid_pd fmt_ex p ["my var"]%string /\ storable p /\
  (exists v, In v (p_keylist p) /\ occurs " "%char v) /\ exists a, In ("my var"%string, VArr a) (p_vals p).
Proof. exact ex_c213. Qed.

(** C214: writing the same distributions and data again, to any path of any disk,
    gives the same file, raises the same and changes no distribution further. *)
Theorem C214_repeatable :
  forall (T : Type) (N : Num T) (F : Fmt T) (heap : list (live T)) (refs : list nat) (aux : list (akey * aval T))
    (k k' : disk T) (path : string) (h : list (live T)) (e : option exn),
  present heap refs -> save heap refs aux k path = (h, k', e) ->
  forall k2 path2, exists k2', save h refs aux k2 path2 = (h, k2', e) /\
    (well_formed aux -> od_get k2' path2 = od_get k' path /\ od_get k' path <> None).
Proof. exact (fun T _ _ heap refs aux k k' path h e => @save_again T heap refs aux k path h k' e). Qed.
Print Assumptions C214_repeatable.

Example C214_hypotheses_met :
  present [good_live; text_live] [0; 1] /\ well_formed one_array /\
  exists h k' e, save [good_live; text_live] [0; 1] one_array old_disk "f" = (h, k', e) /\ h <> [good_live; text_live].
Proof.
  split; [exact ex_present|]. split; [apply one_array_ok|]. do 3 eexists. split; [reflexivity|]. discriminate.
Qed.
