(** What files of distributions and auxiliary data should do. *)
From Coq Require Import String Ascii ZArith Reals Bool List.
From Verif Require Import Base Num Tensor PScales Names_Spec Distr PDModel PDUtils PDFile PD_Spec PD_File_Spec DiskModel.
Import ListNotations.

Section Spec.
Context {T : Type}.

(** Values without an HDF5 type: text, objects, and sets of anything but natural
    numbers. *)
Definition unwritable (v : value T) : Prop :=
  match v with
  | VNum _ | VArr _ => False
  | VStr _ | VOther => True
  | VSet l => exists e, In e l /\ forall z, e = SEint z -> (z < 0)%Z
  end.

(** A distribution that cannot be written. *)
Definition broken (l : live T) : Prop :=
  (exists k v, In (k, v) (l_vals l) /\ unwritable v) \/ l_prob l = None.

(** Auxiliary data as the documentation of write_serialised asks for: dictionaries
    of arrays under names with a space. *)
Definition well_formed (aux : list (akey * aval T)) : Prop :=
  forall k v, In (k, v) aux ->
  exists s d, k = AStr s /\ occurs " "%char s /\ v = ADict d /\
  forall k' v', In (k', v') d -> (exists s', k' = AStr s') /\ v' <> ANoArr.

(** Text arrays among auxiliary data. *)
Definition has_text (aux : list (akey * aval T)) : Prop :=
  exists k d k', In (k, ADict d) aux /\ In (k', AText) d.

(** Its names. *)
Definition aux_names (aux : list (akey * aval T)) : list string :=
  flat_map (fun kv => match fst kv with AStr s => [s] | ANoStr => [] end) aux.

(** Dictionaries of dictionaries of arrays, given as such. *)
Definition given (data : odict (odict (tensor T))) : list (akey * aval T) :=
  map (fun nd => (AStr (fst nd), ADict (map (fun kt => (AStr (fst kt), AArr (snd kt))) (snd nd)))) data.

(** Dictionaries in which no key occurs twice. *)
Definition dictionary (data : odict (odict (tensor T))) : Prop :=
  NoDup (od_keys data) /\ forall n d, In (n, d) data -> NoDup (od_keys d).

(** What was read has exactly the arrays given. *)
Definition same_data (data : odict (odict (tensor T))) (read : odict (odict (adata T))) : Prop :=
  forall n, match od_get data n, od_get read n with
            | Some d, Some d' => forall k, od_get d' k = option_map ADArr (od_get d k)
            | None, None => True
            | _, _ => False
            end.

(** A distribution after it was written: None in its dims is the text 'None'. *)
Definition marked (l l' : live T) : Prop :=
  l_name l' = l_name l /\ l_short l' = l_short l /\ l_vals l' = l_vals l /\ l_prob l' = l_prob l /\
  l_pscale l' = l_pscale l /\ od_keys (l_dims l') = od_keys (l_dims l) /\
  forall k, od_get (l_dims l') k =
    match od_get (l_dims l) k with Some PyNone => Some (PyStr "None") | d => d end.

(** Every object is there. *)
Definition present (heap : list (live T)) (refs : list nat) : Prop :=
  forall i, In i refs -> (i < length heap)%nat.

End Spec.

(** q cannot be written: after values that can be, among them a column, comes one
    that cannot. *)
Definition breaks_after_column (q : pd R) : Prop :=
  exists before k v after, p_vals q = before ++ (k, v) :: after /\ unwritable v /\
  (forall k' v', In (k', v') before ->
     match v' with VNum _ | VArr _ => True | VSet [SEint z] => (0 <= z)%Z | _ => False end) /\
  exists k' a, In (k', VArr a) before /\ shape a <> [].
