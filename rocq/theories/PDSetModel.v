(** Model of assignments to the members of a distribution (probayes/pd.py 47-133,
    probayes/named_dict.py 20-24, probayes/distribution.py 91-192).

    Not modelled: what a refused assignment to dims leaves behind, names that are not
    strings, new keys set as items (d["x"] = v for a variable x that d does not have). *)
From Coq Require Import String ZArith Bool Arith List.
From Verif Require Import Base Num Tensor PScales Names Distr PDModel.
Import ListNotations.

Section PDSet.
Context {T : Type} {N : Num T} {F : Fmt T}.

(** pd.py 87-102: d.prob = t, kept before it is checked. *)
Definition set_prob (p : pd T) (t : option (tensor T)) : pd T * option exn :=
  let q := mkPD (p_d p) (p_marg p) (p_cond p) t (p_pscale p) in
  match check_prob (p_d p) t with Ok _ => (q, None) | Err e => (q, Some e) end.

(** pd.py 76-80: d.pscale = s *)
Definition set_pscale (p : pd T) (s : pspec T) : pd T * option exn :=
  match eval_pscale s with
  | Ok psc => (mkPD (p_d p) (p_marg p) (p_cond p) (p_prob p) psc, None)
  | Err e => (p, Some e)
  end.

Definition with_name (d : dist T) (n : string) : dist T :=
  mkDist n (d_vals d) (d_dims d) (d_ndim d) (d_sizes d) (d_shape d) (d_size d) (d_aresing d) (d_issing d).

(** pd.py 60-64 with named_dict.py 20-24: d.name = n, kept before it is parsed. *)
Definition set_name (p : pd T) (n : string) : pd T * option exn :=
  let d := with_name (p_d p) n in
  match str_margcond n with
  | Ok (m, c) => (mkPD d m c (p_prob p) (p_pscale p), None)
  | Err e => (mkPD d (p_marg p) (p_cond p) (p_prob p) (p_pscale p), Some e)
  end.

(** pd.py 108-133: d.dims = dims for the values d has; probabilities are not looked at. *)
Definition set_dims (p : pd T) (dims : option (odict (option Z))) : result (pd T) :=
  let! d := make_dist (p_name p) (p_vals p) dims in
  let! (m, c) := override_names (combine (d_vals d) (d_aresing d)) (p_marg p, p_cond p) in
  Ok (mkPD (with_name d (margcond_str (od_vals m) (od_vals c))) m c (p_prob p) (p_pscale p)).

(** d[k] = v for a variable of d: only the dictionary changes (class NamedDict is an
    OrderedDict, named_dict.py 7). *)
Definition set_item (p : pd T) (k : string) (v : value T) : pd T :=
  let d := p_d p in
  mkPD (mkDist (d_name d) (od_set (d_vals d) k v) (d_dims d) (d_ndim d) (d_sizes d) (d_shape d) (d_size d)
               (d_aresing d) (d_issing d)) (p_marg p) (p_cond p) (p_prob p) (p_pscale p).

(** Assignments one after another, and what each of them raised. *)
Inductive act : Type := ActProb (t : option (tensor T)) | ActScale (s : pspec T) | ActName (n : string).
Definition act_do (p : pd T) (a : act) : pd T * option exn :=
  match a with
  | ActProb t => set_prob p t
  | ActScale s => set_pscale p s
  | ActName n => set_name p n
  end.
Fixpoint acts_do (p : pd T) (l : list act) : pd T * list (option exn) :=
  match l with
  | [] => (p, [])
  | a :: l => let (q, e) := act_do p a in let (r, es) := acts_do q l in (r, e :: es)
  end.

End PDSet.
Arguments act T : clear implicits.
