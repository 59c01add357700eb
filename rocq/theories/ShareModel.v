(** Model of the arrays that distributions hold their probabilities in: which
    distributions derived from others (probayes/pd.py 136-161, 167-211, 214-295, 320-329,
    333-371, 464-561) hold views of the same array, and what writing d.prob[i] = v does.

    numpy: np.moveaxis and indexing by slices and integers give views, unless a scalar
    comes out; np.sum, np.prod, np.copy, arithmetic and indexing by arrays give new arrays;
    rescale (pscales.py 100-131) returns its argument itself if the scales are the same.

    Arrays are of floats (rescale copies others).  Not modelled: the arrays of values,
    which are shared more widely; arrays that the caller keeps; negative indices. *)
From Coq Require Import String ZArith Bool Arith List.
From Verif Require Import Base Num Tensor PScales Names Distr PDModel.
Import ListNotations.

Section Share.
Context {T : Type} {N : Num T} {F : Fmt T}.

(** The array that PD.prob (pd.py 84-102) holds: the buffer it is a view of, and for each of its elements the place in it. *)
Record arr : Type := mkArr { a_buf : nat; a_place : tensor (list nat) }.

Definition heap : Type := list (tensor T).
Definition buffer (h : heap) (b : nat) : tensor T := nth b h (tscalar n0).

(** The values of an array. *)
Definition read (h : heap) (a : arr) : tensor T := tmap (get (buffer h (a_buf a))) (a_place a).

(** A new array. *)
Definition alloc (h : heap) (t : tensor T) : heap * arr :=
  ((h ++ [t])%list, mkArr (length h) (mkT (shape t) (fun idx => idx))).

Definition idx_eqb (i j : list nat) : bool := list_eqb Nat.eqb i j.
Definition within (sh idx : list nat) : bool :=
  (length idx =? length sh) && forallb (fun p => fst p <? snd p) (combine idx sh).

(** numpy's a[idx] = v, with a the array that PD.prob returns; scalars cannot be written to. *)
Definition write (h : heap) (a : arr) (idx : list nat) (v : T) : heap * option exn :=
  match shape (a_place a) with
  | [] => (h, Some TypeError)
  | sh =>
      if within sh idx
      then let t := buffer h (a_buf a) in
           let j := get (a_place a) idx in
           (set_nth (a_buf a) (mkT (shape t) (fun i => if idx_eqb i j then v else get t i)) h, None)
      else (h, Some IndexError)
  end.

(** A distribution and the array of its probabilities (pd.py 84-102). *)
Record held : Type := mkHeld { h_pd : pd T; h_arr : arr }.

Definition with_prob (p : pd T) (t : tensor T) : pd T := mkPD (p_d p) (p_marg p) (p_cond p) (Some t) (p_pscale p).
Definition look (h : heap) (x : held) : pd T := with_prob (h_pd x) (read h (h_arr x)).

(** Methods that return distributions (pd.py 136-371, 464-561): marginalise, marginal,
    conditionalise, rekey, prod, sorted (with the outcome of argsort), rescaled, and calls. *)
Inductive method : Type :=
| Marginalise (ks : list string) | Marginal (ks : list string) | Conditionalise (ks : list string)
| Rekey (m : odict string) | Prod (ks : list string) | Sorted (k : string) (ix : list nat)
| Rescaled (s : pspec T) | Call (values : odict T) (keepdims : bool).

Definition apply (m : method) (p : pd T) : result (pd T) :=
  match m with
  | Marginalise ks => marginalise p ks
  | Marginal ks => marginal p ks
  | Conditionalise ks => conditionalise p ks
  | Rekey m => pd_rekey p m
  | Prod ks => pd_prod p ks
  | Sorted k ix => sorted p k ix
  | Rescaled s => rescaled p s
  | Call values keepdims => call p values keepdims
  end.

(** pd.py 281-295: the places of what conditionalise returns, if it is a view: with the
    scale 1 both calls of rescale return their argument. *)
Definition cond_view (p : pd T) (keys : list string) (pl : tensor (list nat)) : result (option (tensor (list nat))) :=
  let! st := fold_res (cond_step p keys) (p_items p) (mkCS (p_marg p) (p_cond p) [] 0%Z false) in
  let (dims1, dim_max) := lower_dims (c_dims st) in
  let! dims := append_key_dims p keys dims1 dim_max in
  let! (old_dims, new_dims, sum_axes) := cond_axes p keys dims in
  match c_norm st, sum_axes, p_pscale p with
  | false, [], Lin c => if n_eqb c n1 then let! q := moveaxis pl old_dims new_dims in Ok (Some q) else Ok None
  | _, _, _ => Ok None
  end.

(** pd.py 522-560: the places of what a call returns, if it is a view. *)
Definition call_view (p : pd T) (values : odict T) (keepdims : bool) (pl : tensor (list nat)) : result (option (tensor (list nat))) :=
  let! st := fold_res (call_step p values keepdims) (p_items p)
               (mkKS (p_marg p) (p_cond p) (p_dims p) (p_vals p) (repeat IxFull (p_ndim p)) 0%Z) in
  if existsb is_arr (k_slices st) then Ok None
  else let! q := np_index pl (k_slices st) in
       match shape q with [] => Ok None | _ => Ok (Some q) end.

(** The places of the result in the array of p if it is a view of it, else None: rekey
    (pd.py 320-329) and sorted by a scalar pass self.prob on. *)
Definition view (m : method) (p : pd T) (pl : tensor (list nat)) : result (option (tensor (list nat))) :=
  match m with
  | Conditionalise ks => cond_view p ks pl
  | Rekey _ => Ok (Some pl)
  | Sorted k _ => let! dim := od_getR (p_dims p) k in
                  match dim with None => Ok (Some pl) | Some _ => Ok None end
  | Call values keepdims => call_view p values keepdims pl
  | Marginalise _ | Marginal _ | Prod _ | Rescaled _ => Ok None
  end.

(** Call of a method (pd.py 136-371, 464-561), with its effect on arrays. *)
Definition derive (h : heap) (x : held) (m : method) : result (heap * held) :=
  let! q := apply m (look h x) in
  let! v := view m (look h x) (a_place (h_arr x)) in
  match v with
  | Some pl => Ok (h, mkHeld q (mkArr (a_buf (h_arr x)) pl))
  | None => let! t := p_probR q in let (h', a) := alloc h t in Ok (h', mkHeld q a)
  end.

(** Programs: each derivation gives the next distribution, or none if it raises. *)
Inductive step : Type := SDerive (i : nat) (m : method) | SWrite (i : nat) (idx : list nat) (v : T).
Record world : Type := mkWorld { w_heap : heap; w_pds : list (option held) }.

Definition do_step (w : world) (s : step) : world :=
  match s with
  | SDerive i m =>
      match nth_error (w_pds w) i with
      | Some (Some x) =>
          match derive (w_heap w) x m with
          | Ok (h, y) => mkWorld h (w_pds w ++ [Some y])
          | Err _ => mkWorld (w_heap w) (w_pds w ++ [None])
          end
      | _ => mkWorld (w_heap w) (w_pds w ++ [None])
      end
  | SWrite i idx v =>
      match nth_error (w_pds w) i with
      | Some (Some x) => mkWorld (fst (write (w_heap w) (h_arr x) idx v)) (w_pds w)
      | _ => w
      end
  end.
Definition run (w : world) (l : list step) : world := fold_left do_step l w.

(** What distribution i shows. *)
Definition shows (w : world) (i : nat) : option (pd T) :=
  match nth_error (w_pds w) i with Some (Some x) => Some (look (w_heap w) x) | _ => None end.

End Share.
Arguments heap T : clear implicits.
Arguments held T : clear implicits.
Arguments method T : clear implicits.
Arguments step T : clear implicits.
Arguments world T : clear implicits.
