(** Property theorems about the names, symbols and Deltas of variables (C216-C220).
    Here [symbol] makes a symbol of sympy from a name and assumptions, [members] gives
    its attributes, [truth] tells if an expression counts as true, [own] are the
    attributes of variables themselves. *)
From Coq Require Import String ZArith Reals Lra Bool Arith List.
From Verif Require Import Base Num RNumLemmas VariableModel Var_Spec IdentModel Ident_Spec Ident_Proofs Ident_Move.
Import ListNotations.
Local Open Scope R_scope.

Section Thms.
Context {S M : Type} (symbol : string -> list string -> S) (members : S -> odict M) (truth : S -> bool) (own : list string).

(** C216: a variable can be made with a name exactly if it begins with a letter, goes on
    with letters, digits and underscores, and is no keyword; renaming asks the same. *)
Theorem C216_accepted_iff : forall (w : world S M) n,
  (forall stoch, raised symbol members own w (New n stoch) = None <-> fit n) /\
  (forall i v, the_var w i v -> (raised symbol members own w (Rename i n) = None <-> fit n)).
Proof. exact (fun w n => conj (new_accepted symbol members own w n) (fun i v => @rename_accepted S M symbol members own w i v n)). Qed.

(** C216: an accepted renaming gives the name, a new class of Deltas, the key of the
    next value for random variables, and nothing else. *)
Theorem C216_renamed : forall (w : world S M) i v n, the_var w i v -> fit n ->
  exists v', the_var (happen symbol members own w (Rename i n)) i v' /\
    i_name v' = n /\ i_type v' = w_next w /\ i_prime v' = (if i_stoch v then Some (n ++ "'")%string else None) /\
    get_item truth v' = get_item truth v.
Proof. exact (@rename_done S M symbol members truth own). Qed.

(** C216 (false of the code): a refused renaming leaves the variable with the refused
    name, and with the Deltas and the key of the next value of the former one. *)
Theorem C216_refused_refuted : forall (w : world S M) i v n, the_var w i v -> ~ fit n ->
  raised symbol members own w (Rename i n) = Some ValueError /\
  exists v', the_var (happen symbol members own w (Rename i n)) i v' /\ i_name v' = n /\ i_type v' = i_type v /\ i_prime v' = i_prime v.
Proof. exact (@rename_refused S M symbol members own). Qed.

(** C217: a new variable has the symbol of its name, and set_icon() gives it that of its
    name at the time, a name or symbol given that one, for variables without expression. *)
Theorem C217_symbol : forall (w : world S M),
  (forall n stoch, fit n -> exists v, the_var (happen symbol members own w (New n stoch)) (length (w_vars w)) v /\
     i_name v = n /\ get_item truth v = ISym (symbol n [])) /\
  (forall i v a, the_var w i v -> plain truth v -> exists v', the_var (happen symbol members own w (SetIcon i a)) i v' /\ i_name v' = i_name v /\
     match a with
     | IANone => get_item truth v' = ISym (symbol (i_name v) []) /\ raised symbol members own w (SetIcon i a) = None
     | IAStr n l => get_item truth v' = ISym (symbol n l) /\ raised symbol members own w (SetIcon i a) = None
     | IASym s => get_item truth v' = ISym s /\ raised symbol members own w (SetIcon i a) = None
     | IAOther id => get_item truth v' = IJunk id /\ raised symbol members own w (SetIcon i a) = Some TypeError
     end).
Proof.
  exact (fun w => conj (fun n stoch F => ex_intro _ _ (conj (new_var_at symbol members own w stoch F) (conj eq_refl eq_refl)))
                       (@icon_set S M symbol members truth own w)).
Qed.

(** C217 (false of the code): however often a variable is renamed, its symbol stays. *)
Theorem C217_renamed_refuted : forall (w : world S M) i v h, the_var w i v ->
  (forall e, In e h -> ~ (sets_icon i e \/ sets_dexpr i e)) ->
  exists v', the_var (history symbol members own w h) i v' /\ get_item truth v' = get_item truth v.
Proof. exact (@item_stays S M symbol members truth own). Qed.

(** C218 (false of the code): the attributes of a variable taken from its symbol stay
    those of its first symbol, whatever symbols it is given later. *)
Theorem C218_first_refuted : forall (w : world S M) n stoch h m x, fit n ->
  NoDup (od_keys (members (symbol n []))) -> ~ In m own -> od_get (members (symbol n [])) m = Some x ->
  exists v, the_var (history symbol members own w (New n stoch :: h)) (length (w_vars w)) v /\ get_attr v m = Some x.
Proof. exact (@attr_first S M symbol members own). Qed.

(** C218: attributes of variables themselves are never taken from a symbol. *)
Theorem C218_own : forall (w : world S M) n stoch h m, fit n -> In m own ->
  exists v, the_var (history symbol members own w (New n stoch :: h)) (length (w_vars w)) v /\ get_attr v m = None.
Proof. exact (@attr_own S M symbol members own). Qed.

(** C219: a deterministic variable given an expression that counts as true shows it
    until the next one is given, whatever happens in between; but reading dexpr gives
    the name (false of the code). *)
Theorem C219_expression : forall (w : world S M) i v x h, the_var w i v -> i_stoch v = false -> truth x = true ->
  (forall e, In e h -> ~ sets_dexpr i e) ->
  exists v', the_var (history symbol members own w (SetDexpr i (Some x) :: h)) i v' /\ get_item truth v' = ISym x /\ get_dexpr v' = i_name v'.
Proof. exact (@dexpr_item S M symbol members truth own). Qed.

(** C219: None, or an expression that counts as false, takes the expression back: the
    variable shows its symbol until the next expression is given. *)
Theorem C219_withdrawn : forall (w : world S M) i v (x : option S) h, the_var w i v -> (forall e, x = Some e -> truth e = false) ->
  (forall e, In e h -> ~ sets_dexpr i e) ->
  exists v', the_var (history symbol members own w (SetDexpr i x :: h)) i v' /\ get_item truth v' = i_icon v'.
Proof. exact (@dexpr_back S M symbol members truth own). Qed.

(** C219: random variables never show an expression. *)
Theorem C219_random : forall (w : world S M) n h, fit n ->
  exists v, the_var (history symbol members own w (New n true :: h)) (length (w_vars w)) v /\ get_item truth v = i_icon v.
Proof. exact (@stoch_item S M symbol members truth own). Qed.

(** C220: a Delta made by variable i in any program is a Delta of variable j later
    exactly if j is i and i was not renamed since. *)
Theorem C220_own_iff : forall (h1 h2 : list (step S)) i v j u (x : pyval R),
  the_var (history symbol members own start h1) i v ->
  the_var (history symbol members own (history symbol members own start h1) h2) j u ->
  (taken_as u (make_delta v x) = DDelta x <-> j = i /\ forall e, In e h2 -> ~ renames_well i e) /\
  (taken_as u (make_delta v x) = DDelta x \/ taken_as u (make_delta v x) = DTup [x]).
Proof. exact (@delta_own S M symbol members own R). Qed.

(** C220: it then moves the values of the variable by what it holds, whatever is drawn. *)
Theorem C220_moves : forall (h1 h2 : list (step S)) i j v u,
  the_var (history symbol members own start h1) i v ->
  the_var (history symbol members own (history symbol members own start h1) h2) j u ->
  j = i -> (forall e, In e h2 -> ~ renames_well i e) ->
  (forall e0 e1 d0 b scalar xs (x : R) r,
   apply_delta (interval e0 e1) None (mkDC d0 false b) scalar (map PF xs) (taken_as u (make_delta v (PF x))) (Some false) r =
   Ok (map (fun y => PF (y + x)) xs)) /\
  (forall vals f dc scalar bs k r,
   apply_delta (T := R) (discrete VBool vals) f dc scalar (map PB bs) (taken_as u (make_delta v (PI k))) (Some false) r =
   Ok (map (fun b => PB (xorb b (Z.odd k))) bs)).
Proof. exact (moves_own symbol members own). Qed.

(** C220 (false of the code): a Delta made before a renaming, or by another variable, is
    no error and moves the values by a random sign of what it holds, and flips bools
    unless the number drawn is above one half and below it. *)
Theorem C220_outdated_refuted : forall (h1 h2 : list (step S)) i j v u,
  the_var (history symbol members own start h1) i v ->
  the_var (history symbol members own (history symbol members own start h1) h2) j u ->
  (j <> i \/ exists e, In e h2 /\ renames_well i e) ->
  (forall e0 e1 d0 b scalar xs (x : R) r,
   apply_delta (interval e0 e1) None (mkDC d0 false b) scalar (map PF xs) (taken_as u (make_delta v (PF x))) (Some false) r =
   Ok (map (fun y => PF (if Rlt_dec (1 / 2) (d_unif r 0) then y + x else y - x)) xs)) /\
  (forall vals f dc scalar bs k r,
   apply_delta (T := R) (discrete VBool vals) f dc scalar (map PB bs) (taken_as u (make_delta v (PI k))) (Some false) r =
   Ok (map (fun b => PB (if Rlt_dec (1 / 2) (d_unif r 0) then
                           if Rlt_dec (d_unif r 0) (IZR k) then b else negb b else negb b)) bs)).
Proof. exact (moves_other symbol members own). Qed.
End Thms.
Print Assumptions C216_accepted_iff.
Print Assumptions C216_renamed.
Print Assumptions C216_refused_refuted.
Print Assumptions C217_symbol.
Print Assumptions C217_renamed_refuted.
Print Assumptions C218_first_refuted.
Print Assumptions C219_expression.
Print Assumptions C218_own.
Print Assumptions C219_withdrawn.
Print Assumptions C219_random.
Print Assumptions C220_own_iff.
Print Assumptions C220_moves.
Print Assumptions C220_outdated_refuted.

(** A symbol is its name with its assumptions, which are its attributes. *)
Definition ex_symbol (n : string) (l : list string) : string * list string := (n, l).
Definition ex_members (s : string * list string) : odict bool :=
  [("is_symbol"%string, true); ("is_positive"%string, mem_str "positive" (snd s))].
Definition ex_truth (s : string * list string) : bool := true.
Definition ex_own : list string := ["name"%string; "vset"%string].
Definition ex_h1 : list (step (string * list string)) := [New "x" false; New "y" true].
Definition ex_h2 : list (step (string * list string)) := [SetIcon 0 (IAStr "x" ["positive"%string]); Rename 0 "z"; Rename 1 "2y"].

Example C216_fit : fit "x_1" /\ ~ fit "2y" /\ ~ fit "_x" /\ ~ fit "class" /\ ~ fit "".
Proof. repeat split; rewrite <- fit_iff; vm_compute; congruence. Qed.

Example C216_present : exists v, the_var (history ex_symbol ex_members ex_own start ex_h1) 1 v.
Proof. eexists. reflexivity. Qed.

Example C217_there : exists v, the_var (history ex_symbol ex_members ex_own start ex_h1) 0 v /\ plain ex_truth v /\ i_name v = "x"%string /\
  exists v', the_var (history ex_symbol ex_members ex_own start (ex_h1 ++ [Rename 0 "z"])%list) 0 v' /\ i_name v' = "z"%string /\
    get_item ex_truth v' = ISym ("x"%string, []).
Proof. eexists. split; [reflexivity|]. split; [intros e Q; discriminate|]. split; [reflexivity|]. eexists. split; [reflexivity|]. split; reflexivity. Qed.

Example C218_there : NoDup (od_keys (ex_members (ex_symbol "x" []))) /\ ~ In "is_positive"%string ex_own /\
  od_get (ex_members (ex_symbol "x" [])) "is_positive" = Some false /\ od_get (ex_members (ex_symbol "x" ["positive"%string])) "is_positive" = Some true /\
  exists v, the_var (history ex_symbol ex_members ex_own start (ex_h1 ++ ex_h2)%list) 0 v /\ get_attr v "is_positive" = Some false /\
    get_item ex_truth v = ISym ("x"%string, ["positive"%string]).
Proof.
  split; [repeat constructor; cbn; intuition congruence|]. split; [cbn; intuition congruence|]. split; [reflexivity|]. split; [reflexivity|].
  eexists. split; [reflexivity|]. split; reflexivity.
Qed.

Example C219_there : exists v, the_var (history ex_symbol ex_members ex_own start ex_h1) 0 v /\ i_stoch v = false /\ ex_truth (ex_symbol "x" []) = true.
Proof. eexists. split; [reflexivity|]. split; reflexivity. Qed.

(** x is renamed well, the renaming of y is refused, so the Deltas of y stay its own. *)
Example C220_there : (exists v, the_var (history ex_symbol ex_members ex_own start ex_h1) 0 v) /\
  (exists e, In e ex_h2 /\ renames_well 0 e) /\ (forall e, In e ex_h2 -> ~ renames_well 1 e).
Proof.
  split; [eexists; reflexivity|]. split; [exists (Rename 0 "z"); split; [right; left; reflexivity|exists "z"%string; split; [reflexivity|apply fit_iff; reflexivity]]|].
  intros e I (n & -> & F). apply fit_iff in F. cbn in I. destruct I as [I|[I|[I|[]]]]; try discriminate I. injection I as <-. discriminate F.
Qed.

Example C219_back : exists v, the_var (history ex_symbol ex_members ex_own start [New "x" false; SetDexpr 0 (Some (ex_symbol "e" [])); SetDexpr 0 None; SetIcon 0 (IAStr "y" [])]) 0 v /\
  get_item ex_truth v = ISym (ex_symbol "y" []).
Proof. eexists. split; reflexivity. Qed.
