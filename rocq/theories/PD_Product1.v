(** What product rejects. *)
From Coq Require Import Ascii String ZArith Reals Lra Bool Arith Lia Permutation List.
From Verif Require Import Base Num Tensor TensorBcast OdLemmas TensorLemmas RNumLemmas PScales Names Names_Spec
  Names_Proofs Distr PDModel PDUtils PD_Spec PD_Product_Spec PD_Make PD_Sums PD_Valid.
Import ListNotations.

Section Dup.
Context {F : Fmt R}.

Lemma counted_iff p k v : od_get (p_vals p) k = Some v -> (counted p k <-> isunitsetint v = true).
Proof.
  intros G. unfold counted. rewrite G. split.
  - intros (z & E). injection E as ->. reflexivity.
  - destruct v as [| |l| |]; try discriminate. destruct l as [|[] [|? ?]]; try discriminate. intros _. eauto.
Qed.

Definition flags_of (p : pd R) (keys : list string) (s : list bool) : Prop :=
  Forall2 (fun k b => exists v, od_get (p_vals p) k = Some v /\ isunitsetint v = b) keys s.

Lemma flags_res p keys s : map_res (fun k => let! v := od_getR (p_vals p) k in Ok (isunitsetint v)) keys = Ok s ->
  flags_of p keys s.
Proof.
  intros H. apply map_res_ok in H. induction H as [|k b keys s H1 H2 IH]; constructor; [|exact IH].
  unfold od_getR in H1. destruct (od_get (p_vals p) k); [|discriminate]. injection H1 as <-. eauto.
Qed.

Lemma dup_scan_some args M C ms s : M <> [] ->
  (match ms with Some s => existsb (fun b => b) s = true | None => args <> [] end) ->
  dup_scan args (Some M) (Some C) ms = Ok (Some s) ->
  (match ms with Some s' => s' = s | None => existsb (fun b => b) s = true end) /\
  forall p, In p args -> od_keys (p_marg p) = M /\ od_keys (p_cond p) = C /\ flags_of p M s.
Proof.
  revert ms. induction args as [|a args IH]; intros ms NM HM H; cbn in H.
  - destruct ms; [|contradiction]. injection H as ->. split; [reflexivity|]. intros p [].
  - destruct (list_eqb String.eqb M (od_keys (p_marg a))) eqn:E1; cbn [negb] in H; [|discriminate].
    destruct (list_eqb String.eqb C (od_keys (p_cond a))) eqn:E2; cbn [negb] in H; [|discriminate].
    apply list_eqb_str in E1. apply list_eqb_str in E2. rewrite <- E1, <- E2 in H.
    destruct M as [|m M']; [contradiction|].
    destruct (map_res _ (m :: M')) as [are|] eqn:EF; cbn [bind] in H; [|discriminate].
    apply flags_res in EF. destruct ms as [s'|].
    + destruct (list_eqb Bool.eqb s' are) eqn:E3; [|discriminate]. apply list_eqb_bool in E3. subst are.
      destruct (IH (Some s') NM HM H) as [Q1 Q2]. split; [exact Q1|]. subst s'. intros p [<-|I]; auto.
    + destruct (existsb (fun b => b) are) eqn:E3; [|discriminate].
      destruct (IH (Some are) NM E3 H) as [Q1 Q2]. subst are. split; [exact E3|]. intros p [<-|I]; auto.
Qed.

Lemma dup_scan_ok args s : args <> [] -> dup_scan args None None None = Ok (Some s) ->
  (exists p, In p args /\ od_keys (p_marg p) = []) \/ repetitions args.
Proof.
  destruct args as [|a args]; [contradiction|]. intros _ H. cbn in H.
  destruct (od_keys (p_marg a)) as [|m M'] eqn:EM; [left; exists a; split; [left; reflexivity|exact EM]|]. right.
  destruct (map_res _ (m :: M')) as [are|] eqn:EF; cbn [bind] in H; [|discriminate].
  apply flags_res in EF. destruct (existsb (fun b => b) are) eqn:E3; [|discriminate].
  assert (NM : m :: M' <> []) by discriminate.
  destruct (dup_scan_some args (m :: M') (od_keys (p_cond a)) (Some are) s NM E3 H) as [<- Q].
  assert (Q' : forall p, In p (a :: args) -> od_keys (p_marg p) = m :: M' /\ od_keys (p_cond p) = od_keys (p_cond a) /\ flags_of p (m :: M') are).
  { intros p [<-|I]; auto. }
  clear H Q EF. exists (m :: M'), (od_keys (p_cond a)). split; [intros p I; apply Q' in I; tauto|].
  assert (FL : forall p k b l r, In p (a :: args) -> m :: M' = l ++ k :: r -> nth_error are (length l) = Some b -> (counted p k <-> b = true)).
  { intros p k b l r I E N. destruct (Q' p I) as (_ & _ & Fl). rewrite E in Fl.
    apply Forall2_app_inv_l in Fl. destruct Fl as (s1 & s2 & F1 & F2 & ->).
    apply Forall2_length in F1. rewrite nth_error_app2 in N by lia. replace (length l - length s1) with 0 in N by lia.
    inversion F2 as [|? b' ? ? (v & G1 & G2)]; subst. injection N as N. rewrite (counted_iff p k v G1), N. reflexivity. }
  assert (LEN : length are = length (m :: M')).
  { destruct (Q' a) as (_ & _ & Fl); [left; reflexivity|]. apply Forall2_length in Fl. auto. }
  split.
  - intros p q k Ip Iq K. apply in_split in K. destruct K as (l & r & E).
    destruct (nth_error are (length l)) as [b|] eqn:N.
    + rewrite (FL p k b l r Ip E N), (FL q k b l r Iq E N). reflexivity.
    + apply nth_error_None in N. rewrite LEN, E, app_length in N. cbn in N. lia.
  - apply existsb_exists in E3. destruct E3 as (b & I & ->). apply In_nth_error in I. destruct I as (i & N).
    assert (Hi : i < length (m :: M')) by (rewrite <- LEN; apply nth_error_Some; congruence).
    destruct (nth_error (m :: M') i) as [k|] eqn:Nk; [|apply nth_error_None in Nk; lia].
    exists k. split; [eapply nth_error_In; eauto|]. intros p Ip.
    destruct (nth_error_split _ _ Nk) as (l & r & E & <-).
    rewrite (FL p k true l r Ip E N). reflexivity.
Qed.


Lemma dup_same : forall args (M : list string) C ms s, dup_scan args (Some M) (Some C) ms = Ok (Some s) ->
  forall p : pd R, In p args -> od_keys (p_marg p) = M.
Proof.
  induction args as [|a args IH]; intros M C ms s H p I; [destruct I|]. cbn in H.
      destruct (list_eqb String.eqb M (od_keys (p_marg a))) eqn:E1; cbn [negb] in H; [|discriminate].
      destruct (list_eqb String.eqb C (od_keys (p_cond a))) eqn:E2; cbn [negb] in H; [|discriminate].
      apply list_eqb_str in E1. apply list_eqb_str in E2. rewrite <- E1, <- E2 in H.
      assert (X : exists ms', dup_scan args (Some M) (Some C) ms' = Ok (Some s)).
      { destruct M as [|m M']; [eauto|]. destruct (map_res _ (m :: M')) as [are|]; cbn [bind] in H; [|discriminate].
        destruct ms as [s'|]; [destruct (list_eqb Bool.eqb s' are)|destruct (existsb _ are)]; try discriminate; eauto. }
      destruct X as (ms' & X). destruct I as [<-|I]; [auto|]. exact (IH M C ms' s X p I). 
Qed.

Lemma dup_same0 args s : dup_scan args None None None = Ok (Some s) ->
  forall p q : pd R, In p args -> In q args -> od_keys (p_marg p) = od_keys (p_marg q).
Proof.
  destruct args as [|a0 rest]; [intros _ p q []|]. intros DS. cbn in DS.
  assert (X : exists ms', dup_scan rest (Some (od_keys (p_marg a0))) (Some (od_keys (p_cond a0))) ms' = Ok (Some s)).
  { destruct (od_keys (p_marg a0)) as [|m M']; [eauto|]. destruct (map_res _ (m :: M')) as [are|]; cbn [bind] in DS; [|discriminate].
    destruct (existsb _ are); try discriminate; eauto. }
  destruct X as (ms' & X). pose proof (dup_same _ _ _ _ _ X) as Q.
  assert (Q' : forall q, In q (a0 :: rest) -> od_keys (p_marg q) = od_keys (p_marg a0)) by (intros q [<-|J]; auto).
  intros p q Ip Iq. rewrite (Q' p Ip), (Q' q Iq). reflexivity.
Qed.

Lemma product_repeated args given (r : option (pd R)) l1 l2 l3 p1 p2 k :
  args = l1 ++ p1 :: l2 ++ p2 :: l3 -> In k (od_keys (p_marg p1)) -> In k (od_keys (p_marg p2)) ->
  product args given = Ok r -> repetitions args.
Proof.
  intros E K1 K2 H. unfold product in H. destruct args as [|a0 rest] eqn:EA; [destruct l1; discriminate|]. rewrite <- EA in *.
  destruct (product_pscale _ _) as [psc|]; cbn [bind] in H; [|discriminate].
  destruct (map_res (fun a => p_probR a) args) as [probs|]; cbn [bind] in H; [|discriminate].
  destruct (nodup_str (flat_map (fun a => od_keys (p_marg a)) args)) eqn:ND.
  - exfalso. apply nodup_str_iff in ND. rewrite E, flat_map_app in ND. cbn [flat_map] in ND.
    rewrite flat_map_app in ND. cbn [flat_map] in ND.
    apply nodup_app_iff in ND. destruct ND as (_ & ND & _). apply nodup_app_iff in ND. destruct ND as (_ & _ & ND).
    apply (ND k K1). apply in_or_app. right. apply in_or_app. left. exact K2.
  - destruct (dup_scan args None None None) as [[s|]|] eqn:DS; cbn [bind] in H; try discriminate.
    destruct (dup_scan_ok args s) as [(p & I & EM)|R]; [rewrite EA; discriminate|exact DS| |exact R].
    exfalso. assert (I1 : In p1 args) by (rewrite E; apply in_elt).
    rewrite (dup_same0 args s DS p1 p I1 I), EM in K1. exact K1.
Qed.

(** *** conditions *)
Lemma isclose_R x y : isclose x y = true <-> (Rabs (x - y) <= / 100000000 + / 100000 * Rabs y)%R.
Proof.
  unfold isclose. rewrite Rleb_iff, !n_abs_R. rn. change (@n_ofZ R RNum) with IZR. split; intros H; lra.
Qed.

Lemma differ_not l m : differ l m -> allclose l m <> Ok true.
Proof.
  intros [(i & x & y & N1 & N2 & D)|(D1 & D2 & D3)] H; unfold allclose in H.
  - assert (NC : isclose x y = true -> False) by (intros C; apply isclose_R in C; lra).
    destruct (length l =? length m) eqn:E.
    + injection H as H. clear E. revert i m N1 N2 H. induction l as [|x' l IH]; intros [|i] [|y' m] N1 N2 H; cbn in *; try discriminate.
      * injection N1 as ->. injection N2 as ->. apply andb_true_iff in H. tauto.
      * apply andb_true_iff in H. eapply IH; eauto. tauto.
    + destruct l as [|x0 [|x1 l]]; destruct m as [|y0 [|y1 m]]; try discriminate; try (destruct i; discriminate).
      * injection H as H. destruct i as [|i]; [|destruct i; discriminate]. injection N1 as ->.
        change (forallb (isclose x) (y0 :: y1 :: m) = true) in H. rewrite forallb_forall in H. apply NC. apply H. eapply nth_error_In; eauto.
      * injection H as H. destruct i as [|i]; [|destruct i; discriminate]. injection N2 as ->.
        change (forallb (fun x => isclose x y) (x0 :: x1 :: l) = true) in H. rewrite forallb_forall in H. apply NC.
        apply (H x). eapply nth_error_In; eauto.
  - apply Nat.eqb_neq in D1. rewrite D1 in H. destruct l as [|x0 [|x1 l]]; destruct m as [|y0 [|y1 m]]; cbn in *; try discriminate; lia.
Qed.

(** The values seen for k are those of the first argument holding it. *)
Definition checked (c2m : list string) (args : list (pd R)) (seen : odict (list R)) : Prop :=
  forall k, In k c2m ->
   match od_get seen k with
   | None => forall p, In p args -> od_get (p_vals p) k = None
   | Some l => exists l1 p l2 v, args = l1 ++ p :: l2 /\ (forall r, In r l1 -> od_get (p_vals r) k = None) /\
       od_get (p_vals p) k = Some v /\ l = raveled_value v /\
       forall q w, In q l2 -> od_get (p_vals q) k = Some w -> allclose l (raveled_value w) = Ok true
   end.

Definition see (arg : pd R) (seen : odict (list R)) (name : string) : result (odict (list R)) :=
  match od_get (p_vals arg) name with
  | None => Ok seen
  | Some v =>
      match od_get seen name with
      | None => Ok (od_set seen name (raveled_value v))
      | Some w =>
          let! ok := allclose w (raveled_value v) in
          if ok then Ok seen else Err ValueError
      end
  end.

Definition same_seen (seen seen' : odict (list R)) (k : string) : Prop := od_get seen' k = od_get seen k.

(** One argument: a key seen is compared, a key not seen is set. *)
Lemma see_fold arg names : forall seen seen', fold_res (see arg) names seen = Ok seen' ->
  forall k, (~ In k names -> od_get seen' k = od_get seen k) /\
    match od_get (p_vals arg) k with
    | None => od_get seen' k = od_get seen k
    | Some v => match od_get seen k with
                | Some l => od_get seen' k = Some l /\ (In k names -> allclose l (raveled_value v) = Ok true)
                | None => In k names -> od_get seen' k = Some (raveled_value v)
                end
    end.
Proof.
  induction names as [|n names IH]; intros seen seen' H k; cbn in H.
  - injection H as ->. split; [reflexivity|]. destruct (od_get (p_vals arg) k); [|reflexivity].
    destruct (od_get seen' k); [split; [reflexivity|intros []]|intros []].
  - destruct (see arg seen n) as [s1|] eqn:E; cbn [bind] in H; [|discriminate].
    specialize (IH s1 seen' H k). destruct IH as [I1 I2]. unfold see in E.
    destruct (String.eqb_spec k n) as [<-|NE].
    + destruct (od_get (p_vals arg) k) as [v|] eqn:G.
      * destruct (od_get seen k) as [l|] eqn:Gs.
        -- destruct (allclose l (raveled_value v)) as [[|]|] eqn:AC; cbn [bind] in E; try discriminate. injection E as <-.
           rewrite Gs in I2. destruct I2 as [I2 _]. split; [intros N; exfalso; apply N; left; reflexivity|]. auto.
        -- injection E as <-. rewrite od_get_set_eq in I2. split; [intros N; exfalso; apply N; left; reflexivity|]. tauto.
      * injection E as <-. split; [intros N; exfalso; apply N; left; reflexivity|]. exact I2.
    + assert (Es : od_get s1 k = od_get seen k).
      { destruct (od_get (p_vals arg) n) as [v|]; [|injection E as <-; reflexivity].
        destruct (od_get seen n) as [l|].
        - destruct (allclose l (raveled_value v)) as [[|]|]; cbn [bind] in E; try discriminate. injection E as <-. reflexivity.
        - injection E as <-. apply od_get_set_ne. auto. }
      rewrite Es in *. split; [intros N; apply I1; intros C; apply N; right; exact C|].
      destruct (od_get (p_vals arg) k); [|exact I2]. destruct (od_get seen k).
      * destruct I2 as [I2 I3]. split; [exact I2|]. intros [C|C]; [congruence|auto].
      * intros [C|C]; [congruence|auto].
Qed.

Lemma check_conds_ok cn c2m pc (args : list (pd R)) seen : length cn = length args ->
  check_conds cn c2m pc args = Ok seen -> checked c2m args seen.
Proof.
  intros L H. unfold check_conds in H.
  assert (G : forall l s s', fold_res (fun (seen : odict (list R)) (ac : pd R * list string) =>
              let '(arg, cn) := ac in
              let cond_set := filter (fun c => negb (mem_str c c2m)) cn in
              let! _ := assert_ (match cond_set with [] => true | _ => seteq_str pc cond_set end) in
              fold_res (see arg) c2m seen) l s = Ok s' ->
     forall pre, checked c2m pre s -> checked c2m (pre ++ map fst l) s').
  { induction l as [|[arg c] l IH]; intros s s' E pre Hp; cbn [fold_res map fst] in *.
    - injection E as ->. rewrite app_nil_r. exact Hp.
    - destruct (assert_ _); cbn [bind] in E; [|discriminate].
      destruct (fold_res (see arg) c2m s) as [s1|] eqn:E1; cbn [bind] in E; [|discriminate].
      specialize (IH s1 s' E (pre ++ [arg])). rewrite <- app_assoc in IH. apply IH. clear IH E.
      intros k K. specialize (Hp k K). destruct (see_fold arg c2m s s1 E1 k) as [_ Q].
      destruct (od_get (p_vals arg) k) as [v|] eqn:Gv.
      + destruct (od_get s k) as [l0|] eqn:Gs.
        * destruct Q as [Q1 Q2]. rewrite Q1. destruct Hp as (l1 & p & l2 & v0 & -> & P1 & P2 & P3 & P4).
          exists l1, p, (l2 ++ [arg]), v0. rewrite <- app_assoc. cbn [app]. do 4 (split; [auto; fail|]).
          intros q w I Gw. apply in_app_iff in I. destruct I as [I|[<-|[]]]; [eauto|]. assert (w = v) by congruence. subst. auto.
        * rewrite (Q K). exists pre, arg, [], v. do 4 (split; [auto; fail|]). intros q w [].
      + rewrite Q. destruct (od_get s k) as [l0|] eqn:Gs.
        * destruct Hp as (l1 & p & l2 & v0 & -> & P1 & P2 & P3 & P4).
          exists l1, p, (l2 ++ [arg]), v0. rewrite <- app_assoc. cbn [app]. do 4 (split; [auto; fail|]).
          intros q w I Gw. apply in_app_iff in I. destruct I as [I|[<-|[]]]; [eauto|]. congruence.
        * intros p I. apply in_app_iff in I. destruct I as [I|[<-|[]]]; auto. }
  specialize (G (combine args cn) [] seen H []).
  assert (M : map fst (combine args cn) = args).
  { clear -L. revert cn L. induction args as [|a l IH]; intros [|c cn] L; cbn in *; try discriminate; [reflexivity|].
    f_equal. apply IH. lia. }
  rewrite M in G. apply G. intros k K. cbn. intros p [].
Qed.

Lemma checked_first c2m args seen k p q v w : checked c2m args seen -> In k c2m -> first_two args k p q ->
  od_get (p_vals p) k = Some v -> od_get (p_vals q) k = Some w -> allclose (raveled_value v) (raveled_value w) = Ok true.
Proof.
  intros H K (l1 & l2 & l3 & E & N) Gv Gw. specialize (H k K). destruct (od_get seen k) as [l|].
  - destruct H as (m1 & p' & m2 & v' & E' & N' & G' & -> & C).
    assert (X : m1 = l1 /\ p' = p /\ m2 = l2 ++ q :: l3).
    { rewrite E in E'. clear E C. revert m1 E' N'. induction l1 as [|a l1 IH]; intros [|b m1] E' N'; cbn in E'.
      - injection E' as -> ->. auto.
      - injection E' as <- E'. rewrite (N' p) in Gv by (left; reflexivity). discriminate.
      - injection E' as -> E'. rewrite (N p') in G' by (left; reflexivity). discriminate.
      - injection E' as -> E'. destruct (IH (fun r I => N r (or_intror I)) m1 E' (fun r I => N' r (or_intror I))) as (-> & -> & ->). auto. }
    destruct X as (-> & -> & ->). assert (v' = v) by congruence. subst v'. apply (C q w); [apply in_elt|exact Gw].
  - rewrite (H p) in Gv; [discriminate|]. rewrite E. apply in_elt.
Qed.

Lemma od_get_vals {A} (d : odict A) k e : od_get d k = Some e -> In e (od_vals d).
Proof. intros G. apply od_get_in in G. apply in_map_iff. exists (k, e). auto. Qed.

Lemma product_mismatch args given (r : option (pd R)) k p q c m L v w :
  first_two args k p q -> In c args -> In m args -> valid_pd c L -> In k L ->
  od_get (p_cond c) k = Some k -> od_get (p_marg m) k = Some k ->
  od_get (p_vals p) k = Some v -> od_get (p_vals q) k = Some w -> differ (raveled_value v) (raveled_value w) ->
  product args given <> Ok r.
Proof.
  intros FT Ic Im V KL Ec Em Gv Gw D H. apply (differ_not _ _ D).
  unfold product in H. destruct args as [|a0 rest] eqn:EA; [destruct Ic|]. rewrite <- EA in *.
  destruct (product_pscale _ _) as [psc|]; cbn [bind] in H; [|discriminate].
  destruct (map_res (fun a => p_probR a) args) as [probs|]; cbn [bind] in H; [|discriminate].
  assert (MS : (if nodup_str (flat_map (fun a => od_keys (p_marg a)) args) then Ok None
     else let! ms := dup_scan args None None None in match ms with Some s => Ok (Some s) | None => Err AssertionError end) = Ok None
     \/ exists e, (if nodup_str (flat_map (fun a => od_keys (p_marg a)) args) then Ok None
     else let! ms := dup_scan args None None None in match ms with Some s => Ok (Some s) | None => Err AssertionError end) = Err e).
  { destruct (nodup_str _); [left; reflexivity|]. destruct (dup_scan args None None None) as [[s|]|] eqn:DS; cbn [bind]; [|right; eauto|right; eauto].
    exfalso. apply od_get_some_key in Ec. apply od_get_some_key in Em.
    pose proof (vp_marg_cond c L V) as (_ & _ & DJ). apply (DJ k); [|exact Ec].
    rewrite (dup_same0 args s DS c m Ic Im). exact Em. }
  destruct MS as [MS|(e & MS)]; rewrite MS in H; cbn [bind] in H; [|discriminate].
  assert (NF : forallb (fun b : bool => b) (map (fun a => match p_issing a with Some true => true | _ => false end) args) = false).
  { apply not_true_is_false. intros C. rewrite forallb_forall in C.
    specialize (C (match p_issing c with Some true => true | _ => false end)).
    assert (X : (match p_issing c with Some true => true | _ => false end) = true) by (apply C; apply in_map_iff; exists c; auto).
    unfold p_issing in X. rewrite (vp_issing _ _ V) in X. destruct (forallb (fun kv : string * value R => issingleton (snd kv)) (p_vals c)) eqn:E; [|discriminate].
    destruct (vp_axis c _ V k KL) as (a & G & _). pose proof G as G'. apply od_get_in in G.
    rewrite forallb_forall in E. apply E in G. cbn [snd] in G.
    destruct (vp_tsize c _ V k a KL G') as (_ & S & _).
    rewrite arr_not_singleton in G by exact S. discriminate. }
  rewrite NF in H. cbn [andb orb] in H.
  destruct (check_conds _ _ _ _) as [seen|] eqn:CC; cbn [bind] in H; [|discriminate]. clear H.
  apply check_conds_ok in CC; [|apply map_length].
  eapply checked_first; eauto. apply filter_In. split.
  - apply in_concat. exists (od_vals (p_cond c)). split; [apply in_map_iff; exists c; auto|]. eapply od_get_vals; eauto.
  - apply mem_str_iff. apply in_concat. exists (od_vals (p_marg m)). split; [apply in_map_iff; exists m; auto|]. eapply od_get_vals; eauto.
Qed.
Lemma product_overlap args given l1 l2 l3 p1 p2 k :
  args = l1 ++ p1 :: l2 ++ p2 :: l3 -> In k (od_keys (p_marg p1)) -> In k (od_keys (p_marg p2)) ->
  ~ repetitions args -> exists e, product args given = Err e.
Proof.
  intros E K1 K2 NR. destruct (product args given) as [r|e] eqn:H; [|eauto].
  destruct NR. eapply product_repeated; eauto.
Qed.

Lemma product_differ args given k p q c m L v w :
  first_two args k p q -> In c args -> In m args -> valid_pd c L -> In k L ->
  od_get (p_cond c) k = Some k -> od_get (p_marg m) k = Some k ->
  od_get (p_vals p) k = Some v -> od_get (p_vals q) k = Some w -> differ (raveled_value v) (raveled_value w) ->
  exists e, product args given = Err e.
Proof.
  intros. destruct (product args given) as [r|e] eqn:E; [|eauto].
  exfalso. eapply (@product_mismatch args given r k p q c m L v w); eauto.
Qed.

End Dup.
