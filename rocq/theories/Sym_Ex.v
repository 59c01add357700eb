(** Examples for the properties of symbolic expressions. *)
From Coq Require Import String ZArith QArith Bool Arith Lia List Sorting.Sorted Sorting.Permutation.
From Verif Require Import Base OdLemmas Num Tensor Names SymModel Sym_Spec Sym_Parse.
Import ListNotations.
Local Close Scope Q_scope.

(** An argsort. *)
Fixpoint insert_at (l : list Z) (i : nat) (m : list nat) : list nat :=
  match m with
  | [] => [i]
  | j :: m' => if (nth i l 0 <=? nth j l 0)%Z then i :: m else j :: insert_at l i m'
  end.
Definition argsort_ex (l : list Z) : list nat := fold_right (insert_at l) [] (seq 0 (length l)).

Lemma insert_perm l i m : Permutation (insert_at l i m) (i :: m).
Proof.
  induction m as [|j m IH]; cbn; auto. destruct (nth i l 0 <=? nth j l 0)%Z; auto.
  rewrite IH. constructor.
Qed.
Lemma insert_sorted l i m : StronglySorted (fun i j => (nth i l 0 <= nth j l 0)%Z) m ->
  StronglySorted (fun i j => (nth i l 0 <= nth j l 0)%Z) (insert_at l i m).
Proof.
  induction m as [|j m IH]; intros H; cbn; [repeat constructor|].
  apply StronglySorted_inv in H. destruct H as [H1 H2].
  destruct (nth i l 0 <=? nth j l 0)%Z eqn:E.
  - apply Z.leb_le in E. constructor; [constructor; auto|]. constructor; auto.
    eapply Forall_impl; [|exact H2]. cbn. intros; lia.
  - apply Z.leb_gt in E. constructor; auto.
    apply Forall_forall. intros x Hx. apply (Permutation_in _ (insert_perm l i m)) in Hx.
    rewrite Forall_forall in H2. destruct Hx as [<-|Hx]; [lia|auto].
Qed.
Lemma argsort_ex_sorting : sorting argsort_ex.
Proof.
  intros l. unfold argsort_ex. generalize (seq 0 (length l)) as s. induction s as [|i s [P S]]; cbn; [split; constructor|].
  split; [rewrite insert_perm; auto|apply insert_sorted; auto].
Qed.

(** The expression x - y, with or without a function for arrays. *)
Definition minus (np : bool) : sexpr Q :=
  mkSE [("x", true); ("y", true)]%string (fun g => Qminus (g "x"%string) (g "y"%string)) np [].
Lemma minus_determined np : determined (minus np).
Proof. intros g h H. cbn. rewrite (H "x"%string), (H "y"%string); cbn; auto. Qed.
Lemma minus_readable np : readable (minus np).
Proof. repeat constructor. Qed.

(** A column of three values and a row of two. *)
Definition col : tensor Q := mkT [3; 1] (fun i => nth (hd 0 i) [10; 20; 30]%Q 0%Q).
Definition row : tensor Q := mkT [1; 2] (fun i => nth (nth 1 i 0) [1; 2]%Q 0%Q).
Lemma col_along : along col 0.
Proof. split; [cbn; lia|split; [cbn; lia|intros i H; lia]]. Qed.
Lemma row_along : along row 1.
Proof. split; [cbn; lia|split; [cbn; lia|intros [|i] H; cbn; lia]]. Qed.
