(** Lemmas about what a summation of samples collects. *)
From Coq Require Import Reals Bool Arith List.
From Verif Require Import Base Num RNumLemmas PScales SPModel.
Import ListNotations.

Lemma collect_all {D Sc : Type} (l : list (opqrstuv (D := D) (Sc := Sc))) ds :
  Forall2 (fun x d => x_u x <> VFalse /\ x_v x = Some d) l ds -> collect_verdicts l = ds.
Proof.
  induction 1 as [|x d l ds [Hu Hv] _ IH]; [reflexivity|]. unfold collect_verdicts in *. cbn. rewrite IH, Hv.
  destruct (x_u x); [reflexivity|congruence|reflexivity].
Qed.

Lemma collect_skips {D Sc : Type} (l m : list (opqrstuv (D := D) (Sc := Sc))) x :
  x_u x = VFalse -> collect_verdicts (l ++ x :: m) = collect_verdicts (l ++ m).
Proof. intros H. unfold collect_verdicts. rewrite !flat_map_app. cbn. rewrite H. reflexivity. Qed.

Lemma update_never_false (s : option R) (t : R) : metropolis_update s t <> VFalse.
Proof. destruct s as [x|]; unfold metropolis_update; [destruct (n_leb t x)|]; congruence. Qed.
