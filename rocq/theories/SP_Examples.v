(** A concrete process for the examples of Thm_SP.v: a random walk on the
    naturals whose score is the new position and whose threshold is the step. *)
From Coq Require Import Arith Bool Lia List.
From Verif Require Import Base SPModel SP_Spec.
Import ListNotations.

Definition eng0 : engine nat nat :=
  mkEngine (fun r => Ok r)
           (fun s r => Ok match s with FromLast q => q + r | _ => r end)
           (fun s r => Ok match s with FromLast q => q + r | _ => r end)
           (fun d => Ok (2 * d))
           (fun _ => Ok None).

Definition cfg0 : config nat nat nat :=
  mkConfig true false false
    (Some (fun x => Ok (f_q x)))
    (Some (fun r => Ok (Some (2 * r))))
    (Some (fun s t => match s, t with
                      | Some a, Some b => Ok (if b <=? a then VTrue else VNone)
                      | _, _ => Ok VTrue
                      end)).

Lemma eng0_total : engine_total eng0 cfg0.
Proof.
  repeat split; cbn; eauto; intros; try (inversion H; subst; eauto).
  destruct s, t; eauto.
Qed.

(** Two samplers, their steps interleaved. *)
Definition pre0 : list (event nat) := [ENew None].
Definition post0 : list (event nat) := [EStep 1 3; EStep 0 5; EStep 1 4; EStep 0 1; EStep 1 2].

(** A process with a proposal only and a score that needs a predecessor. *)
Definition cfg1 : config nat nat nat :=
  mkConfig false true false
    (Some (fun x => Ok (match f_o x with None => None | Some _ => Some 0 end)))
    (Some (fun r => Ok (Some 1)))
    (Some (fun s t => match s with None => Ok VTrue | Some _ => Ok VNone end)).
