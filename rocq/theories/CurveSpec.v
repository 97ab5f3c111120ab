(** Vocabulary for plane curves. *)
From Coq Require Import Reals.
From Coquelicot Require Import Coquelicot.
From Verif Require Import BaryModel.
Open Scope R_scope.

Definition pt_derive (f : R -> pt) (t : R) (d : pt) : Prop :=
  is_derive (fun s => fst (f s)) t (fst d) /\ is_derive (fun s => snd (f s)) t (snd d).

Definition speed2 (d : pt) : R := fst d * fst d + snd d * snd d.
