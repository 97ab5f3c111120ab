(** Trigonometric polynomials, independent of the transforms. *)
From Coq Require Import List ZArith Reals Bool.
From Verif Require Import EdgeSpec.
Import List ListNotations.
Open Scope R_scope.

(** Terms a cos(2 pi m t / L) + b sin(2 pi m t / L) *)
Definition tterm : Type := (Z * (R * R))%type.
Definition tval_at (L t : R) (q : tterm) : R :=
  let '(m, (a, b)) := q in a * cos (2 * PI * IZR m / L * t) + b * sin (2 * PI * IZR m / L * t).
Definition trig (L : R) (T : list tterm) (t : R) : R := sum_list (map (tval_at L t) T).
(** What N samples resolve: frequencies below N/2 and, for even N, the cosine of frequency N/2 *)
Definition resolved1 (N : nat) (q : tterm) : Prop :=
  let '(m, (_, b)) := q in (2 * Z.abs m < Z.of_nat N)%Z \/ (2 * Z.abs m = Z.of_nat N)%Z /\ b = 0.
Definition resolved (N : nat) (T : list tterm) : Prop := Forall (resolved1 N) T.
(** N uniform samples of one period *)
Definition samples (L : R) (N : nat) (g : R -> R) : list R := map (fun j => g (L * INR j / INR N)) (seq 0 N).
(** The mean, and for an even number of samples the amplitude of (1, -1, 1, -1, ...) *)
Definition mean (f : list R) : R := sum_list f / INR (length f).
Definition alternating (f : list R) : R :=
  if Nat.even (length f) then sum_list (map (fun j => (- 1) ^ j * nth j f 0) (seq 0 (length f))) / INR (length f) else 0.
(** The oscillating part that is neither constant nor alternating *)
Definition inner1 (N : nat) (q : tterm) : bool := (negb (fst q =? 0) && (2 * Z.abs (fst q) <? Z.of_nat N))%Z.
