(** Vocabulary for quadrature: grids, periodic sums, trigonometric polynomials. *)
From Coq Require Import List Reals.
Import ListNotations.
Open Scope R_scope.

(** The uniform grid 0, pi/n, ..., 2 pi. *)
Definition grid (n i : nat) : R := INR i * PI / INR n.

(** f(0) + ... + f(m-1) *)
Fixpoint sum_n (f : nat -> R) (m : nat) : R := match m with O => 0 | S m' => sum_n f m' + f m' end.

(** a_0 + sum_{1 <= k <= m} (a_k cos k t + b_k sin k t) *)
Definition trig (a b : nat -> R) (m : nat) (t : R) : R :=
  a O + sum_n (fun k => a (S k) * cos (INR (S k) * t) + b (S k) * sin (INR (S k) * t)) m.
