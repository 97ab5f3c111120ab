(** Triangles: orientation and the exact affine nodal functions. *)
From Coq Require Import Reals.
From Verif Require Import PolySpec BaryModel.
Open Scope R_scope.

(** Twice the signed area of the triangle (z0,z1,z2): positive when counterclockwise. *)
Definition cross3 (z0 z1 z2 : pt) : R :=
  (fst z1 - fst z0) * (snd z2 - snd z0) - (snd z1 - snd z0) * (fst z2 - fst z0).

(** A coefficient the library keeps exactly. *)
Definition sig (c : R) : Prop := c = 0 \/ tol <= Rabs c.

(** Every number the construction of the j-th function stores is kept exactly. *)
Definition bary_sig (h : R) (zm z zp : pt) : Prop :=
  let dy := snd zm - snd zp in
  let dx := fst zm - fst zp in
  sig (fst z) /\ sig (snd z) /\ sig dx /\ sig dy /\ sig (fst z * dy) /\ sig (snd z * dx) /\
  sig (snd z * dx - fst z * dy) /\ sig (dx / h) /\ sig (dy / h) /\
  sig ((snd z * dx - fst z * dy) / h) /\ sig (1 - (snd z * dx - fst z * dy) / h).

(** Error allowed at (x,y) for a triangle with altitude product h and side (dx,dy):
    eleven dropped coefficients below 1e-12. *)
Definition bary_err (h dx dy x y : R) : R :=
  tol * ((Rabs dx + Rabs dy + 2 * Rabs x + 2 * Rabs y + 3) / Rabs h + Rabs x + Rabs y + 2).
