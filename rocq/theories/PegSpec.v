(** What a pegboard of [M] rows and [N] columns of square cells should be. *)
From Coq Require Import List ZArith Reals String.
From Verif Require Import PyBase BaryModel QuadModel CurveModel VertModel EdgeModel ContourModel.
Import List ListNotations.
Open Scope R_scope.

(** Row [i] of cells is between heights [i h] and [(i + 1) h]; column [j] likewise in x. *)
Inductive item : Type := Hor (i j : nat) | Ver (i j : nat) | Hole (i j : nat).
Definition present (M N : nat) (holes : bool) (s : item) : Prop :=
  match s with
  | Hor i j => (i <= M /\ j < N)%nat
  | Ver i j => (i < M /\ j <= N)%nat
  | Hole i j => (i < M /\ j < N)%nat /\ holes = true
  end.
Definition spacing (M N : nat) : R := 1 / INR (Nat.max M N).
Definition grid_vert (M N i j : nat) : vert := Vert (spacing M N * INR j) (spacing M N * INR i) (Z.of_nat (i * S N + j)).
Definition centre (M N i j : nat) : vert := Vert (spacing M N * (INR j + 1 / 2)) (spacing M N * (INR i + 1 / 2)) (Z.of_nat (S M * S N + i * N + j)).
Definition square (N i j : nat) : Z := Z.of_nat (i * N + j).
(** The square above and below a horizontal side, to the left and right of a vertical one *)
Definition above (M N i j : nat) : Z := if Nat.ltb i M then square N i j else (-1)%Z.
Definition below (N i j : nat) : Z := match i with O => (-1)%Z | S i' => square N i' j end.
Definition left_of (N i j : nat) : Z := match j with O => (-1)%Z | S j' => square N i j' end.
Definition right_of (N i j : nat) : Z := if Nat.ltb j N then square N i j else (-1)%Z.

(** [e] is the edge object of the item, before it is numbered. The cell to the left of the
    direction of travel is positive. *)
Definition made_for (M N : nat) (radius : R) (s : item) : res edge :=
  match s with
  | Hor i j => mk_edge (grid_vert M N i j) (grid_vert M N i (S j)) (above M N i j) (below N i j) Line "kress" None (0, 2 * PI) []
  | Ver i j => mk_edge (grid_vert M N i j) (grid_vert M N (S i) j) (left_of N i j) (right_of N i j) Line "kress" None (0, 2 * PI) []
  | Hole i j => mk_edge (centre M N i j) (centre M N i j) (Z.of_nat (M * N) + square N i j) (square N i j) Circle "trap" None (0, 2 * PI) [("radius"%string, radius * spacing M N)]
  end.
(** Position in the list of edges *)
Definition place (M N : nat) (s : item) : nat :=
  match s with
  | Hor i j => if Nat.ltb i M then i * S (2 * N) + 2 * j else M * S (2 * N) + j
  | Ver i j => i * S (2 * N) + (if Nat.ltb j N then 2 * j + 1 else 2 * N)
  | Hole i j => M * S (2 * N) + N + i * N + j
  end%nat.
