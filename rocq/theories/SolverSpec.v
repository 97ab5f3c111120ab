(** Specification vocabulary for assembled systems. *)
From Coq Require Import List ZArith Reals Bool.
Import List ListNotations.
Open Scope R_scope.

Fixpoint Sum (n : nat) (f : nat -> R) : R := match n with O => 0 | S n => Sum n f + f n end.
Definition pick (b : bool) (x : R) : R := if b then x else 0.
Definition is_at (l : list Z) (a : nat) (i : Z) : bool := match nth_error l a with Some g => Z.eqb g i | None => false end.
(** [n] cells; the local functions of cell [c] have the global indices [g c]. The entry (i, j) sums
    the local values over cells and pairs of local functions with these indices. *)
Definition assembled (n : nat) (g : nat -> list Z) (val : nat -> nat -> nat -> R) (i j : Z) : R :=
  Sum n (fun c => Sum (List.length (g c)) (fun a => Sum (List.length (g c)) (fun b => pick (andb (is_at (g c) a i) (is_at (g c) b j)) (val c a b)))).
Definition assembled_load (n : nat) (g : nat -> list Z) (load : nat -> nat -> R) (i : Z) : R :=
  Sum n (fun c => Sum (List.length (g c)) (fun a => pick (is_at (g c) a i) (load c a))).
(** Values for unordered pairs: the earlier function is the first argument *)
Definition upper (val : nat -> nat -> nat -> R) (c a b : nat) : R := val c (Nat.min a b) (Nat.max a b).
(** How often the index occurs among the functions of a cell *)
Definition occurrences (l : list Z) (i : Z) : nat := count_occ Z.eq_dec l i.
(** [x] solves the equations of a matrix with rows 0..n-1 *)
Definition solves (n : nat) (A : Z -> Z -> R) (b : Z -> R) (x : list R) : Prop :=
  List.length x = n /\ forall i, (i < n)%nat -> Sum n (fun j => A (Z.of_nat i) (Z.of_nat j) * nth j x 0) = b (Z.of_nat i).
