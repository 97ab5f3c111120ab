(** Vocabulary for edge spaces: weighted sizes, sublists by position, quadratic forms. *)
From Coq Require Import List Reals Sorted.
From Verif Require Import PyBase PolyModel PolySpec BaryModel BarySpec.
Import ListNotations.
Open Scope R_scope.

(** [sub] consists of the entries of [l] at strictly increasing positions. *)
Definition sublist_at {A} (idx : list nat) (l sub : list A) : Prop :=
  StronglySorted lt idx /\ Forall (fun k => (k < length l)%nat) idx /\
  map (nth_error l) idx = map Some sub.

(** The combination a0 l0 + a1 l1 and the difference f - (a0 l0 + a1 l1) are computed without
    dropping a coefficient. *)
Definition correction_kept (f l0 l1 : rpoly) (a0 a1 : R) : Prop :=
  forall a b, sig (coef l0 a b * a0) /\ sig (coef l1 a b * a1) /\
              sig (coef l0 a b * a0 + coef l1 a b * a1) /\
              sig (coef f a b - (coef l0 a b * a0 + coef l1 a b * a1)).

(** Entries of a matrix-vector product and quadratic form, for indices 0..n. *)
Definition mv (n : nat) (M : nat -> nat -> R) (v : nat -> R) (i : nat) : R := sum_f_R0 (fun j => M i j * v j) n.
Definition qf (n : nat) (M : nat -> nat -> R) (v : nat -> R) : R := sum_f_R0 (fun i => v i * mv n M v i) n.
Definition symmetric (M : nat -> nat -> R) : Prop := forall i j, M i j = M j i.
Definition unit_vec (i : nat) : nat -> R := fun j => if Nat.eqb i j then 1 else 0.
