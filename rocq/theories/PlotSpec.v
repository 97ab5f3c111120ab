(** Vocabulary for plots. *)
From Coq Require Import List Reals Ascii.
From Verif Require Import BaryModel EdgeModel.
Import List ListNotations.
Open Scope R_scope.

(** The sampled points of some edges *)
Definition sampled (es : list edge) (z : pt) : Prop := exists e s, In e es /\ In s (e_smp e) /\ z = sx s.
(** The smallest interval that holds [f z] for all [z] *)
Definition tight (P : pt -> Prop) (f : pt -> R) (a b : R) : Prop :=
  (forall z, P z -> a <= f z <= b) /\ (exists z, P z /\ f z = a) /\ (exists z, P z /\ f z = b).
(** The smallest interval that holds all numbers of some lists *)
Definition encloses (ls : list (list R)) (a b : R) : Prop :=
  (forall l x, In l ls -> In x l -> a <= x <= b) /\ (exists l, In l ls /\ In a l) /\ (exists l, In l ls /\ In b l).
(** The samples [e1] of the edge [e], along the boundary of the cell [z] *)
Definition along (z : BinInt.Z) (e e1 : edge) : edge := if BinInt.Z.eqb (e_pos e) z then e1 else reverse_orientation e1.
