(** Specification vocabulary for planar meshes. *)
From Coq Require Import List ZArith Reals Bool Sorted.
From Verif Require Import PyBase VertModel EdgeModel ContourModel.
Import List ListNotations.

(** The elements of a list in the order of their first occurrence *)
Fixpoint firsts (l : list nat) : list nat :=
  match l with [] => [] | x :: l' => x :: filter (fun y => negb (Nat.eqb y x)) (firsts l') end.
(** An edge with a cell on at least one side, with cells on both sides, with only one *)
Definition embedded (e : edge) : Prop := (0 <= e_pos e \/ 0 <= e_neg e)%Z.
Definition one_sided (e : edge) : Prop := (e_pos e < 0 \/ e_neg e < 0)%Z.
Definition borders (z : Z) (e : edge) : Prop := e_pos e = z \/ e_neg e = z.
Definition ends_at (v : Z) (e : edge) : Prop := vidx (e_anchor e) = v \/ vidx (e_endpnt e) = v.
Definition increasing (l : list Z) : Prop := StronglySorted Z.lt l.
(** [a] is a subsequence of [b]: the same order, some elements left out *)
Inductive subseq {A} : list A -> list A -> Prop :=
| sub_nil : subseq [] []
| sub_skip x a b : subseq a b -> subseq a (x :: b)
| sub_keep x a b : subseq a b -> subseq (x :: a) (x :: b).
