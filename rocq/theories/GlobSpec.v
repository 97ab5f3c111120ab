(** Specification vocabulary for global function spaces. *)
From Coq Require Import List ZArith Bool.
Import List ListNotations.

(** The functions of the global space: bubbles of the cell at position [c], one function for every
    vertex and the functions of every edge *)
Inductive dof : Type := Bubble (c k : Z) | VertexFun (v : Z) | EdgeFun (e k : Z).

(** The functions that exist when there are [ncells] cells with [per] bubbles each, the given
    vertices and edges with [sizes] functions *)
Definition exists_dof (ncells per : Z) (verts sizes : list Z) (d : dof) : Prop :=
  match d with
  | Bubble c k => (0 <= c < ncells /\ 0 <= k < per)%Z
  | VertexFun v => In v verts
  | EdgeFun e k => exists n, (0 <= e)%Z /\ nth_error sizes (Z.to_nat e) = Some n /\ (0 <= k < n)%Z
  end.
(** The cells from which a function is seen: a bubble from its own cell only *)
Definition seen_from (d : dof) (c : Z) : Prop := match d with Bubble c' _ => c = c' | _ => True end.
(** Bubbles of a cell for degree [d]: monomials of degree below [d - 1] *)
Definition bubbles (d : Z) : Z := (d * (d - 1) / 2)%Z.
