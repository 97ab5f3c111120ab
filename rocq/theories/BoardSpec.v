(** Independent statements for C82: meshes of cells with rectangles or circles around them and circular holes. *)
From Coq Require Import List ZArith Reals String.
From Verif Require Import PyBase BaryModel VertModel EdgeModel EdgeSpec ContourModel CellModel MeshModel ConvSpec.
Import ListNotations.
Open Scope R_scope.

(** The points of a rectangle or a circle *)
Definition outline_curve (l : outline) (q : pt) : Prop :=
  match l with
  | Box x0 x1 y0 y1 _ _ _ _ => x0 <= fst q <= x1 /\ (snd q = y0 \/ snd q = y1) \/ y0 <= snd q <= y1 /\ (fst q = x0 \/ fst q = x1)
  | Round c r _ => (fst q - fst c) ^ 2 + (snd q - snd c) ^ 2 = r ^ 2
  end.
Definition apart (l l' : outline) : Prop := forall q, outline_curve l q -> outline_curve l' q -> False.

(** The boundary of cell [z] is [outer] and the circles [rims], and no two of these curves meet. Circles have the trapezoidal
    rule and at least the tolerance as radius. *)
Definition fit (H : heap) (z : Z) (inside : bool) (l : outline) : Prop :=
  bounded_by H z inside l /\ match l with Box _ _ _ _ _ _ _ _ => inside = true | Round _ r i => TOL <= r /\ forall e, nth_error H i = Some e -> e_qtype e = "trap"%string end.
Definition shaped (H : heap) (z : Z) (outer : outline) (rims : list outline) : Prop :=
  fit H z true outer /\ Forall (fit H z false) rims /\ ForallOrdPairs apart (outer :: rims).
