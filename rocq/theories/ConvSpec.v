(** Vocabulary for the convergence of integrals (C79): line integrals along smooth curves. *)
From Coq Require Import Reals List String ZArith.
From Coquelicot Require Import Coquelicot.
From Verif Require Import PyBase BaryModel QuadModel CurveModel CurveSpec CurveProps VertModel EdgeModel EdgeSpec.
Open Scope R_scope.

(** The unit normal to the right of a direction *)
Definition normal_of (d : pt) : pt := cw (pt_scale (/ norm d) d).
(** The line integral of [G], a function of the position and the unit normal, along the curve [Y] with derivative [Y'];
    [o] is 1, or -1 if the curve is run through backwards, which turns the normal. *)
Definition line_integrand (G : pt -> pt -> R) (o : R) (Y Y' : R -> pt) (t : R) : R := G (Y t) (pt_scale o (normal_of (Y' t))) * norm (Y' t).
Definition line_integral (G : pt -> pt -> R) (o : R) (Y Y' : R -> pt) (a b : R) : R := RInt (line_integrand G o Y Y') a b.
(** Continuity in position and normal together *)
Definition continuous_field (G : pt -> pt -> R) : Prop := forall z, continuous (fun q : (R * R) * (R * R) => G (fst q) (snd q)) z.

(** An edge that can be sampled: a known rule, a parameter interval, a curve of the library [X] with nonzero derivative [DX]
    and transformations that are similarities *)
Definition smooth_edge (e : edge) (X DX : R -> pt) : Prop :=
  (e_qtype e = "trap"%string \/ e_qtype e = "kress"%string) /\ fst (e_tb e) < snd (e_tb e) /\ spline_ok (e_curve e) /\
  cX (e_curve e) (e_opts e) = PyBase.Ok X /\ cDX (e_curve e) (e_opts e) = PyBase.Ok DX /\
  (forall t, fst (e_tb e) <= t <= snd (e_tb e) -> 0 < norm2 (DX t)) /\ diary_fine (X (fst (e_tb e))) (X (snd (e_tb e))) (e_diary e).
(** [Y'] is the derivative of the curve the edge stands for *)
Definition velocity (e : edge) (X Y' : R -> pt) : Prop := forall t, fst (e_tb e) <= t <= snd (e_tb e) -> pt_derive (traced X e) t (Y' t).
(** The side of an edge on which the cell [z] lies: 1 on the left, -1 on the right *)
Definition side (z : Z) (e : edge) : R := if Z.eqb z (e_pos e) then 1 else -1.
(** The integral of [G] over the boundary of the cell [z] whose edges are the objects [ids]; the normals point out of the cell *)
Definition boundary_integral (G : pt -> pt -> R) (H : list edge) (z : Z) (ids : list nat) (X Y' : nat -> R -> pt) : R :=
  sum_list (map (fun i => match nth_error H i with
    | Some e => line_integral G (side z e) (traced (X i) e) (Y' i) (fst (e_tb e)) (snd (e_tb e))
    | None => 0 end) ids).
(** The integral of [f] over the cone from the origin over a curve: the plane is covered by (s, t) -> s Y(t) with s in [0, 1], and
    the last factor is the determinant of the two partial derivatives, so that the cone counts with the sign of its orientation. *)
Definition cone_integral (f : R -> R -> R) (Y Y' : R -> pt) (a b : R) : R :=
  RInt (fun t => RInt (fun s => f (s * fst (Y t)) (s * snd (Y t)) * cross (Y t) (pt_scale s (Y' t))) 0 1) a b.
(** Such cones over the edges of the cell [z], with the sign of the side on which the cell lies *)
Definition cones (f : R -> R -> R) (H : list edge) (z : Z) (ids : list nat) (X Y' : nat -> R -> pt) : R :=
  sum_list (map (fun i => match nth_error H i with
    | Some e => side z e * cone_integral f (traced (X i) e) (Y' i) (fst (e_tb e)) (snd (e_tb e))
    | None => 0 end) ids).
(** A straight edge from [u] to [v], and such an edge that has the cell [z] on its left when run through from [u] to [v] *)
Definition straight (e : edge) (u v : pt) : Prop :=
  e_curve e = Line /\ e_tb e = (0, 2 * PI) /\ (exists a b, e_diary e = cons (SJoin a b) nil /\ coord a = u /\ coord b = v) /\ (e_qtype e = "trap"%string \/ e_qtype e = "kress"%string).
Definition runs (z : Z) (e : edge) (u v : pt) : Prop := z = e_pos e /\ straight e u v \/ z <> e_pos e /\ straight e v u.
(** A circular edge with radius [r] around [c], run through counterclockwise *)
Definition round_edge (e : edge) (c : pt) (r : R) : Prop :=
  e_curve e = Circle /\ e_tb e = (0, 2 * PI) /\ circle_R (e_opts e) = r /\ 0 < r /\ (exists a, e_diary e = cons (STranslate a) nil /\ coord a = c) /\ (e_qtype e = "trap"%string \/ e_qtype e = "kress"%string).
(** The integrals over a rectangle and, in polar coordinates, over a disc *)
Definition rectangle_integral (f : R -> R -> R) (x0 x1 y0 y1 : R) : R := RInt (fun x => RInt (fun y => f x y) y0 y1) x0 x1.
Definition disc_integral (f : R -> R -> R) (c : pt) (rad : R) : R := RInt (fun r => RInt (fun t => f (fst c + r * cos t) (snd c + r * sin t) * r) 0 (2 * PI)) 0 rad.
(** Closed curves a cell can be bounded by: the sides of a rectangle, from the lower left corner counterclockwise, or a circle.
    [bounded_by H z true l] says that [l] runs counterclockwise around the cell [z], [bounded_by H z false l] that it is the rim of a hole. *)
Inductive outline : Type := Box (x0 x1 y0 y1 : R) (i1 i2 i3 i4 : nat) | Round (c : pt) (r : R) (i : nat).
Definition outline_ids (l : outline) : list nat := match l with Box _ _ _ _ i1 i2 i3 i4 => cons i1 (cons i2 (cons i3 (cons i4 nil))) | Round _ _ i => cons i nil end.
Definition bounded_by (H : list edge) (z : Z) (inside : bool) (l : outline) : Prop :=
  match l with
  | Box x0 x1 y0 y1 i1 i2 i3 i4 => x0 + TOL <= x1 /\ y0 + TOL <= y1 /\
      exists e1 e2 e3 e4, nth_error H i1 = Some e1 /\ nth_error H i2 = Some e2 /\ nth_error H i3 = Some e3 /\ nth_error H i4 = Some e4 /\
      let run e u v := if inside then runs z e u v else runs z e v u in
      run e1 (x0, y0) (x1, y0) /\ run e2 (x1, y0) (x1, y1) /\ run e3 (x1, y1) (x0, y1) /\ run e4 (x0, y1) (x0, y0)
  | Round c r i => exists e, nth_error H i = Some e /\ round_edge e c r /\ (z = e_pos e <-> inside = true)
  end.
Definition outline_integral (f : R -> R -> R) (l : outline) : R :=
  match l with Box x0 x1 y0 y1 _ _ _ _ => rectangle_integral f x0 x1 y0 y1 | Round c r _ => disc_integral f c r end.
