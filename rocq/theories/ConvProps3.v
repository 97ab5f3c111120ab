(** Convergence of integrals of polynomials over cells, continued (C79): the limit as an area integral *)
From Coq Require Import List ZArith Reals Lia Lra Psatz Bool String Permutation.
From Coquelicot Require Import Coquelicot.
From Verif Require Import PyBase PolyModel PolySpec PolyProofs PolyProofs2 PolyProofs4 IntPolyModel IntPolyProofs BaryModel BBoxModel QuadModel QuadSpec QuadProofs QuadProps CurveModel CurveSpec CurveProps VertModel EdgeModel ContourModel CellModel CellSpec EdgeSpec EdgeProofs EdgeProofs2 EdgeProps EdgeProps3 EdgeProps4 CellProofs CellProps ContourProofs ContourProofs3 ContourProofs4 ContourProps CellProps2 CellProps3 Annulus LocalModel LocalSpec LocalProps2 ConvSpec ConvProofs ConvProofs2 ConvProps ConvProps2 ConvProofs3.
Import List ListNotations.
Open Scope R_scope.

(** The integral of a polynomial over a cell converges to the sum of its integrals over the cones from the origin over the edges,
    each with the sign of its orientation. *)
Theorem C79_cone f contains H z ids mesh rtol atol c p X DX Y' : (2 <= p)%Z -> mk_cell H z ids mesh rtol atol = Ok c ->
  (forall i e, In i ids -> nth_error H i = Some e -> smooth_edge e (X i) (DX i) /\ velocity e (X i) (Y' i)) -> forall eps, 0 < eps -> exists K, forall n, (K <= n)%Z -> forall qd w H' c', get_quad_dict (PInt n) p = Ok qd ->
  param_cell contains qd w H c = Ok (H', c') -> exists I, int_poly f H' c' = Ok I /\ Rabs (I - cones (peval RS f) H z ids X Y') <= eps.
Proof.
  intros Hp M Sm. replace (cones (peval RS f) H z ids X Y') with (boundary_integral (poly_field f) H z ids X Y'); [exact (polynomial_conv f contains H z ids mesh rtol atol c p X DX Y' Hp M Sm)|].
  unfold boundary_integral, cones. f_equal. apply map_ext_in. intros i Hi. specialize (Sm i). destruct (nth_error H i) as [e|]; [|reflexivity]. destruct (Sm e Hi eq_refl) as (S & V). apply (cone_edge f _ e _ _ _ S V).
Qed.
Print Assumptions C79_cone.

(** Over a rectangle with sides along the axes it converges to the double integral. The four edges may be listed in any order and
    run either way. *)
Theorem C79_rectangle f contains H z i1 i2 i3 i4 ids e1 e2 e3 e4 x0 x1 y0 y1 mesh rtol atol c p : (2 <= p)%Z -> mk_cell H z ids mesh rtol atol = Ok c -> Permutation ids [i1; i2; i3; i4] ->
  nth_error H i1 = Some e1 -> nth_error H i2 = Some e2 -> nth_error H i3 = Some e3 -> nth_error H i4 = Some e4 -> x0 + TOL <= x1 -> y0 + TOL <= y1 ->
  runs z e1 (x0, y0) (x1, y0) -> runs z e2 (x1, y0) (x1, y1) -> runs z e3 (x1, y1) (x0, y1) -> runs z e4 (x0, y1) (x0, y0) ->
  forall eps, 0 < eps -> exists K, forall n, (K <= n)%Z -> forall qd w H' c', get_quad_dict (PInt n) p = Ok qd ->
  param_cell contains qd w H c = Ok (H', c') -> exists I, int_poly f H' c' = Ok I /\ Rabs (I - RInt (fun x => RInt (fun y => peval RS f x y) y0 y1) x0 x1) <= eps.
Proof.
  intros Hp M P N1 N2 N3 N4 Lx Ly R1 R2 R3 R4. assert (T0 : 0 < TOL) by (unfold TOL; lra).
  assert (Dx : forall y, TOL <= pdist (x0, y) (x1, y)). { intros y. unfold pdist. cbn [fst snd]. replace ((x0 - x1) * (x0 - x1) + (y - y) * (y - y)) with ((x1 - x0) * (x1 - x0)) by ring || replace ((x0 - x1) ^ 2 + (y - y) ^ 2) with ((x1 - x0) * (x1 - x0)) by ring. rewrite sqrt_square by lra. lra. }
  assert (Dy : forall x, TOL <= pdist (x, y0) (x, y1)). { intros x. unfold pdist. cbn [fst snd]. replace ((x - x) * (x - x) + (y0 - y1) * (y0 - y1)) with ((y1 - y0) * (y1 - y0)) by ring || replace ((x - x) ^ 2 + (y0 - y1) ^ 2) with ((y1 - y0) * (y1 - y0)) by ring. rewrite sqrt_square by lra. lra. }
  assert (D1 : TOL <= pdist (x0, y0) (x1, y0)) by apply Dx. assert (D2 : TOL <= pdist (x1, y0) (x1, y1)) by apply Dy.
  assert (D3 : TOL <= pdist (x1, y1) (x0, y1)) by (rewrite pdist_sym; apply Dx). assert (D4 : TOL <= pdist (x0, y1) (x0, y0)) by (rewrite pdist_sym; apply Dy).
  set (Y' := fun i => match nth_error H i with Some e => joined e | None => fun _ => (0, 0) end).
  assert (EB : boundary_integral (poly_field f) H z ids (fun _ => line_X) Y' = RInt (fun x => RInt (fun y => peval RS f x y) y0 y1) x0 x1).
  { transitivity (boundary_integral (poly_field f) H z [i1; i2; i3; i4] (fun _ => line_X) Y'). { unfold boundary_integral. apply sum_perm. apply Permutation_map, P. }
    unfold boundary_integral, Y'. cbn [map]. rewrite N1, N2, N3, N4. rewrite (runs_flux f _ _ _ _ R1), (runs_flux f _ _ _ _ R2), (runs_flux f _ _ _ _ R3), (runs_flux f _ _ _ _ R4) by lra.
    transitivity (RInt (fun x => RInt (fun y => value f x y) y0 y1) x0 x1); [rewrite <- rectangle_flux; unfold sum_list; cbn [fold_right]; ring|]. apply RInt_ext. intros x _. apply RInt_ext. intros y _. rewrite peval_value. reflexivity. }
  rewrite <- EB. apply (polynomial_conv f contains H z ids mesh rtol atol c p (fun _ => line_X) (fun _ => line_DX) Y' Hp M). intros i e Hi E. unfold Y'. rewrite E. apply (Permutation_in _ P) in Hi. destruct Hi as [<-|[<-|[<-|[<-|[]]]]].
  - rewrite N1 in E. injection E as <-. apply (runs_smooth _ _ _ _ R1 D1).
  - rewrite N2 in E. injection E as <-. apply (runs_smooth _ _ _ _ R2 D2).
  - rewrite N3 in E. injection E as <-. apply (runs_smooth _ _ _ _ R3 D3).
  - rewrite N4 in E. injection E as <-. apply (runs_smooth _ _ _ _ R4 D4).
Qed.
Print Assumptions C79_rectangle.
