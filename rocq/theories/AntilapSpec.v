(** Differential vocabulary for anti-Laplacians: functions of two real variables. *)
From Coq Require Import List ZArith Reals Bool.
From Verif Require Import PyBase PolySpec BaryModel EdgeModel EdgeSpec ContourModel CellSpec TraceModel LocalSpec FftSpec AntilapModel.
Import List ListNotations.
Open Scope R_scope.

(** [g1] and [g2] are the partial derivatives of [f] on [U] *)
Definition gradient (U : pt -> Prop) (f g1 g2 : R -> R -> R) : Prop :=
  forall x y, U (x, y) -> derivable_pt_lim (fun t => f t y) x (g1 x y) /\ derivable_pt_lim (fun t => f x t) y (g2 x y).
(** [l] is the sum of the second derivatives of [f] on [U], whose gradient is ([g1], [g2]) *)
Definition laplacian (U : pt -> Prop) (f g1 g2 l : R -> R -> R) : Prop :=
  gradient U f g1 g2 /\
  forall x y, U (x, y) -> exists a b, derivable_pt_lim (fun t => g1 t y) x a /\ derivable_pt_lim (fun t => g2 x t) y b /\ a + b = l x y.
(** The Cauchy-Riemann equations for [u] + i [v] *)
Definition conjugate (U : pt -> Prop) (u v : R -> R -> R) : Prop :=
  exists p q, gradient U u p q /\ gradient U v (fun x y => - q x y) p.
(** [r] + i [s] is a complex antiderivative of [u] + i [v] *)
Definition antiderivatives (U : pt -> Prop) (u v r s : R -> R -> R) : Prop :=
  gradient U r u (fun x y => - v x y) /\ gradient U s v u.
(** The samples of the derivative of a function with gradient ([g1], [g2]) in the direction [d],
    weighted *)
Definition weighted_in (d : sample -> pt) (g1 g2 : R -> R -> R) (s : sample) : R := (at_smp g1 s * fst (d s) + at_smp g2 s * snd (d s)) * sw s.

(** The quadrature sum over one component of the boundary, of values that already carry the weight *)
Definition contour_sum (es : list edge) (f : sample -> R) : R := 2 * PI * INR (length es) / IZR (csize es) * sum_list (samples_of es f).
(** The residue data of (u, -v) around a component traversed once against the hole: the circulations
    of (v, u) and (u, -v) *)
Definition residue (u v : R -> R -> R) (es : list edge) : R * R :=
  (- (contour_sum es (weighted_in sT v u) / (2 * PI)), contour_sum es (weighted_in sT u (fun x y => - v x y)) / (2 * PI)).
(** Sum of the rational functions Re ((b - ic)/(z - xi)) ... *)
Definition poles (hs : list (pt * (R * R))) (x y : R) : R :=
  sum_list (map (fun '(xi, (b, c)) => (b * (x - fst xi) + c * (y - snd xi)) / ((x - fst xi)² + (y - snd xi)²)) hs).
(** ... and of Im ((b + ic)/(z - xi)) *)
Definition poles_hat (hs : list (pt * (R * R))) (x y : R) : R :=
  sum_list (map (fun '(xi, (b, c)) => (c * (x - fst xi) - b * (y - snd xi)) / ((x - fst xi)² + (y - snd xi)²)) hs).
(** The logarithmic part *)
Definition logs (xs : list pt) (lc : list R) (x y : R) : R :=
  sum_list (map (fun '(xi, a) => a * ln (sqrt ((x - fst xi)² + (y - snd xi)²))) (combine xs lc)).
(** Along one component the values [f] are those of a trigonometric polynomial that the samples
    resolve, and [d] those of its derivative *)
Definition resolved_on (es : list edge) (f d : sample -> R) : Prop :=
  let L := 2 * PI * INR (length es) in let N := length (contour_smp es) in
  exists T dT, Forall (fun q : tterm => (2 * Z.abs (fst q) < Z.of_nat N)%Z) T /\ samples_of es f = samples L N (trig L T) /\
  (forall t, derivable_pt_lim (trig L T) t (dT t)) /\ samples_of es d = samples L N dT.

(** The quadrature sum over the whole boundary of weighted values *)
Definition boundary_sum (es : list edge) (v : list R) : R := 2 * PI * INR (length es) / IZR (csize es) * sum_list v.
(** The solver recovers [r], of gradient ([u], [v]), from its derivatives on the boundary. With the
    direct strategy: the Neumann solver returns the samples of [r]. With the strategy "fft": [r] is
    resolved on every component and has mean zero on the outer one, and the integrals against the
    functions eta give its integrals over the other ones. *)
Definition solved (N : asolver) (ess : list (list edge)) (r u v : R -> R -> R) : Prop :=
  match as_strategy N with
  | Direct => as_neumann N (samples_of (concat ess) (weighted_in sN u v)) = Ok (samples_of (concat ess) (at_smp r))
  | ByFft =>
      (forall l, In l ess -> resolved_on l (at_smp r) (weighted_in sT u v) /\ contour_sum l sw <> 0) /\
      (forall l, nth_error ess 0 = Some l -> contour_sum l (fun s => at_smp r s * sw s) = 0) /\
      exists eta, as_eta N = Some eta /\ forall m l, nth_error ess (S m) = Some l ->
        exists t e, nth_error eta m = Some t /\ tr_vals t = Some e /\ fitting (concat ess) e /\
        contour_sum l (fun s => at_smp r s * sw s) = boundary_sum (concat ess) (zip_with Rmult e (samples_of (concat ess) (weighted_in sN u v)))
  end.
