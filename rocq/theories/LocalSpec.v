(** Vocabulary for local functions and their inner products. *)
From Coq Require Import List ZArith Reals Bool.
From Verif Require Import PyBase PolyModel PolySpec BaryModel VertModel EdgeModel EdgeSpec ContourModel CellModel CellSpec TraceModel TraceSpec IntPolyModel LocalModel.
Import List ListNotations.
Open Scope R_scope.

(** The boundary integral of the product of two arrays of samples, the first already weighted:
    each edge is an interval of length 2 pi *)
Definition flux (es : list edge) (w v : list R) : R := 2 * PI * INR (List.length es) / IZR (csize es) * sum_list (zip_with Rmult w v).
(** One number per boundary sample *)
Definition fitting (es : list edge) (v : list R) : Prop := Z.of_nat (List.length v) = csize es.

(** The boundary data that the trace argument stands for *)
Definition boundary_data (es : list edge) (g : targ) (v : list R) : Prop :=
  fitting es v /\
  match g with
  | TTrace t => tr_vals t = Some v \/ exists k, tr_vals t = Some [k] /\ Forall (eq k) v
  | TVal (VScal k) => Forall (eq k) v
  | TVal (VArr l) => l = v
  | TVal VOther => False
  end.

(** Solvers whose answers have the right sizes *)
Definition tame (es : list edge) (n : nat) (N : nyst) : Prop :=
  (forall v, fitting es v -> exists w lc, ny_conj N v = Ok (w, lc) /\ fitting es w /\ List.length lc = n) /\
  (forall v, fitting es v -> exists w, ny_wtd N v = Ok w /\ fitting es w) /\
  (forall v w lc, fitting es v -> fitting es w -> List.length lc = n -> exists b d, ny_anti N v w lc = Ok (b, d) /\ fitting es b /\ fitting es d) /\
  (forall j, (j < n)%nat -> exists t v w, nth_error (ny_lam N) j = Some t /\ tr_vals t = Some v /\ tr_wnd t = Some w /\ fitting es v /\ fitting es w).

(** The functions that the code can build on a cell *)
Inductive locfun (N : nyst) (H : heap) (c : cell) : lpois -> Prop :=
| lf_new f g i d u : mk_lpois N H c f g i d = Ok u -> locfun N H c u
| lf_add u v w : locfun N H c u -> locfun N H c v -> u_add u v = Ok w -> locfun N H c w
| lf_sub u v w : locfun N H c u -> locfun N H c v -> u_sub u v = Ok w -> locfun N H c w
| lf_mul u k w : locfun N H c u -> u_mul u k = Ok w -> locfun N H c w
| lf_div u k w : locfun N H c u -> u_div u k = Ok w -> locfun N H c w.

(** [t] combines [t1] and [t2] sample by sample, in the values and in both derivatives *)
Definition combines2 (f : R -> R -> R) (t1 t2 t : trace) : Prop :=
  (exists a b x, tr_vals t1 = Some a /\ tr_vals t2 = Some b /\ tr_vals t = Some x /\ entrywise2 f a b x) /\
  kept2 f (tr_wnd t1) (tr_wnd t2) (tr_wnd t) /\ kept2 f (tr_wtd t1) (tr_wtd t2) (tr_wtd t).
Definition combines (f : R -> R) (t1 t : trace) : Prop :=
  (exists a x, tr_vals t1 = Some a /\ tr_vals t = Some x /\ entrywise f a x) /\
  kept f (tr_wnd t1) (tr_wnd t) /\ kept f (tr_wtd t1) (tr_wtd t).
(** ... and so do the two parts of local functions; coefficients below the cutoff are dropped *)
Definition harm2 (f : R -> R -> R) (h k l : lharm) : Prop :=
  combines2 f (lh_trace h) (lh_trace k) (lh_trace l) /\ combines2 f (lh_psi h) (lh_psi k) (lh_psi l) /\
  combines2 f (lh_conj h) (lh_conj k) (lh_conj l) /\ combines2 f (lh_bi h) (lh_bi k) (lh_bi l) /\
  forall j x, nth_error (lh_log l) j = Some x <-> exists a b, nth_error (lh_log h) j = Some a /\ nth_error (lh_log k) j = Some b /\ x = f a b.
Definition harm1 (f : R -> R) (h l : lharm) : Prop :=
  combines f (lh_trace h) (lh_trace l) /\ combines f (lh_psi h) (lh_psi l) /\
  combines f (lh_conj h) (lh_conj l) /\ combines f (lh_bi h) (lh_bi l) /\ entrywise f (lh_log h) (lh_log l).
Definition coefs2 (f : R -> R -> R) (p q r : poly RS) : Prop := forall a b, coef r a b = cutoff (f (coef p a b) (coef q a b)).
Definition coefs1 (f : R -> R) (p r : poly RS) : Prop := forall a b, coef r a b = cutoff (f (coef p a b)).
Definition poly2 (f : R -> R -> R) (p q r : lpoly) : Prop :=
  combines2 f (lp_trace p) (lp_trace q) (lp_trace r) /\ combines2 f (lp_atrace p) (lp_atrace q) (lp_atrace r) /\
  coefs2 f (lp_form p) (lp_form q) (lp_form r) /\ coefs2 f (lp_g1 p) (lp_g1 q) (lp_g1 r) /\ coefs2 f (lp_g2 p) (lp_g2 q) (lp_g2 r) /\ coefs2 f (lp_anti p) (lp_anti q) (lp_anti r).
Definition poly1 (f : R -> R) (p r : lpoly) : Prop :=
  combines f (lp_trace p) (lp_trace r) /\ combines f (lp_atrace p) (lp_atrace r) /\
  coefs1 f (lp_form p) (lp_form r) /\ coefs1 f (lp_g1 p) (lp_g1 r) /\ coefs1 f (lp_g2 p) (lp_g2 r) /\ coefs1 f (lp_anti p) (lp_anti r).
(** Interior values: present exactly when present in the operands *)
Definition inner2 (f : R -> R -> R) (u v w : lpois) : Prop := kept2 f (u_vals u) (u_vals v) (u_vals w) /\ kept2 f (u_g1 u) (u_g1 v) (u_g1 w) /\ kept2 f (u_g2 u) (u_g2 v) (u_g2 w).
Definition inner1 (f : R -> R) (u w : lpois) : Prop := kept f (u_vals u) (u_vals w) /\ kept f (u_g1 u) (u_g1 w) /\ kept f (u_g2 u) (u_g2 w).

(** The derivative of a polynomial in the direction [d] of the samples, weighted *)
Definition weighted_deriv (p : poly RS) (d : sample -> pt) (s : sample) : R :=
  (at_smp (peval RS (pdx RS p)) s * fst (d s) + at_smp (peval RS (pdy RS p)) s * snd (d s)) * sw s.
(** The array of a function at the boundary samples *)
Definition samples_of (es : list edge) (f : sample -> R) : list R := map f (contour_smp es).

(** Complex numbers as pairs *)
Definition cmul (a b : pt) : pt := (fst a * fst b - snd a * snd b, fst a * snd b + snd a * fst b).
Definition cdiv (a b : pt) : pt := ((fst a * fst b + snd a * snd b) / norm_sq b, (snd a * fst b - fst a * snd b) / norm_sq b).
Definition csub (a b : pt) : pt := (fst a - fst b, snd a - snd b).
Definition cadd (a b : pt) : pt := (fst a + fst b, snd a + snd b).
Definition csum (l : list pt) : pt := fold_right cadd (0, 0) l.
Definition cscale (k : R) (a : pt) : pt := (k * fst a, k * snd a).
(** 1/(2 pi i) times the sum of F dz / (z - y)^m over the samples, dz = unit tangent times weight *)
Definition cauchy_sum (m : nat) (l : list csample) (y : pt) : pt :=
  cdiv (csum (map (fun s => Nat.iter m (fun q => cdiv q (csub (cs_x s) y)) (cmul (cs_u s, cs_v s) (cscale (cs_w s) (cs_t s)))) l)) (0, 2 * PI).

(** ** Inner products *)

(** The arrays of a trace that has them *)
Definition vals (t : trace) : list R := match tr_vals t with Some a => a | None => [] end.
Definition nd (t : trace) : list R := match tr_wnd t with Some a => a | None => [] end.
(** The boundary samples as a quadrature rule *)
Definition quadrature (es : list edge) : list bsample :=
  map (fun s => BSample (fst (sx s)) (snd (sx s)) (fst (sN s)) (snd (sN s)) (2 * PI * INR (List.length es) / IZR (csize es) * sw s)) (contour_smp es).
(** The blocks of the H1 semi-inner product: harmonic with harmonic, harmonic with polynomial *)
Definition h1_hh (es : list edge) (u v : lpois) : R := flux es (nd (lh_trace (u_harm u))) (vals (lh_trace (u_harm v))).
Definition h1_hp (es : list edge) (u v : lpois) : R := flux es (nd (lh_trace (u_harm u))) (vals (lp_trace (u_poly v))).
(** ... and of the L2 inner product, by Green's second identity with an anti-Laplacian of one
    factor *)
Definition l2_hh_block (es : list edge) (u v : lpois) : R :=
  flux es (nd (lh_bi (u_harm u))) (vals (lh_trace (u_harm v))) - flux es (vals (lh_bi (u_harm u))) (nd (lh_trace (u_harm v))).
Definition l2_hp_block (es : list edge) (u v : lpois) : R :=
  flux es (vals (lh_trace (u_harm u))) (nd (lp_atrace (u_poly v))) - flux es (nd (lh_trace (u_harm u))) (vals (lp_atrace (u_poly v))).
(** All coefficients of the polynomial part that enter products are multiples of [d] *)
Definition poly_grid (d : R) (u : lpois) : Prop := on_grid d (lp_form (u_poly u)) /\ on_grid d (lp_g1 (u_poly u)) /\ on_grid d (lp_g2 (u_poly u)).

(** ** Interior values *)

(** The boundary samples with their quadrature weights, edge by edge *)
Definition weighted_samples (es : list edge) : list (sample * R) :=
  concat (map (fun e => map (fun s => (s, 2 * PI / IZR (e_npts e - 1) * sw s)) (open_smp e)) es).
(** The samples of the complex function [psi] + i [hat] *)
Definition cauchy_samples (es : list edge) (psi hat : list R) : list csample :=
  map (fun z => CSample (sx (fst (fst z))) (sT (fst (fst z))) (snd (fst z)) (fst (snd z)) (snd (snd z))) (combine (weighted_samples es) (combine psi hat)).
(** The interior points of the holes *)
Definition centers (c : cell) (xs : list pt) : Prop := Forall2 (fun k p => exists v, k_int k = Some v /\ coord v = p) (tl (c_comps c)) xs.
(** The function: polynomial, logarithms with coefficients [lc], real part of the Cauchy sum; and its
    gradient *)
Definition total_value (q : poly RS) (xs : list pt) (lc : list R) (l : list csample) (y : pt) : R :=
  peval RS q (fst y) (snd y) + sum_list (map (fun z => snd z * ln (pdist y (fst z))) (combine xs lc)) + fst (cauchy_sum 1 l y).
Definition total_g1 (q : poly RS) (xs : list pt) (lc : list R) (l : list csample) (y : pt) : R :=
  peval RS q (fst y) (snd y) + sum_list (map (fun z => snd z * (fst y - fst (fst z)) / pdist y (fst z) ^ 2) (combine xs lc)) + fst (cauchy_sum 2 l y).
Definition total_g2 (q : poly RS) (xs : list pt) (lc : list R) (l : list csample) (y : pt) : R :=
  peval RS q (fst y) (snd y) + sum_list (map (fun z => snd z * (snd y - snd (fst z)) / pdist y (fst z) ^ 2) (combine xs lc)) - snd (cauchy_sum 2 l y).
(** No boundary sample and no centre is at [y] *)
Definition away (xs : list pt) (l : list csample) (y : pt) : Prop := Forall (fun s => cs_x s <> y) l /\ Forall (fun x => x <> y) xs.
