(** Model of puncturedfem/locfun/poly/legendre.py over real coefficients. *)
From Coq Require Import List ZArith Reals.
From Verif Require Import PyBase PolyModel.
Import ListNotations.
Open Scope R_scope.

(** legendre.py:36-38: ((2n-1) * polys[1] * polys[n-1] - (n-1) * polys[n-2]) / n.
    [int * Polynomial] goes through __rmul__ (poly.py:593-610), [/ n] is [* (1/n)]. *)
Definition leg_next (n : nat) (x pn1 pn2 : poly RS) : poly RS :=
  pscale RS (psub RS (pmul RS (pscale RS x (IZR (2 * Z.of_nat n - 1))) pn1)
                     (pscale RS pn2 (IZR (Z.of_nat n - 1))))
            (1 / IZR (Z.of_nat n)).

(** legendre.py:32-34 *)
Definition leg_init : list (poly RS) := [mkpoly RS [(1, 0%nat, 0%nat)]; mkpoly RS [(1, 1%nat, 0%nat)]].

(** legendre.py:35-39, for n in range(2, deg+1); range(2, deg+1) is [seq 2 (deg-1)].
    Positions read are always present (the default is never used). *)
Definition leg_step (polys : list (poly RS)) (n : nat) : list (poly RS) :=
  polys ++ [leg_next n (nth 1 polys []) (nth (n - 1) polys []) (nth (n - 2) polys [])].
Definition legendre_polynomials (deg : nat) : list (poly RS) :=
  fold_left leg_step (seq 2 (deg - 1)) leg_init.

(** legendre.py:120-135; [q += Polynomial(...)] adds a fresh object *)
Definition swap_coordinates (p : poly RS) : poly RS :=
  fold_left (fun q m => piadd RS q (mkpoly RS [(mcoef m, my (malpha m), mx (malpha m))])) p [].

(** legendre.py:67-71 and 113-117 *)
Definition tensor_products (deg : nat) (p q : list (poly RS)) : list (poly RS) :=
  flat_map (fun m => map (fun n => pmul RS (nth m p []) (nth n q [])) (seq 0 (deg + 1 - m)))
           (seq 0 (deg + 1)).

(** legendre.py:43-71 *)
Definition legendre_tensor_products (deg : nat) : list (poly RS) :=
  let p := legendre_polynomials deg in
  tensor_products deg p (map swap_coordinates p).

(** legendre.py:74-96 *)
Definition integrated_legendre_polynomials (deg : nat) : list (poly RS) :=
  let p := legendre_polynomials deg in
  [nth 0 p []; nth 1 p []] ++
  map (fun n => pscale RS (psub RS (nth n p []) (nth (n - 2) p []))
                          (1 / sqrt (IZR (4 * Z.of_nat n - 2)))) (seq 2 (deg - 1)).

(** legendre.py:99-117 *)
Definition integrated_legendre_tensor_products (deg : nat) : list (poly RS) :=
  let p := integrated_legendre_polynomials deg in
  tensor_products deg p (map swap_coordinates p).
