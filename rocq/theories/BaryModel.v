(** Model of puncturedfem/locfun/poly/barycentric.py over real numbers. *)
From Coq Require Import List ZArith Reals.
From Verif Require Import PyBase PolyModel.
Import ListNotations.
Open Scope R_scope.

(** A point of the plane (a length-2 numpy array). *)
Definition pt : Type := (R * R)%type.

(** numpy.linalg.norm of a difference *)
Definition pdist (p q : pt) : R :=
  sqrt ((fst p - fst q) * (fst p - fst q) + (snd p - snd q) * (snd p - snd q)).

(** barycentric.py:81-82 *)
Definition degenerate_side (d : R) : bool := Rltb d (1 / 1000000000000).

(** barycentric.py:85-86 *)
Definition heron (d0 d1 d2 : R) : R :=
  let s := (d0 + d1 + d2) / 2 in
  2 * sqrt (s * (s - d0) * (s - d1) * (s - d2)).

(** barycentric.py:93-99 for one j, with zm = z[j-1], zp = z[j+1].
    [-=] is [ell = ell - ...] (poly.py has no __isub__), [*=] is [ell = ell * ...],
    [+= 1] is __iadd__ (poly.py:541-564). *)
Definition bary_one (h : R) (zm z zp : pt) : poly RS :=
  let x := mkpoly RS [(1, 1%nat, 0%nat)] in
  let y := mkpoly RS [(1, 0%nat, 1%nat)] in
  let e := pscale RS (psub_scal RS x (fst z)) (snd zm - snd zp) in
  let e := psub RS e (pscale RS (psub_scal RS y (snd z)) (fst zm - fst zp)) in
  let e := pscale RS e (-1 / h) in
  piadd_scal RS e 1.

(** barycentric.py:51-101. numpy arrays of the wrong length are outside the model. When h = 0
    (three distinct collinear points) numpy divides by zero and the coefficients are inf or
    nan; here -1/h is then an unspecified real, and theorems exclude h = 0. *)
Definition barycentric_coordinates (z0 z1 z2 : pt) : res (poly RS * poly RS * poly RS) :=
  let d0 := pdist z0 z2 in
  let d1 := pdist z1 z0 in
  let d2 := pdist z2 z1 in
  if degenerate_side d0 then Err DegenerateTriangleError
  else if degenerate_side d1 then Err DegenerateTriangleError
  else if degenerate_side d2 then Err DegenerateTriangleError
  else let h := heron d0 d1 d2 in
       Ok (bary_one h z2 z0 z1, bary_one h z0 z1 z2, bary_one h z1 z2 z0).

(** barycentric.py:44-47; R @ d = (d_y, -d_x) *)
Definition edge_apex (z0 z1 : pt) : pt :=
  let dx := fst z1 - fst z0 in
  let dy := snd z1 - snd z0 in
  (1 / 2 * (fst z1 + fst z0) - sqrt 3 / 2 * dy,
   1 / 2 * (snd z1 + snd z0) - sqrt 3 / 2 * (- dx)).

(** barycentric.py:21-48 given the first and last sample of the edge *)
Definition barycentric_coordinates_edge (z0 z1 : pt) : res (poly RS * poly RS * poly RS) :=
  barycentric_coordinates z0 z1 (edge_apex z0 z1).

(** barycentric.py:104-157: the traces are lists of samples; [l0 l1 l2] are the three
    barycentric coordinates sampled along the edge. *)
Definition vmul (a b : list R) : list R := map (fun p => fst p * snd p) (combine a b).
Definition vscale (c : R) (a : list R) : list R := map (Rmult c) a.
Definition barycentric_products (samples : list pt) (deg : nat) : res (list (list R)) :=
  if Nat.ltb 3 deg then Err NotImplementedError
  else match samples with
  | [] => Err IndexError
  | z0 :: _ =>
    do (l0, l1, l2) <- barycentric_coordinates_edge z0 (last samples z0);
    let tr (l : poly RS) := map (fun z : pt => peval RS l (fst z) (snd z)) samples in
    let t0 := tr l0 in let t1 := tr l1 in let t2 := tr l2 in
    let pairs := [(t0, t1); (t0, t2); (t1, t2)] in
    Ok ([t0; t1; t2]
        ++ (if Nat.ltb 1 deg then map (fun p => vmul (vscale 4 (fst p)) (snd p)) pairs else [])
        ++ (if Nat.ltb 2 deg
            then vmul (vmul (vscale 27 t0) t1) t2 ::
                 map (fun p => vmul (vmul (vscale (sqrt 3 / 2) (fst p)) (snd p)) (vmul (fst p) (snd p))) pairs
            else []))
  end.
