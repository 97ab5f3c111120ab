(** Model of puncturedfem/mesh/closed_contour.py over real numbers.

    Edge objects are shared between contours and cells, so they live in a heap and contours hold
    references. [contains r path p] stands for
    matplotlib.path.Path(path).contains_point(p, radius=r), which is not part of the repository.
    An exception discards the heap: partial effects before an exception are not modelled. *)
From Coq Require Import List ZArith Reals Bool.
From Verif Require Import PyBase PolyModel BaryModel BBoxModel QuadModel VertModel EdgeModel.
Import ListNotations.
Open Scope R_scope.

Definition heap : Type := list edge.
(** Python has no dangling references: the KeyError has no counterpart. *)
Definition deref (H : heap) (i : nat) : res edge := match nth_error H i with Some e => Ok e | None => Err KeyError end.
Definition hset {A} (l : list A) (i : nat) (a : A) : list A := firstn i l ++ a :: skipn (S i) l.

(** A read of an attribute that __init__ declares but does not assign *)
Definition attr {A} (o : option A) : res A := match o with Some a => Ok a | None => Err AttributeError end.
(** l[i] *)
Definition geti {A} (l : list A) (i : nat) : res A := match nth_error l i with Some a => Ok a | None => Err IndexError end.
(** l[a:b] for nonnegative bounds *)
Definition slice {A} (l : list A) (a b : Z) : list A := firstn (Z.to_nat b - Z.to_nat a) (skipn (Z.to_nat a) l).
(** l[a:b] = v for nonnegative bounds: the lengths agree or v has one element *)
Definition set_slice {A} (l : list A) (a b : Z) (v : list A) : res (list A) :=
  let a := Nat.min (Z.to_nat a) (length l) in
  let m := (Nat.min (Z.to_nat b) (length l) - a)%nat in
  if Nat.eqb (length v) m then Ok (firstn a l ++ v ++ skipn (a + m) l)
  else match v with
  | [c] => Ok (firstn a l ++ repeat c m ++ skipn (a + m) l)
  | _ => Err BroadcastError
  end.
(** numpy.linspace(a, b, m) *)
Definition np_linspace (a b : R) (m : Z) : res (list R) :=
  if Z.ltb m 0 then Err ValueError
  else match Z.to_nat m with O => Ok [] | S O => Ok [a] | S m' => Ok (linspace a b m') end.
(** numpy.meshgrid(xs, ys) as one array of points: row i holds ys[i] *)
Definition meshgrid (xs ys : list R) : list (list pt) := map (fun y => map (fun x => (x, y)) xs) ys.
(** float("inf") is [None] *)
Definition omin (a b : option R) : option R :=
  match a, b with Some x, Some y => Some (Rmin x y) | Some x, None => Some x | None, _ => b end.
Definition olt (a : option R) (t : R) : bool := match a with Some x => if Rlt_dec x t then true else false | None => false end.

(** closed_contour.py:55-62. [None] marks attributes that are not assigned yet. *)
Record contour : Type := Contour {
  k_cell : Z; k_edges : list nat; k_orients : list Z; k_npts : option Z;
  k_vidx : list Z; k_closest : option (list Z); k_int : option vert
}.
Definition k_num (c : contour) : nat := length (k_edges c).

(** closed_contour.py:96-121 for an int *)
Definition set_mesh_id (z : Z) : res Z := if Z.ltb z 0 then Err ValueError else Ok z.
(** closed_contour.py:124-143; Edge has no __eq__, so "in" compares identities *)
Definition add_edge (c : contour) (i : nat) (o : Z) : res contour :=
  if orb (Z.eqb o 1) (Z.eqb o (-1)) then
    if existsb (Nat.eqb i) (k_edges c) then Ok c
    else Ok (Contour (k_cell c) (k_edges c ++ [i]) (k_orients c ++ [o]) (k_npts c) (k_vidx c) (k_closest c) (k_int c))
  else Err ValueError.
(** closed_contour.py:145-166 *)
Definition add_edges (c : contour) (is : list nat) (os : list Z) : res contour :=
  if Nat.eqb (length is) (length os) then fold_res (fun c io => add_edge c (fst io) (snd io)) (combine is os) c
  else Err ValueError.
(** closed_contour.py:64-94 *)
Definition mk_contour (z : Z) (is : list nat) (os : list Z) : res contour :=
  do z <- set_mesh_id z; add_edges (Contour z [] [] None [] None None) is os.

(** closed_contour.py:169-178 *)
Definition all_param (H : heap) (c : contour) : bool :=
  forallb (fun i => match nth_error H i with Some e => e_param e | None => false end) (k_edges c).
Definition guard (H : heap) (c : contour) : res unit := if all_param H c then Ok tt else Err NotParameterizedError.

(** closed_contour.py:205-222 *)
Definition find_num_pts (H : heap) (c : contour) : res contour :=
  do _ <- guard H c;
  do n <- fold_res (fun n i => do e <- deref H i; Ok (n + (e_npts e - 1))%Z) (k_edges c) 0%Z;
  Ok (Contour (k_cell c) (k_edges c) (k_orients c) (Some n) (k_vidx c) (k_closest c) (k_int c)).
(** closed_contour.py:224-239 *)
Definition find_local_vert_idx (H : heap) (c : contour) : res contour :=
  do _ <- guard H c;
  do v <- fold_res (fun v i => do e <- deref H i; Ok (v ++ [(last v 0 + e_npts e - 1)%Z])) (k_edges c) [0%Z];
  Ok (Contour (k_cell c) (k_edges c) (k_orients c) (k_npts c) v (k_closest c) (k_int c)).
(** closed_contour.py:241-273 *)
Definition find_closest_local (H : heap) (c : contour) : res contour :=
  do _ <- guard H c;
  do mid <- map_res (fun ii => do e <- deref H (snd ii); do v <- geti (k_vidx c) (fst ii); Ok (v + e_npts e / 2)%Z)
    (combine (seq 0 (k_num c)) (k_edges c));
  do n <- attr (k_npts c);
  do l <- fold_res (fun l i =>
      do v <- geti (k_vidx c) i; do v' <- geti (k_vidx c) (S i); do m <- geti mid i;
      do l <- set_slice l v m [v];
      set_slice l m v' [(v' mod n)%Z])
    (seq 0 (k_num c)) (repeat 0%Z (Z.to_nat n));
  Ok (Contour (k_cell c) (k_edges c) (k_orients c) (k_npts c) (k_vidx c) (Some l) (k_int c)).

(** The common shape of closed_contour.py:436-441, 490-497, 526-533, 564-569 and 629-635: an
    array of zeros filled edge by edge *)
Definition fill (H : heap) (c : contour) (f : edge -> Z -> Z -> res (list R)) : res (list R) :=
  do n <- attr (k_npts c);
  fold_res (fun y ji =>
      do a <- geti (k_vidx c) (fst ji); do b <- geti (k_vidx c) (S (fst ji));
      do e <- deref H (snd ji); do v <- f e a b; set_slice y a b v)
    (combine (seq 0 (k_num c)) (k_edges c)) (repeat 0 (Z.to_nat n)).

(** closed_contour.py:418-441 *)
Definition eval_on_contour (g : R -> R -> R) (H : heap) (c : contour) : res (list R) :=
  do _ <- guard H c; fill H c (fun e _ _ => evaluate_function g true e).
(** closed_contour.py:443-461 *)
Definition contour_points (H : heap) (c : contour) : res (list R * list R) :=
  do _ <- guard H c;
  do x1 <- eval_on_contour (fun x _ => x) H c; do x2 <- eval_on_contour (fun _ y => y) H c; Ok (x1, x2).
(** closed_contour.py:463-497 and 499-533 *)
Definition contour_dot (d : list R -> list R -> bool -> edge -> res (list R)) (c1 c2 : list R) (H : heap) (c : contour) : res (list R) :=
  do _ <- guard H c; fill H c (fun e a b => d (slice c1 a b) (slice c2 a b) true e).
(** closed_contour.py:535-569 *)
Definition contour_dx_norm (v : list R) (H : heap) (c : contour) : res (list R) :=
  do _ <- guard H c; do n <- attr (k_npts c);
  if Z.eqb (Z.of_nat (length v)) n then fill H c (fun e a b => multiply_by_dx_norm (slice v a b) true e)
  else Err SizeMismatchError.
(** closed_contour.py:592-635 for one-dimensional arrays *)
Definition contour_integrate_preweighted (v : list R) (H : heap) (c : contour) : res R :=
  do _ <- guard H c; do n <- attr (k_npts c);
  if Z.eqb (Z.of_nat (length v)) n then
    do y <- fill H c (fun e a b => Ok (map (fun x => 2 * PI / IZR (e_npts e - 1) * x) (slice v a b)));
    Ok (np_sum y)
  else Err SizeMismatchError.
(** closed_contour.py:572-590 *)
Definition contour_integrate (v : list R) (H : heap) (c : contour) : res R :=
  do _ <- guard H c; do vw <- contour_dx_norm v H c; contour_integrate_preweighted vw H c.

(** closed_contour.py:276-303; min of an empty row is a ValueError *)
Definition contour_distance (H : heap) (c : contour) (p : pt) : res (option R) :=
  do _ <- guard H c;
  do d <- fold_res (fun d i =>
      do e <- deref H i;
      match map (fun s => (fst (sx s) - fst p) ^ 2 + (snd (sx s) - snd p) ^ 2) (e_smp e) with
      | [] => Err ValueError
      | x :: l => Ok (omin d (Some (lmin x l)))
      end)
    (k_edges c) None;
  Ok (option_map sqrt d).

(** numpy.argmax of a nonempty list: the first position of the maximum *)
Fixpoint argmax_from (best : R) (bi i : nat) (l : list R) : nat :=
  match l with
  | [] => bi
  | x :: l' => if Rlt_dec best x then argmax_from x i (S i) l' else argmax_from best bi (S i) l'
  end.
Definition argmax (l : list R) : res nat := match l with [] => Err ValueError | x :: l' => Ok (argmax_from x 0 1 l') end.

Section Inside.
Variable contains : R -> list pt -> pt -> bool.

(** closed_contour.py:305-351 for one-dimensional arrays *)
Definition inside1 (H : heap) (c : contour) (xs ys : list R) : res (list bool) :=
  if Nat.eqb (length xs) (length ys) then
    do (x1, x2) <- contour_points H c; Ok (map (contains 0 (combine x1 x2)) (combine xs ys))
  else Err SizeMismatchError.
(** closed_contour.py:305-351 for the two arrays of a meshgrid *)
Definition inside2 (H : heap) (c : contour) (g : list (list pt)) : res (list (list bool)) :=
  do (x1, x2) <- contour_points H c; Ok (map (map (contains 0 (combine x1 x2))) g).

(** closed_contour.py:383-415. The quotient and remainder of the flat position by M recover row
    and column because M = N. *)
Fixpoint interior_loop (fuel : nat) (H : heap) (c : contour) (box : R * R * R * R) (tol : R) (M : Z) (d : R) (cur : option vert) : res (option vert) :=
  if Rlt_dec d tol then
    match fuel with
    | O => Err OutOfFuel
    | S fuel =>
        let '(xmin, xmax, ymin, ymax) := box in
        do xs <- np_linspace xmin xmax M;
        do ys <- np_linspace ymin ymax M;
        let g := meshgrid xs ys in
        do ins <- inside2 H c g;
        do dist <- map_res (fun rb => map_res (fun pb : pt * bool =>
            if snd pb then do d <- contour_distance H c (fst pb); match d with Some d => Ok d | None => Err OverflowError end
            else Ok 0) (combine (fst rb) (snd rb))) (combine g ins);
        do k <- argmax (concat dist);
        let ii := (k / Z.to_nat M)%nat in let jj := (k mod Z.to_nat M)%nat in
        do row <- geti dist ii; do d <- geti row jj;
        do rowp <- geti g ii; do p <- geti rowp jj;
        let M := (4 * (M / 2) + 1)%Z in
        if Z.ltb 1000000 (M * M) then Err InteriorPointError
        else interior_loop fuel H c box tol M d (Some (mkvert (fst p) (snd p)))
    end
  else Ok cur.
(** closed_contour.py:353-415. An infinite distance occurs only on a contour without edges, where
    the bounding box already fails. *)
Definition find_interior_point (H : heap) (c : contour) : res contour :=
  do _ <- guard H c;
  do (x, y) <- contour_points H c;
  do (xmin, xmax, ymin, ymax) <- bounding_box (1 / 1000000000000) x y;
  do p <- interior_loop 8 H c (xmin, xmax, ymin, ymax) (1 / 100 * Rmin (xmax - xmin) (ymax - ymin)) 9 0 (k_int c);
  Ok (Contour (k_cell c) (k_edges c) (k_orients c) (k_npts c) (k_vidx c) (k_closest c) p).

(** closed_contour.py:189-192 *)
Definition param_edges (qd : quad * quad) (H : heap) (c : contour) : res heap :=
  fold_res (fun H io =>
      do e <- deref H (fst io); do e <- parameterize qd e;
      Ok (hset H (fst io) (if Z.eqb (snd io) (-1) then reverse_orientation e else e)))
    (combine (k_edges c) (k_orients c)) H.
(** closed_contour.py:180-196 *)
Definition param_contour (qd : quad * quad) (H : heap) (c : contour) : res (heap * contour) :=
  do H <- param_edges qd H c;
  do c <- find_num_pts H c;
  do c <- find_local_vert_idx H c;
  do c <- find_closest_local H c;
  do c <- find_interior_point H c;
  Ok (H, c).
End Inside.

(** closed_contour.py:198-203 *)
Definition deparam_contour (H : heap) (c : contour) : heap * contour :=
  (fold_left (fun H i => match nth_error H i with Some e => hset H i (deparameterize e) | None => H end) (k_edges c) H,
   Contour (k_cell c) (k_edges c) (k_orients c) (Some 0%Z) (k_vidx c) (Some []) (k_int c)).
