(** Transformations of the samples of an edge in double precision (C87) *)
From Coq Require Import List ZArith.
From Flocq Require Import Core BinarySingleNaN.
From Verif Require Import PyBase FloatIdxModel FloatPolyModel FloatInnerModel.
Import ListNotations.

(** One column of the arrays of a sampled edge: x, unit_tangent, unit_normal, dx_norm, curvature (edge.py:84-103, 296-319) *)
Record fsample : Type := FSmp { fx : double; fy : double; ftx : double; fty : double; fnx : double; fny : double; fw : double; fk : double }.
(** globals.py: TOL = 1e-12, the double nearest to 10^-12 *)
Definition dtol : double := ddiv (of_int 1) (of_int 1000000000000).

(** edge.py:528-531. Simplification, here and below: the diary is not part of this model (EdgeModel.v has it). *)
Definition d_translate (ax ay : double) (l : list fsample) : list fsample :=
  map (fun s => FSmp (dadd (fx s) ax) (dadd (fy s) ay) (ftx s) (fty s) (fnx s) (fny s) (fw s) (fk s)) l.
(** edge.py:544-558 *)
Definition d_dilate (al : double) (l : list fsample) : res (list fsample) :=
  if Bltb (Babs al) dtol then Err EdgeTransformationError
  else Ok (map (fun s => FSmp (dmul (fx s) al) (dmul (fy s) al) (ftx s) (fty s) (fnx s) (fny s) (dmul (fw s) (Babs al)) (dmul (fk s) (ddiv (of_int 1) al))) l).
(** edge.py:501-511 *)
Definition d_reverse (l : list fsample) : list fsample :=
  rev (map (fun s => FSmp (fx s) (fy s) (Bopp (ftx s)) (Bopp (fty s)) (Bopp (fnx s)) (Bopp (fny s)) (fw s) (Bopp (fk s))) l).

Section Ortho.
(** One entry of [A @ x], that is a x + b y: the matrix product of numpy *)
Variable dot : double -> double -> double -> double -> double.
(** numpy.linalg.norm of A^T A - I for the matrix with rows (a, b) and (c, d) *)
Variable defect : double -> double -> double -> double -> double.
(** edge.py:592-603 *)
Definition d_flips (a b c d : double) : bool := andb (Bltb (Babs (dsub b c)) dtol) (Bltb (Babs (dadd a d)) dtol).
Definition d_ortho_sample (a b c d : double) (s : fsample) : fsample :=
  let tx := dot a (ftx s) b (fty s) in let ty := dot c (ftx s) d (fty s) in
  FSmp (dot a (fx s) b (fy s)) (dot c (fx s) d (fy s)) tx ty ty (Bopp tx) (fw s) (if d_flips a b c d then dmul (fk s) (of_int (-1)) else fk s).
(** edge.py:579-603 for a 2 by 2 matrix *)
Definition d_ortho (a b c d : double) (l : list fsample) : res (list fsample) :=
  if Bltb dtol (defect a b c d) then Err EdgeTransformationError else Ok (map (d_ortho_sample a b c d) l).
(** edge.py:447-451; [c] and [s] are the computed cosine and sine *)
Definition d_rotate (c s : double) (l : list fsample) : res (list fsample) := d_ortho c (Bopp s) s c l.
(** edge.py:467-469 *)
Definition d_reflect_x (l : list fsample) : res (list fsample) := d_ortho (of_int 1) (of_int 0) (of_int 0) (of_int (-1)) l.
(** edge.py:485-487 *)
Definition d_reflect_y (l : list fsample) : res (list fsample) := d_ortho (of_int (-1)) (of_int 0) (of_int 0) (of_int 1) l.
End Ortho.
