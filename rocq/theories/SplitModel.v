(** Model of puncturedfem/mesh/transform.py and split_edge.py over real numbers. *)
From Coq Require Import List ZArith Reals String.
From Verif Require Import PyBase PolyModel BaryModel QuadModel CurveModel VertModel EdgeModel.
Import ListNotations.
Open Scope R_scope.

(** The 2 by m arrays of transform.py are lists of points. *)

(** transform.py:139-158. The array is changed in place; the callers use the result only. *)
Definition tr_translate (a : vert) (x : list pt) : list pt := map (fun z => (fst z + vx a, snd z + vy a)) x.
(** transform.py:161-180 *)
Definition tr_dilate (al : R) (x : list pt) : res (list pt) :=
  if Rltb (Rabs al) TOL then Err EdgeTransformationError else Ok (map (fun z => (al * fst z, al * snd z)) x).
(** transform.py:183-214 *)
Definition tr_ortho (A : option mat2) (x : list pt) : res (list pt) :=
  match A with
  | None => Err EdgeTransformationError
  | Some M => if Rltb TOL (ortho_defect M) then Err EdgeTransformationError else Ok (map (mv2 M) x)
  end.
(** transform.py:78-98 *)
Definition tr_rotate (theta : R) (x : list pt) : res (list pt) :=
  let c := cos (theta * PI / 180) in let s := sin (theta * PI / 180) in tr_ortho (Some ((c, - s), (s, c))) x.
(** transform.py:30-75. The views xi and xf move with the first translation; only their
    difference is used after it. *)
Definition tr_join (a b : vert) (x : list pt) : res (list pt) :=
  let ab := sqrt ((vx a - vx b) ^ 2 + (vy a - vy b) ^ 2) in
  if Rltb ab TOL then Err EdgeTransformationError
  else match x with
  | [] => Err IndexError
  | xi :: _ =>
      let xf := last x xi in
      let d := sqrt ((fst xi - fst xf) ^ 2 + (snd xi - snd xf) ^ 2) in
      if Rltb d TOL then Err EdgeTransformationError
      else
        let x := tr_translate (mkvert (- fst xi) (- snd xi)) x in
        let theta := (- atan2 (snd xf - snd xi) (fst xf - fst xi) + atan2 (vy b - vy a) (vx b - vx a)) * (180 / PI) in
        do x <- tr_rotate theta x;
        do x <- tr_dilate (ab / d) x;
        Ok (tr_translate a x)
  end.
(** getattr(transform, method_name)(x, *args); reflections are transform.py:101-136 *)
Definition tr_step (x : list pt) (s : step) : res (list pt) :=
  match s with
  | STranslate a => Ok (tr_translate a x)
  | SJoin a b => tr_join a b x
  | SRotate th => tr_rotate th x
  | SReflX => tr_ortho (Some ((1, 0), (0, -1))) x
  | SReflY => tr_ortho (Some ((-1, 0), (0, 1))) x
  | SDilate al => tr_dilate al x
  | SOrtho A => tr_ortho A x
  end.

(** split_edge.py:88-124 *)
Definition split_single (e : edge) (t : R) : res (edge * edge) :=
  let '(a, b) := e_tb e in
  do X <- cX (e_curve e) (e_opts e);
  do z <- fold_res tr_step (e_diary e) [X a; X t; X b];
  match z with
  | [z0; z1; z2] =>
      let v0 := mkvert (fst z0) (snd z0) in
      let v1 := mkvert (fst z1) (snd z1) in
      let v2 := mkvert (fst z2) (snd z2) in
      do e1 <- mk_edge v0 v1 (e_pos e) (e_neg e) (e_curve e) "kress" None (a, t) (e_opts e);
      do e2 <- mk_edge v1 v2 (e_pos e) (e_neg e) (e_curve e) "kress" None (t, b) (e_opts e);
      Ok (e1, e2)
  | _ => Err IndexError
  end.

(** list.sort *)
Fixpoint insert_r (t : R) (l : list R) : list R :=
  match l with
  | [] => [t]
  | u :: l' => if Rle_dec t u then t :: u :: l' else u :: insert_r t l'
  end.
Definition sort_r (l : list R) : list R := fold_right insert_r [] l.

(** The loop of split_edge.py:80-83; the second component is the local e2 if it is bound *)
Fixpoint split_loop (e : edge) (l : list R) (last : option edge) : res (list edge * option edge) :=
  match l with
  | [] => Ok ([], last)
  | t :: l' => do (e1, e2) <- split_single e t; do (es, r) <- split_loop e2 l' (Some e2); Ok (e1 :: es, r)
  end.
(** split_edge.py:77-85 on the sorted list *)
Definition split_multiple (e : edge) (l : list R) : res (list edge) :=
  do (es, r) <- split_loop e l None;
  match r with Some e2 => Ok (es ++ [e2]) | None => Err UnboundLocalError end.

(** Arguments of split_edge: None, a number, a list or a one-dimensional array, or anything
    else. A list element is a float or something else. *)
Inductive elt : Type := EFloat (r : R) | EOther.
Inductive tspec : Type := TNone | TNum (t : R) | TList (l : list elt) | TArr (l : list elt) | TOther.
Inductive nspec : Type := NNone | NInt (z : Z) | NOther.
Definition floats (l : list elt) : option (list R) :=
  fold_right (fun x r => match x, r with EFloat t, Some l => Some (t :: l) | _, _ => None end) (Some []) l.

(** split_edge.py:19-74. The second component is the caller's t_split object after the call:
    sort works in place on a list, but on a fresh list for an array. *)
Definition split_edge (e : edge) (ts : tspec) (n : nspec) : res (list edge) * tspec :=
  let on_list l := match floats l with Some l => split_multiple e (sort_r l) | None => Err ValueError end in
  match n with
  | NInt z =>
      if Z.ltb z 2 then (Err ValueError, ts)
      else (split_multiple e (sort_r (removelast (tl (linspace (fst (e_tb e)) (snd (e_tb e)) (Z.to_nat z))))), ts)
  | _ =>
      match ts with
      | TNone => (Err ValueError, ts)
      | TNum t => (do (e1, e2) <- split_single e t; Ok [e1; e2], ts)
      | TArr l => (on_list l, ts)
      | TList l => (on_list l, match floats l with Some l' => TList (map EFloat (sort_r l')) | None => ts end)
      | TOther => (Err ValueError, ts)
      end
  end.
