(** Model of puncturedfem/mesh/edge.py over real numbers. *)
From Coq Require Import List ZArith Reals String.
From Verif Require Import PyBase PolyModel BaryModel BBoxModel QuadModel CurveModel VertModel.
Import ListNotations.
Open Scope R_scope.

Definition TOL : R := 1 / 1000000000000.
Definition mat2 : Type := (pt * pt)%type.
Definition mv2 (A : mat2) (z : pt) : pt :=
  (fst (fst A) * fst z + snd (fst A) * snd z, fst (snd A) * fst z + snd (snd A) * snd z).

(** One column of the arrays x, unit_tangent, unit_normal, dx_norm, curvature (edge.py:96-100),
    which always have the same length. *)
Record sample : Type := Smp { sx : pt; sT : pt; sN : pt; sw : R; sk : R }.

(** Diary entries (edge.py:103). A matrix argument that is not 2 by 2 is [None]. *)
Inductive step : Type :=
| STranslate (a : vert) | SJoin (a b : vert) | SRotate (theta : R) | SReflX | SReflY
| SDilate (alpha : R) | SOrtho (A : option mat2).

(** edge.py:84-103. The curve type string is resolved to a module of edgelib. *)
Record edge : Type := Edge {
  e_anchor : vert; e_endpnt : vert; e_pos : Z; e_neg : Z;
  e_curve : curve; e_opts : opts; e_qtype : string; e_idx : option Z;
  e_bdry : bool; e_loop : bool; e_param : bool; e_npts : Z;
  e_smp : list sample; e_tb : R * R; e_diary : list step
}.

Definition with_diary (e : edge) (d : list step) : edge :=
  Edge (e_anchor e) (e_endpnt e) (e_pos e) (e_neg e) (e_curve e) (e_opts e) (e_qtype e) (e_idx e)
    (e_bdry e) (e_loop e) (e_param e) (e_npts e) (e_smp e) (e_tb e) d.
Definition with_smp (e : edge) (l : list sample) : edge :=
  Edge (e_anchor e) (e_endpnt e) (e_pos e) (e_neg e) (e_curve e) (e_opts e) (e_qtype e) (e_idx e)
    (e_bdry e) (e_loop e) (e_param e) (e_npts e) l (e_tb e) (e_diary e).
Definition with_param (e : edge) (b : bool) (n : Z) (l : list sample) : edge :=
  Edge (e_anchor e) (e_endpnt e) (e_pos e) (e_neg e) (e_curve e) (e_opts e) (e_qtype e) (e_idx e)
    (e_bdry e) (e_loop e) b n l (e_tb e) (e_diary e).
Definition with_qtype (e : edge) (s : string) : edge :=
  Edge (e_anchor e) (e_endpnt e) (e_pos e) (e_neg e) (e_curve e) (e_opts e) s (e_idx e)
    (e_bdry e) (e_loop e) (e_param e) (e_npts e) (e_smp e) (e_tb e) (e_diary e).

(** edge.py:161-169 *)
Definition check_idx (i : option pyint) : res (option Z) :=
  match i with
  | None => Ok None
  | Some PNotInt => Err TypeError
  | Some (PInt z) => if Z.ltb z 0 then Err ValueError else Ok (Some z)
  end.

(** edge.py:171-188 *)
Definition set_verts (e : edge) (a b : vert) : edge :=
  let loop := veqb a (VVert b) in
  Edge a b (e_pos e) (e_neg e) (e_curve e) (e_opts e) (e_qtype e) (e_idx e)
    (e_bdry e) loop (e_param e) (e_npts e) (e_smp e) (e_tb e)
    (if loop then [STranslate a] else [SJoin a b]).

(** edge.py:190-196 *)
Definition set_cells (e : edge) (p n : Z) : edge :=
  Edge (e_anchor e) (e_endpnt e) p n (e_curve e) (e_opts e) (e_qtype e) (e_idx e)
    (orb (Z.ltb p 0) (Z.ltb n 0)) (e_loop e) (e_param e) (e_npts e) (e_smp e) (e_tb e) (e_diary e).

(** edge.py:217-232 for a pair of numbers *)
Definition check_t_bounds (tb : R * R) : res (R * R) := if Rle_dec (snd tb) (fst tb) then Err ValueError else Ok tb.

(** edge.py:105-147 *)
Definition mk_edge (a b : vert) (p n : Z) (c : curve) (q : string) (i : option pyint) (tb : R * R) (o : opts) : res edge :=
  do i <- check_idx i;
  do tb <- check_t_bounds tb;
  Ok (set_cells (set_verts (Edge a b p n c o q i false false false (-1) [] tb []) a b) p n).

(** edge.py:398-399 and the like *)
Definition log (w : bool) (s : step) (e : edge) : edge := if w then with_diary e (e_diary e ++ [s]) else e.
Definition on_smp (f : sample -> sample) (e : edge) : edge := if e_param e then with_smp e (map f (e_smp e)) else e.

(** edge.py:513-531 *)
Definition translate (w : bool) (a : vert) (e : edge) : edge :=
  on_smp (fun s => Smp (fst (sx s) + vx a, snd (sx s) + vy a) (sT s) (sN s) (sw s) (sk s)) (log w (STranslate a) e).

(** edge.py:533-558 *)
Definition dilate (w : bool) (al : R) (e : edge) : res edge :=
  if Rltb (Rabs al) TOL then Err EdgeTransformationError
  else Ok (on_smp (fun s => Smp (fst (sx s) * al, snd (sx s) * al) (sT s) (sN s) (sw s * Rabs al) (sk s * (1 / al)))
             (log w (SDilate al) e)).

(** Frobenius norm of A^T A - I (edge.py:583) *)
Definition ortho_defect (A : mat2) : R :=
  let '((a, b), (c, d)) := A in
  sqrt ((a * a + c * c - 1) ^ 2 + (a * b + c * d) ^ 2 + (b * a + d * c) ^ 2 + (b * b + d * d - 1) ^ 2).

(** edge.py:591-603, one sample *)
Definition ortho_sample (A : mat2) (s : sample) : sample :=
  let T := mv2 A (sT s) in
  let '((a, b), (c, d)) := A in
  Smp (mv2 A (sx s)) T (snd T, - fst T) (sw s)
    (if andb (Rltb (Rabs (b - c)) TOL) (Rltb (Rabs (a + d)) TOL) then sk s * -1 else sk s).

(** edge.py:560-603 *)
Definition apply_ortho (w : bool) (A : option mat2) (e : edge) : res edge :=
  match A with
  | None => Err EdgeTransformationError
  | Some M => if Rltb TOL (ortho_defect M) then Err EdgeTransformationError
              else Ok (on_smp (ortho_sample M) (log w (SOrtho A) e))
  end.

(** edge.py:431-451 *)
Definition rotate (w : bool) (theta : R) (e : edge) : res edge :=
  let e := log w (SRotate theta) e in
  if e_param e then
    let c := cos (theta * PI / 180) in let s := sin (theta * PI / 180) in
    apply_ortho false (Some ((c, - s), (s, c))) e
  else Ok e.

(** edge.py:453-469 *)
Definition reflect_x (w : bool) (e : edge) : res edge :=
  let e := log w SReflX e in
  if e_param e then apply_ortho false (Some ((1, 0), (0, -1))) e else Ok e.
(** edge.py:471-487 *)
Definition reflect_y (w : bool) (e : edge) : res edge :=
  let e := log w SReflY e in
  if e_param e then apply_ortho false (Some ((-1, 0), (0, 1))) e else Ok e.

(** numpy.arctan2(y, x); the sign of a zero argument is not modelled *)
Definition atan2 (y x : R) : R :=
  if Rlt_dec 0 x then atan (y / x)
  else if Rlt_dec x 0 then if Rle_dec 0 y then atan (y / x) + PI else atan (y / x) - PI
  else if Rlt_dec 0 y then PI / 2 else if Rlt_dec y 0 then - (PI / 2) else 0.

(** edge.py:379-429 *)
Definition join_points (w : bool) (a b : vert) (e : edge) : res edge :=
  let ab := sqrt ((vx a - vx b) ^ 2 + (vy a - vy b) ^ 2) in
  if Rltb ab TOL then Err EdgeTransformationError
  else
    let e := log w (SJoin a b) e in
    if e_param e then
      match nth_error (e_smp e) 0, nth_error (e_smp e) (Z.to_nat (e_npts e - 1)) with
      | Some s0, Some s1 =>
          let x := sx s0 in let y := sx s1 in
          let xy := sqrt ((fst x - fst y) ^ 2 + (snd x - snd y) ^ 2) in
          if Rltb xy TOL then Err EdgeTransformationError
          else
            let e := translate false (mkvert (- fst x) (- snd x)) e in
            let theta := (- atan2 (snd y - snd x) (fst y - fst x) + atan2 (vy b - vy a) (vx b - vx a)) * (180 / PI) in
            do e <- rotate false theta e;
            do e <- dilate false (ab / xy) e;
            Ok (set_verts (translate false a e) a b)
      | _, _ => Err IndexError
      end
    else Ok e.

(** One diary entry or one call of the corresponding method *)
Definition apply_step (w : bool) (s : step) (e : edge) : res edge :=
  match s with
  | STranslate a => Ok (translate w a e)
  | SJoin a b => join_points w a b e
  | SRotate th => rotate w th e
  | SReflX => reflect_x w e
  | SReflY => reflect_y w e
  | SDilate al => dilate w al e
  | SOrtho A => apply_ortho w A e
  end.

(** edge.py:234-248. The loop runs over the list object bound when it starts: a join_points on
    the way rebinds self.diary (through set_verts) and does not disturb the loop. *)
Definition run_diary (e : edge) : res edge := fold_res (fun e s => apply_step false s e) (e_diary e) e.

(** edge.py:296-319 for one node: x, dt*DX, dt^2*DDX and the weight *)
Definition raw_sample (x dx ddx : pt) (w : R) : sample :=
  let dx2 := fst dx ^ 2 + snd dx ^ 2 in
  let T := (fst dx / sqrt dx2, snd dx / sqrt dx2) in
  let N := (snd T, - fst T) in
  Smp x T N (sqrt dx2 * w) ((fst ddx * fst N + snd ddx * snd N) / dx2).

(** edge.py:261-328. [quad_dict] is the pair (trap, kress). Where the speed is zero numpy
    produces nan; here the quotient is an unspecified real. *)
Definition parameterize (qd : quad * quad) (e : edge) : res edge :=
  do q <- (if String.eqb (e_qtype e) "trap" then Ok (fst qd)
           else if String.eqb (e_qtype e) "kress" then Ok (snd qd) else Err ValueError);
  let '(a, b) := e_tb e in
  let dt := 1 / 2 * (b - a) / PI in
  do X <- cX (e_curve e) (e_opts e);
  do DX <- cDX (e_curve e) (e_opts e);
  do DDX <- cDDX (e_curve e) (e_opts e);
  let smp := map (fun tw : R * R =>
    let t := dt * fst tw + a in
    raw_sample (X t) (dt * fst (DX t), dt * snd (DX t)) (dt ^ 2 * fst (DDX t), dt ^ 2 * snd (DDX t)) (snd tw))
    (combine (q_t q) (q_wgt q)) in
  do e <- run_diary (with_param e true (2 * Z.of_nat (q_n q) + 1) smp);
  Ok (with_qtype e (q_type q)).

(** edge.py:330-338 *)
Definition deparameterize (e : edge) : edge := with_param e false (-1) [].

(** edge.py:340-356 *)
Definition get_sampled_points (ignore_endpoint : bool) (e : edge) : res (list pt) :=
  if e_param e then Ok (map sx (if ignore_endpoint then removelast (e_smp e) else e_smp e)) else Err NotParameterizedError.

(** edge.py:358-375 *)
Definition edge_bounding_box (e : edge) : res (R * R * R * R) :=
  if e_param e then bounding_box TOL (map (fun s => fst (sx s)) (e_smp e)) (map (fun s => snd (sx s)) (e_smp e))
  else Err NotParameterizedError.

(** edge.py:491-511 *)
Definition reverse_sample (s : sample) : sample :=
  Smp (sx s) (- fst (sT s), - snd (sT s)) (- fst (sN s), - snd (sN s)) (sw s) (- sk s).
Definition reverse_orientation (e : edge) : edge :=
  if e_param e then with_smp e (rev (map reverse_sample (e_smp e))) else e.

(** Elementwise product of one-dimensional numpy arrays with broadcasting *)
Definition np_mul (u v : list R) : res (list R) :=
  if Nat.eqb (List.length u) (List.length v) then Ok (map (fun p => fst p * snd p) (combine u v))
  else match u, v with
  | [c], _ => Ok (map (fun x => c * x) v)
  | _, [c] => Ok (map (fun x => x * c) u)
  | _, _ => Err BroadcastError
  end.
Definition np_add (u v : list R) : res (list R) :=
  if Nat.eqb (List.length u) (List.length v) then Ok (map (fun p => fst p + snd p) (combine u v))
  else match u, v with
  | [c], _ => Ok (map (fun x => c + x) v)
  | _, [c] => Ok (map (fun x => x + c) u)
  | _, _ => Err BroadcastError
  end.

(** edge.py:607-635. [fun] may not raise. *)
Definition evaluate_function (f : R -> R -> R) (ignore_endpoint : bool) (e : edge) : res (list R) :=
  if e_param e then
    let l := if ignore_endpoint then firstn (Z.to_nat (e_npts e - 1)) (e_smp e) else firstn (Z.to_nat (e_npts e)) (e_smp e) in
    Ok (map (fun s => f (fst (sx s)) (snd (sx s))) l)
  else Err NotParameterizedError.

(** edge.py:637-665 *)
Definition multiply_by_dx_norm (vals : list R) (ignore_endpoint : bool) (e : edge) : res (list R) :=
  if e_param e then
    let w := map sw (e_smp e) in
    if ignore_endpoint then
      if Z.eqb (Z.of_nat (List.length vals)) (e_npts e - 1) then np_mul vals (removelast w) else Err SizeMismatchError
    else if Z.eqb (Z.of_nat (List.length vals)) (e_npts e) then np_mul vals w else Err SizeMismatchError
  else Err NotParameterizedError.

(** Slicing l[:-k]: k = 0 gives the empty list *)
Definition slice_to_neg {A} (k : nat) (l : list A) : list A :=
  match k with O => [] | _ => firstn (List.length l - k) l end.

(** edge.py:667-732 with [v] the unit tangent or the unit normal *)
Definition dot_with (v : sample -> pt) (c1 c2 : list R) (ignore_endpoint : bool) (e : edge) : res (list R) :=
  if e_param e then
    let k := if ignore_endpoint then 1%nat else 0%nat in
    if orb (negb (Z.eqb (Z.of_nat (List.length c1)) (e_npts e - Z.of_nat k)))
           (negb (Z.eqb (Z.of_nat (List.length c2)) (e_npts e - Z.of_nat k))) then Err SizeMismatchError
    else
      do a <- np_mul c1 (slice_to_neg k (map (fun s => fst (v s)) (e_smp e)));
      do b <- np_mul c2 (slice_to_neg k (map (fun s => snd (v s)) (e_smp e)));
      np_add a b
  else Err NotParameterizedError.
Definition dot_with_tangent := dot_with sT.
Definition dot_with_normal := dot_with sN.

Definition np_sum (l : list R) : R := fold_right Rplus 0 l.

(** edge.py:762-796 *)
Definition integrate_preweighted (v : list R) (ignore_endpoint : bool) (e : edge) : res R :=
  if e_param e then
    let h := 2 * PI / IZR (e_npts e - 1) in
    if ignore_endpoint then
      if Z.eqb (Z.of_nat (List.length v)) (e_npts e - 1) then Ok (np_sum (map (fun x => h * x) (removelast v))) else Err SizeMismatchError
    else
      if Z.eqb (Z.of_nat (List.length v)) (e_npts e) then
        match v with
        | [] => Err IndexError
        | v0 :: v' => Ok (1 / 2 * h * (v0 + last v v0) + np_sum (map (fun x => h * x) (removelast v')))
        end
      else Err SizeMismatchError
  else Err NotParameterizedError.

(** edge.py:736-760 *)
Definition integrate_over_edge (v : list R) (ignore_endpoint : bool) (e : edge) : res R :=
  if e_param e then
    do vw <- multiply_by_dx_norm v ignore_endpoint e;
    integrate_preweighted vw ignore_endpoint e
  else Err NotParameterizedError.
