(** Model of what is left of an Edge when a method raises, and of the names of curves
    (puncturedfem/mesh/edge.py). EdgeModel drops the edge when a method raises; here every
    method returns the edge as the exception leaves it. *)
From Coq Require Import List ZArith Reals String.
From Verif Require Import PyBase PolyModel BaryModel QuadModel CurveModel VertModel EdgeModel.
Import ListNotations.
Open Scope R_scope.

(** The edge afterwards, and the exception if there was one *)
Definition halt : Type := (edge * option exc)%type.
Definition andthen (r : halt) (f : edge -> halt) : halt :=
  match snd r with None => f (fst r) | Some _ => r end.

(** edge.py:533-558: the check comes before the diary *)
Definition st_dilate (w : bool) (al : R) (e : edge) : halt :=
  if Rltb (Rabs al) TOL then (e, Some EdgeTransformationError)
  else (on_smp (fun s => Smp (fst (sx s) * al, snd (sx s) * al) (sT s) (sN s) (sw s * Rabs al) (sk s * (1 / al)))
          (log w (SDilate al) e), None).

(** edge.py:560-603: the checks come before the diary *)
Definition st_ortho (w : bool) (A : option mat2) (e : edge) : halt :=
  match A with
  | None => (e, Some EdgeTransformationError)
  | Some M => if Rltb TOL (ortho_defect M) then (e, Some EdgeTransformationError)
              else (on_smp (ortho_sample M) (log w (SOrtho A) e), None)
  end.

(** edge.py:431-451, 453-469, 471-487: the diary comes first *)
Definition st_rotate (w : bool) (theta : R) (e : edge) : halt :=
  let e := log w (SRotate theta) e in
  if e_param e then
    let c := cos (theta * PI / 180) in let s := sin (theta * PI / 180) in
    st_ortho false (Some ((c, - s), (s, c))) e
  else (e, None).
Definition st_reflect_x (w : bool) (e : edge) : halt :=
  let e := log w SReflX e in
  if e_param e then st_ortho false (Some ((1, 0), (0, -1))) e else (e, None).
Definition st_reflect_y (w : bool) (e : edge) : halt :=
  let e := log w SReflY e in
  if e_param e then st_ortho false (Some ((-1, 0), (0, 1))) e else (e, None).

(** edge.py:379-429: the first check, the diary, the second check, four changes of the samples *)
Definition st_join (w : bool) (a b : vert) (e : edge) : halt :=
  let ab := sqrt ((vx a - vx b) ^ 2 + (vy a - vy b) ^ 2) in
  if Rltb ab TOL then (e, Some EdgeTransformationError)
  else
    let e := log w (SJoin a b) e in
    if e_param e then
      match nth_error (e_smp e) 0, nth_error (e_smp e) (Z.to_nat (e_npts e - 1)) with
      | Some s0, Some s1 =>
          let x := sx s0 in let y := sx s1 in
          let xy := sqrt ((fst x - fst y) ^ 2 + (snd x - snd y) ^ 2) in
          if Rltb xy TOL then (e, Some EdgeTransformationError)
          else
            let theta := (- atan2 (snd y - snd x) (fst y - fst x) + atan2 (vy b - vy a) (vx b - vx a)) * (180 / PI) in
            andthen (andthen (st_rotate false theta (translate false (mkvert (- fst x) (- snd x)) e))
                       (st_dilate false (ab / xy)))
              (fun e => (set_verts (translate false a e) a b, None))
      | _, _ => (e, Some IndexError)
      end
    else (e, None).

Definition st_step (w : bool) (s : step) (e : edge) : halt :=
  match s with
  | STranslate a => (translate w a e, None)
  | SJoin a b => st_join w a b e
  | SRotate th => st_rotate w th e
  | SReflX => st_reflect_x w e
  | SReflY => st_reflect_y w e
  | SDilate al => st_dilate w al e
  | SOrtho A => st_ortho w A e
  end.

(** edge.py:234-248 *)
Definition st_run (l : list step) (e : edge) : halt :=
  fold_left (fun r s => andthen r (st_step false s)) l (e, None).

(** The name of a curve (edge.py:111, 136): any object may be given. One that is not a str is
    known here by the text that an f-string shows for it. *)
Inductive cname : Type := CStr (s : string) | COther (shown : string).
Definition shown (t : cname) : string := match t with CStr s | COther s => s end.

(** The modules of edgelib by name; a spline needs what scipy returns for its options. *)
Definition find_module (sp : curve) (s : string) : option curve :=
  if String.eqb s "bean" then Some Bean
  else if String.eqb s "cartioid" then Some Cartioid
  else if String.eqb s "circle" then Some Circle
  else if String.eqb s "circular_arc" then Some CircularArc
  else if String.eqb s "circular_arc_deg" then Some CircularArcDeg
  else if String.eqb s "ellipse" then Some Ellipse
  else if String.eqb s "line" then Some Line
  else if String.eqb s "sine_wave" then Some SineWave
  else if String.eqb s "spline" then Some sp
  else if String.eqb s "teardrop" then Some Teardrop
  else None.

(** edge.py:200-215. [there] says whether edgelib/NAME.py exists. The file that is looked for
    is that of the current type. *)
Definition set_curve_type (there : string -> bool) (cur new : cname) : res cname :=
  match new with
  | COther _ => Err ValueError
  | CStr _ =>
      match cur with
      | COther _ => Err TypeError
      | CStr s => if there s then Ok new else Err FileExistsError
      end
  end.

(** An exception, or the ModuleNotFoundError of the import (edge.py:250-259) *)
Inductive fault : Type := Raised (x : exc) | NoModule.

Definition with_curve (e : edge) (c : curve) : edge :=
  Edge (e_anchor e) (e_endpnt e) (e_pos e) (e_neg e) c (e_opts e) (e_qtype e) (e_idx e)
    (e_bdry e) (e_loop e) (e_param e) (e_npts e) (e_smp e) (e_tb e) (e_diary e).
Definition with_npts (e : edge) (n : Z) : edge := with_param e (e_param e) n (e_smp e).

(** edge.py:261-328 with the name [t] of the curve. Simplification: when DX or DDX raise, the
    arrays assigned before are not recorded; FaultProofs shows that they raise only when X has
    already raised. A directory of edgelib with a name of a Python identifier would be imported
    as an empty module; there is none in the repository. *)
Definition st_parameterize (sp : curve) (qd : quad * quad) (t : cname) (e : edge) : edge * option fault :=
  match (if String.eqb (e_qtype e) "trap" then Some (fst qd)
         else if String.eqb (e_qtype e) "kress" then Some (snd qd) else None) with
  | None => (e, Some (Raised ValueError))
  | Some q =>
      let n := (2 * Z.of_nat (q_n q) + 1)%Z in
      let e1 := with_npts e n in
      let '(a, b) := e_tb e in
      let dt := 1 / 2 * (b - a) / PI in
      match find_module sp (shown t) with
      | None => (e1, Some NoModule)
      | Some c =>
          match cX c (e_opts e), cDX c (e_opts e), cDDX c (e_opts e) with
          | Err x, _, _ | _, Err x, _ | _, _, Err x => (e1, Some (Raised x))
          | Ok X, Ok DX, Ok DDX =>
              let smp := map (fun tw : R * R =>
                let t := dt * fst tw + a in
                raw_sample (X t) (dt * fst (DX t), dt * snd (DX t)) (dt ^ 2 * fst (DDX t), dt ^ 2 * snd (DDX t)) (snd tw))
                (combine (q_t q) (q_wgt q)) in
              let '(e2, x) := st_run (e_diary e) (with_param e true n smp) in
              match x with Some x => (e2, Some (Raised x)) | None => (with_qtype e2 (q_type q), None) end
          end
      end
  end.
