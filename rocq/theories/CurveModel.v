(** Model of puncturedfem/mesh/edgelib over real numbers. *)
From Coq Require Import List ZArith Reals String.
From Verif Require Import PyBase BaryModel.
Import ListNotations.
Open Scope R_scope.

(** Keyword options: the first binding of a name counts. *)
Definition opts : Type := list (string * R).
Fixpoint opt (o : opts) (k : string) : option R :=
  match o with
  | [] => None
  | (k', v) :: o' => if String.eqb k k' then Some v else opt o' k
  end.
(** kwargs[k] *)
Definition kw (o : opts) (k : string) : res R := match opt o k with Some v => Ok v | None => Err KeyError end.

(** The modules of edgelib. A spline carries what scipy's splev returns for derivative orders
    0, 1 and 2 as functions of the spline parameter. *)
Inductive curve : Type :=
| Bean | Cartioid | Circle | CircularArc | CircularArcDeg | Ellipse | Line | SineWave | Teardrop
| Spline (s s1 s2 : R -> pt).

(** circle.py:12-15, 24-27, 36-39 *)
Definition circle_R (o : opts) : R := match opt o "radius" with Some r => r | None => 1 end.

(** circular_arc.py:12-20; numpy.arcsin is Coq's asin on [-1,1] *)
Definition arc_unpack (o : opts) : res (R * R * R * R) :=
  do H <- kw o "H";
  let r := sqrt (1 / 4 + H ^ 2) in
  let t0 := asin (H / r) in
  let omega := - (1 / 2) - t0 / PI in
  Ok (H, r, t0, omega).

(** circular_arc_deg.py:10-22 *)
Definition deg_unpack (o : opts) : res R :=
  match opt o "theta0" with
  | None => Err ValueError
  | Some th => if Rle_dec th 0 then Err ValueError else if Rlt_dec 360 th then Err ValueError else Ok (th / 360)
  end.

(** sine_wave.py:16-26 *)
Definition sine_unpack (o : opts) : res (R * R) :=
  match opt o "amp", opt o "freq" with
  | Some a, Some w => Ok (a, w)
  | _, _ => Err ValueError
  end.

(** teardrop.py:11-20 *)
Definition tear_unpack (o : opts) : res R :=
  let alpha := match opt o "alpha" with Some a => a | None => 3 / 2 end in
  if Rle_dec alpha 1 then Err ValueError else Ok (tan (1 / 2 * PI / alpha)).

(** The functions X: bean.py:11-16, cartioid.py:16-24, circle.py:10-19, circular_arc.py:23-30,
    circular_arc_deg.py:25-31, ellipse.py:10-15, line.py:10-14, sine_wave.py:29-35,
    teardrop.py:23-29, spline.py:27-33. The numpy code maps them over an array. *)
Definition cX (c : curve) (o : opts) : res (R -> pt) :=
  match c with
  | Bean => Ok (fun t => (cos t + 65 / 100 * cos (2 * t), 3 / 2 * sin t))
  | Cartioid => do a <- kw o "a"; Ok (fun t => let r := 1 + a * (1 - t / PI) ^ 8 in (r * cos t, r * sin t))
  | Circle => let r := circle_R o in Ok (fun t => (r * cos t, r * sin t))
  | CircularArc => do (H, r, t0, omega) <- arc_unpack o;
      Ok (fun t => let theta := t0 + PI + omega * t in (1 / 2 + r * cos theta, H + r * sin theta))
  | CircularArcDeg => do omega <- deg_unpack o; Ok (fun t => (cos (omega * t), sin (omega * t)))
  | Ellipse => do a <- kw o "a"; do b <- kw o "b"; Ok (fun t => (a * cos t, b * sin t))
  | Line => Ok (fun t => (t / (2 * PI), 0))
  | SineWave => do (a, w) <- sine_unpack o; Ok (fun t => (t / (2 * PI), a * sin (w * t / 2)))
  | Teardrop => do beta <- tear_unpack o; Ok (fun t => (2 * sin (t / 2), - beta * sin t))
  | Spline s _ _ => Ok (fun t => s (1 / 2 / PI * t))
  end.

(** The functions DX: bean.py:19-24, cartioid.py:27-36, circle.py:22-31, circular_arc.py:33-40,
    circular_arc_deg.py:34-40, ellipse.py:18-23, line.py:17-21, sine_wave.py:38-44,
    teardrop.py:32-38, spline.py:36-42 *)
Definition cDX (c : curve) (o : opts) : res (R -> pt) :=
  match c with
  | Bean => Ok (fun t => (- sin t - 2 * (65 / 100) * sin (2 * t), 3 / 2 * cos t))
  | Cartioid => do a <- kw o "a"; Ok (fun t =>
      let r := 1 + a * (1 - t / PI) ^ 8 in let dr := - (8 * a / PI) * (1 - t / PI) ^ 7 in
      (dr * cos t - r * sin t, dr * sin t + r * cos t))
  | Circle => let r := circle_R o in Ok (fun t => (- r * sin t, r * cos t))
  | CircularArc => do (H, r, t0, omega) <- arc_unpack o;
      Ok (fun t => let theta := t0 + PI + omega * t in (- omega * r * sin theta, omega * r * cos theta))
  | CircularArcDeg => do omega <- deg_unpack o; Ok (fun t => (- omega * sin (omega * t), omega * cos (omega * t)))
  | Ellipse => do a <- kw o "a"; do b <- kw o "b"; Ok (fun t => (- a * sin t, b * cos t))
  | Line => Ok (fun t => (1 / (2 * PI), 0))
  | SineWave => do (a, w) <- sine_unpack o; Ok (fun t => (1 / (2 * PI), 1 / 2 * a * w * cos (w * t / 2)))
  | Teardrop => do beta <- tear_unpack o; Ok (fun t => (cos (t / 2), - beta * cos t))
  | Spline _ s1 _ => Ok (fun t => (1 / 2 / PI * fst (s1 (1 / 2 / PI * t)), 1 / 2 / PI * snd (s1 (1 / 2 / PI * t))))
  end.

(** The functions DDX: bean.py:27-32, cartioid.py:39-49, circle.py:34-43, circular_arc.py:43-50,
    circular_arc_deg.py:43-49, ellipse.py:26-31, line.py:24-27, sine_wave.py:47-52,
    teardrop.py:41-47, spline.py:45-51 *)
Definition cDDX (c : curve) (o : opts) : res (R -> pt) :=
  match c with
  | Bean => Ok (fun t => (- cos t - 4 * (65 / 100) * cos (2 * t), - (3 / 2) * sin t))
  | Cartioid => do a <- kw o "a"; Ok (fun t =>
      let r := 1 + a * (1 - t / PI) ^ 8 in let dr := - (8 * a / PI) * (1 - t / PI) ^ 7 in
      let ddr := 56 * a / (PI * PI) * (1 - t / PI) ^ 6 in
      ((ddr - r) * cos t - 2 * dr * sin t, (ddr - r) * sin t + 2 * dr * cos t))
  | Circle => let r := circle_R o in Ok (fun t => (- r * cos t, - r * sin t))
  | CircularArc => do (H, r, t0, omega) <- arc_unpack o;
      Ok (fun t => let theta := t0 + PI + omega * t in (- omega * omega * r * cos theta, - omega * omega * r * sin theta))
  | CircularArcDeg => do omega <- deg_unpack o; Ok (fun t => (- omega * omega * cos (omega * t), - omega * omega * sin (omega * t)))
  | Ellipse => do a <- kw o "a"; do b <- kw o "b"; Ok (fun t => (- a * cos t, - b * sin t))
  | Line => Ok (fun t => (0, 0))
  | SineWave => do (a, w) <- sine_unpack o; Ok (fun t => (0, - (1 / 4) * a * w * w * sin (w * t / 2)))
  | Teardrop => do beta <- tear_unpack o; Ok (fun t => (- (1 / 2) * sin (t / 2), beta * sin t))
  | Spline _ _ s2 => Ok (fun t => (1 / 4 / PI / PI * fst (s2 (1 / 2 / PI * t)), 1 / 4 / PI / PI * snd (s2 (1 / 2 / PI * t))))
  end.
