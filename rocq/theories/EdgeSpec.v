(** Vocabulary for sampled plane curves: points as complex numbers, similarities, jets. *)
From Coq Require Import List ZArith Reals Bool String.
From Verif Require Import BaryModel CurveModel VertModel EdgeModel.
Import ListNotations.
Open Scope R_scope.

Definition pt_add (z w : pt) : pt := (fst z + fst w, snd z + snd w).
Definition pt_sub (z w : pt) : pt := (fst z - fst w, snd z - snd w).
Definition pt_scale (a : R) (z : pt) : pt := (a * fst z, a * snd z).
Definition pt_mul (z w : pt) : pt := (fst z * fst w - snd z * snd w, fst z * snd w + snd z * fst w).
Definition pt_conj (z : pt) : pt := (fst z, - snd z).
Definition norm2 (z : pt) : R := fst z * fst z + snd z * snd z.
Definition norm (z : pt) : R := sqrt (norm2 z).
Definition cross (z w : pt) : R := fst z * snd w - snd z * fst w.
(** The clockwise quarter turn *)
Definition cw (z : pt) : pt := (snd z, - fst z).
(** The quotient of complex numbers *)
Definition pt_div (z w : pt) : pt := pt_scale (/ norm2 w) (pt_mul z (pt_conj w)).

(** A point of a curve with its first and second derivative and a quadrature weight *)
Record jet : Type := Jet { jx : pt; jd : pt; jdd : pt; jw : R }.
Definition regular (j : jet) : Prop := 0 < norm2 (jd j).

(** What an edge should store at such a point: position, unit tangent, clockwise normal, speed
    times weight, and curvature signed with respect to the clockwise normal. *)
Definition sample_of (j : jet) : sample :=
  let v := norm (jd j) in
  Smp (jx j) (pt_scale (/ v) (jd j)) (cw (pt_scale (/ v) (jd j))) (v * jw j) (- cross (jd j) (jdd j) / v ^ 3).

(** Similarities of the plane: z -> c z + d, or c conj(z) + d when [s_flip] *)
Record sim : Type := Sim { s_c : pt; s_d : pt; s_flip : bool }.
Definition lin (S : sim) (z : pt) : pt := pt_mul (s_c S) (if s_flip S then pt_conj z else z).
Definition sapp (S : sim) (z : pt) : pt := pt_add (lin S z) (s_d S).
Definition sim_id : sim := Sim (1, 0) (0, 0) false.
Definition sim_comp (S2 S1 : sim) : sim := Sim (lin S2 (s_c S1)) (sapp S2 (s_d S1)) (xorb (s_flip S2) (s_flip S1)).
Definition jmap (S : sim) (j : jet) : jet := Jet (sapp S (jx j)) (lin S (jd j)) (lin S (jdd j)) (jw j).

(** The similarity with real-linear part z -> z (b - a) / (q - p) that sends p to a *)
Definition join_sim (p q a b : pt) : sim :=
  let c := pt_div (pt_sub b a) (pt_sub q p) in Sim c (pt_sub a (pt_mul c p)) false.

(** The transformation a step stands for, given the current first and last point *)
Definition step_sim (p q : pt) (s : step) : sim :=
  match s with
  | STranslate a => Sim (1, 0) (coord a) false
  | SJoin a b => join_sim p q (coord a) (coord b)
  | SRotate th => Sim (cos (th * PI / 180), sin (th * PI / 180)) (0, 0) false
  | SReflX => Sim (1, 0) (0, 0) true
  | SReflY => Sim (-1, 0) (0, 0) true
  | SDilate al => Sim (al, 0) (0, 0) false
  | SOrtho (Some ((a, b), (c, d))) => Sim (a, c) (0, 0) (if Rlt_dec (a * d - b * c) 0 then true else false)
  | SOrtho None => sim_id
  end.

Definition orthogonal (A : mat2) : Prop :=
  let '((a, b), (c, d)) := A in a * a + c * c = 1 /\ b * b + d * d = 1 /\ a * b + c * d = 0.

(** Steps the code accepts and that stand for an exact similarity with positive factor *)
Definition step_fine (p q : pt) (s : step) : Prop :=
  match s with
  | SJoin a b => TOL <= pdist (coord a) (coord b) /\ TOL <= pdist p q /\ TOL <= pdist (coord a) (coord b) / pdist p q
  | SDilate al => TOL <= al
  | SOrtho (Some A) => orthogonal A
  | SOrtho None => False
  | _ => True
  end.

(** A whole diary, applied to a curve that runs from p to q *)
Fixpoint diary_sim (p q : pt) (l : list step) : sim :=
  match l with
  | [] => sim_id
  | s :: l' => let S := step_sim p q s in sim_comp (diary_sim (sapp S p) (sapp S q) l') S
  end.
Fixpoint diary_fine (p q : pt) (l : list step) : Prop :=
  match l with
  | [] => True
  | s :: l' => step_fine p q s /\ let S := step_sim p q s in diary_fine (sapp S p) (sapp S q) l'
  end.

(** The edge after a step: new samples; the diary entry if it is recorded; a join also sets the
    vertices and restarts the diary. All other fields are unchanged. *)
Definition after_step (w : bool) (s : step) (e : edge) (l : list sample) : edge :=
  match s with SJoin a b => set_verts (with_smp e l) a b | _ => with_smp (log w s e) l end.

(** The vertices set by the last join of a diary *)
Fixpoint last_join (l : list step) : option (vert * vert) :=
  match l with
  | [] => None
  | s :: l' => match last_join l' with
               | Some ab => Some ab
               | None => match s with SJoin a b => Some (a, b) | _ => None end
               end
  end.
Definition after_diary (l : list step) (e : edge) (smp : list sample) : edge :=
  match last_join l with Some (a, b) => set_verts (with_smp e smp) a b | None => with_smp e smp end.

(** The jets of a curve at the nodes and weights of a quadrature *)
Definition curve_jets (c c' c'' : R -> pt) (ts ws : list R) : list jet :=
  map (fun tw => Jet (c (fst tw)) (c' (fst tw)) (c'' (fst tw)) (snd tw)) (combine ts ws).

(** The curve an edge stands for, as a function of its own parameter: the library curve [X]
    followed by the transformations of the diary *)
Definition traced (X : R -> pt) (e : edge) (t : R) : pt :=
  sapp (diary_sim (X (fst (e_tb e))) (X (snd (e_tb e))) (e_diary e)) (X t).

(** Consecutive pairs of a list *)
Fixpoint pairs {A} (l : list A) : list (A * A) :=
  match l with
  | x :: ((y :: _) as l') => (x, y) :: pairs l'
  | _ => []
  end.

(** The fresh vertex at a point *)
Definition ptv (z : pt) : vert := mkvert (fst z) (snd z).

(** What the pieces inherit *)
Definition piece_of (e p : edge) : Prop :=
  e_pos p = e_pos e /\ e_neg p = e_neg e /\ e_curve p = e_curve e /\ e_opts p = e_opts e /\ e_qtype p = "kress"%string /\ e_idx p = None /\ e_param p = false.

(** Points of the curve [X] that the tolerance keeps apart, also after scaling by [k] *)
Definition far (X : R -> pt) (k : R) (s t : R) : Prop := TOL <= pdist (X s) (X t) /\ TOL <= k * pdist (X s) (X t).

(** A sampled edge: as many samples as announced, at least three, with nonnegative weights *)
Definition well_sampled (e : edge) : Prop :=
  e_param e = true /\ Z.of_nat (List.length (e_smp e)) = e_npts e /\ (3 <= e_npts e)%Z /\ Forall (fun s => 0 <= sw s) (e_smp e).

(** Sums, products and the trapezoid rule of a list of samples with step [h] *)
Definition sum_list (l : list R) : R := fold_right Rplus 0 l.
Definition zip_with (f : R -> R -> R) (u v : list R) : list R := map (fun p => f (fst p) (snd p)) (combine u v).
Definition trapezoid (h : R) (l : list R) : R := sum_list (map (fun p => h * (fst p + snd p) / 2) (pairs l)).
Definition lincomb (a b : R) (u v : list R) : list R := zip_with (fun x y => a * x + b * y) u v.
