(** What the meshes of the library should be: the curves, the cells with their contours, and the
    regions these enclose. *)
From Coq Require Import List ZArith Reals.
From Verif Require Import BaryModel EdgeSpec.
Import List ListNotations.
Open Scope R_scope.

(** Curves, as functions of a parameter from 0 to 1 *)
Inductive shape : Type :=
| Segment (a b : pt)
| Arc (c : pt) (r from sweep : R)  (** part of the circle of radius [r] about [c] *)
| Oval (c : pt) (a b : R)  (** ellipse about [c] with half axes [a] and [b] *)
| Wave (a : pt) (len amp : R) (n : R).  (** [n] half waves over a horizontal segment of length [len] *)
Definition point (s : shape) (u : R) : pt :=
  match s with
  | Segment a b => (fst a + u * (fst b - fst a), snd a + u * (snd b - snd a))
  | Arc c r f w => (fst c + r * cos (f + w * u), snd c + r * sin (f + w * u))
  | Oval c a b => (fst c + a * cos (2 * PI * u), snd c + b * sin (2 * PI * u))
  | Wave a len amp n => (fst a + len * u, snd a + amp * sin (n * PI * u))
  end.
(** The derivative with respect to the parameter *)
Definition speed (s : shape) (u : R) : pt :=
  match s with
  | Segment a b => (fst b - fst a, snd b - snd a)
  | Arc c r f w => (- (r * w * sin (f + w * u)), r * w * cos (f + w * u))
  | Oval c a b => (- (2 * PI * a * sin (2 * PI * u)), 2 * PI * b * cos (2 * PI * u))
  | Wave a len amp n => (len, amp * (n * PI) * cos (n * PI * u))
  end.

Definition bend (s : shape) (u : R) : pt :=
  match s with
  | Segment a b => (0, 0)
  | Arc c r f w => (- (r * w * w * cos (f + w * u)), - (r * w * w * sin (f + w * u)))
  | Oval c a b => (- (2 * PI * (2 * PI) * a * cos (2 * PI * u)), - (2 * PI * (2 * PI) * b * sin (2 * PI * u)))
  | Wave a len amp n => (0, - (amp * (n * PI) * (n * PI) * sin (n * PI * u)))
  end.
(** The curve travelled in time [2 PI], at node [t] with weight [w] *)
Definition shape_jet (s : shape) (t w : R) : jet :=
  Jet (point s (t / (2 * PI))) (pt_scale (/ (2 * PI)) (speed s (t / (2 * PI)))) (pt_scale (/ (2 * PI) * / (2 * PI)) (bend s (t / (2 * PI)))) w.

(** A contour: numbers of edges with +1 if travelled forwards and -1 if backwards, and a point that
    it goes around. *)
Record ring : Type := Ring { r_edges : list (nat * Z); r_about : pt }.
Definition fore (l : list nat) : list (nat * Z) := map (fun i => (i, 1%Z)) l.
Definition back (l : list nat) : list (nat * Z) := map (fun i => (i, (-1)%Z)) l.

(** ** A square with a circular hole *)
Definition square_shapes : list shape :=
  [Segment (0, 0) (1, 0); Segment (1, 0) (1, 1); Segment (1, 1) (0, 1); Segment (0, 1) (0, 0); Oval (1 / 2, 1 / 2) (1 / 4) (1 / 4)].
(** The contours of each cell, the outer one first *)
Definition square_cells : list (list ring) :=
  [[Ring (fore [0; 1; 2; 3]%nat) (1 / 2, 1 / 2); Ring (back [4%nat]) (1 / 2, 1 / 2)];
   [Ring (fore [4%nat]) (1 / 2, 1 / 2)]].
(** The region inside the outer contour of each cell *)
Definition box (x0 x1 y0 y1 : R) (p : pt) : Prop := x0 < fst p < x1 /\ y0 < snd p < y1.
Definition oval (c : pt) (a b : R) (p : pt) : Prop := ((fst p - fst c) / a) ^ 2 + ((snd p - snd c) / b) ^ 2 < 1.
Definition square_regions : list (pt -> Prop) := [box 0 1 0 1; oval (1 / 2, 1 / 2) (1 / 4) (1 / 4)].

(** ** Pac-Man and a ghost. Pac-Man is a disc of radius 2/5 with a mouth of 60 degrees. *)
Definition lips : R := 1 / 2 + sqrt 3 / 5.
Definition figure_shapes : list shape :=
  [Segment (1 / 2, 1 / 2) (lips, 7 / 10); Arc (1 / 2, 1 / 2) (2 / 5) (PI / 6) (5 * PI / 3); Segment (lips, 3 / 10) (1 / 2, 1 / 2); Oval (46 / 100, 7 / 10) (1 / 10) (1 / 10);
   Oval (3 / 2, 1 / 2) (1 / 10) (1 / 10); Oval (2, 1 / 2) (1 / 10) (1 / 10); Oval (5 / 2, 1 / 2) (1 / 10) (1 / 10);
   Wave (32 / 10, 14 / 100) (6 / 10) (6 / 100) 6; Segment (38 / 10, 14 / 100) (38 / 10, 62 / 100); Arc (35 / 10, 62 / 100) (3 / 10) 0 PI; Segment (32 / 10, 62 / 100) (32 / 10, 14 / 100);
   Oval (335 / 100, 56 / 100) (9 / 100) (12 / 100); Oval (365 / 100, 56 / 100) (9 / 100) (12 / 100)].
Definition frame_shapes : list shape :=
  [Segment (0, 0) (1, 0); Segment (1, 0) (3, 0); Segment (3, 0) (4, 0); Segment (4, 0) (4, 1); Segment (4, 1) (3, 1); Segment (3, 1) (1, 1); Segment (1, 1) (0, 1); Segment (0, 1) (0, 0)].
Definition pacman_shapes : list shape := frame_shapes ++ [Segment (1, 0) (1, 1); Segment (3, 0) (3, 1)] ++ figure_shapes.
Definition subdiv_shapes : list shape := frame_shapes ++ [Segment (1, 0) (1, 1 / 2); Segment (1, 1 / 2) (1, 1); Segment (3, 0) (3, 1 / 2); Segment (3, 1 / 2) (3, 1)] ++ figure_shapes.
(** [k] edges come before the figures; [v1] and [v2] are the inner sides x = 1 and x = 3 upwards *)
Definition game_cells (k : nat) (v1 v2 : list nat) : list (list ring) :=
  [[Ring (fore ([0] ++ v1 ++ [6; 7])%nat) (1 / 2, 1 / 2); Ring (back [k; k + 2; k + 1]%nat) (45 / 100, 1 / 2)];
   [Ring (fore [k; k + 1; k + 2]%nat) (45 / 100, 1 / 2); Ring (back [k + 3]%nat) (46 / 100, 7 / 10)];
   [Ring (fore [k + 3]%nat) (46 / 100, 7 / 10)];
   [Ring (fore ([1] ++ v2 ++ [5])%nat ++ back (rev v1)) (2, 1 / 2); Ring (back [k + 4]%nat) (3 / 2, 1 / 2); Ring (back [k + 5]%nat) (2, 1 / 2); Ring (back [k + 6]%nat) (5 / 2, 1 / 2)];
   [Ring (fore [k + 4]%nat) (3 / 2, 1 / 2)]; [Ring (fore [k + 5]%nat) (2, 1 / 2)]; [Ring (fore [k + 6]%nat) (5 / 2, 1 / 2)];
   [Ring (fore [2; 3; 4]%nat ++ back (rev v2)) (7 / 2, 1 / 2); Ring (back [k + 7; k + 10; k + 9; k + 8]%nat) (7 / 2, 9 / 10)];
   [Ring (fore [k + 7; k + 8; k + 9; k + 10]%nat) (7 / 2, 9 / 10); Ring (back [k + 11]%nat) (335 / 100, 56 / 100); Ring (back [k + 12]%nat) (365 / 100, 56 / 100)];
   [Ring (fore [k + 11]%nat) (335 / 100, 56 / 100)]; [Ring (fore [k + 12]%nat) (365 / 100, 56 / 100)]].
Definition pacman_cells : list (list ring) := game_cells 10 [8]%nat [9]%nat.
Definition subdiv_cells : list (list ring) := game_cells 12 [8; 9]%nat [10; 11]%nat.
Definition pac_region (p : pt) : Prop := oval (1 / 2, 1 / 2) (2 / 5) (2 / 5) p /\ fst p - 1 / 2 < sqrt 3 * Rabs (snd p - 1 / 2).
Definition ghost_region (p : pt) : Prop :=
  32 / 10 < fst p < 38 / 10 /\ 14 / 100 + 6 / 100 * sin (10 * PI * (fst p - 32 / 10)) < snd p /\
  (snd p <= 62 / 100 \/ oval (35 / 10, 62 / 100) (3 / 10) (3 / 10) p).
Definition game_regions : list (pt -> Prop) :=
  [box 0 1 0 1; pac_region; oval (46 / 100, 7 / 10) (1 / 10) (1 / 10);
   box 1 3 0 1; oval (3 / 2, 1 / 2) (1 / 10) (1 / 10); oval (2, 1 / 2) (1 / 10) (1 / 10); oval (5 / 2, 1 / 2) (1 / 10) (1 / 10);
   box 3 4 0 1; ghost_region; oval (335 / 100, 56 / 100) (9 / 100) (12 / 100); oval (365 / 100, 56 / 100) (9 / 100) (12 / 100)].

(** ** What makes such a table a description of a plane figure *)

(** The points of a contour *)
Definition on_ring (shapes : list shape) (r : ring) (p : pt) : Prop :=
  exists k o s u, In (k, o) (r_edges r) /\ nth_error shapes k = Some s /\ 0 <= u <= 1 /\ p = point s u.
(** The contour goes around its point, counterclockwise if [d] is 1 and clockwise if it is -1: the
    direction from the point turns strictly all the time. *)
Definition turns (shapes : list shape) (d : R) (r : ring) : Prop :=
  forall k o s u, In (k, o) (r_edges r) -> nth_error shapes k = Some s -> 0 <= u <= 1 -> 0 < d * (IZR o * cross (pt_sub (point s u) (r_about r)) (speed s u)).
(** Each edge ends where the next one starts. *)
Definition ring_start (shapes : list shape) (ko : nat * Z) : option pt := option_map (fun s => point s (if Z.eqb (snd ko) 1 then 0 else 1)) (nth_error shapes (fst ko)).
Definition ring_stop (shapes : list shape) (ko : nat * Z) : option pt := option_map (fun s => point s (if Z.eqb (snd ko) 1 then 1 else 0)) (nth_error shapes (fst ko)).
Definition closes (shapes : list shape) (r : ring) : Prop :=
  r_edges r <> [] /\ forall i a b, nth_error (r_edges r) i = Some a -> nth_error (r_edges r) (S i mod List.length (r_edges r)) = Some b ->
    exists p, ring_stop shapes a = Some p /\ ring_start shapes b = Some p.
(** The outer contour is not in the open region but its point is; the holes are, and they keep a
    distance of 1/10 to each other. *)
Definition well_laid (shapes : list shape) (region : pt -> Prop) (rs : list ring) : Prop :=
  match rs with
  | [] => False
  | r :: hs =>
      region (r_about r) /\ (forall p, on_ring shapes r p -> ~ region p) /\ turns shapes 1 r /\ closes shapes r /\
      Forall (fun h => (forall p, on_ring shapes h p -> region p) /\ turns shapes (-1) h /\ closes shapes h) hs /\
      ForallOrdPairs (fun h h' => forall p p', on_ring shapes h p -> on_ring shapes h' p' -> 1 / 10 <= pdist p p') hs
  end.
