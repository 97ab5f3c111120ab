(** Vocabulary for contours and cells. *)
From Coq Require Import List ZArith Reals Bool.
From Verif Require Import BaryModel QuadModel VertModel EdgeModel EdgeSpec.
Import ListNotations.
Open Scope R_scope.

(** The cell [z] lies on the left of edges with positive cell [z] and on the right of edges with
    negative cell [z]: in its boundary the latter run backwards. *)
Definition belongs (z : Z) (e : edge) : Prop := z = e_pos e \/ z = e_neg e.
Definition start_pt (z : Z) (e : edge) : vert := if Z.eqb z (e_pos e) then e_anchor e else e_endpnt e.
Definition stop_pt (z : Z) (e : edge) : vert := if Z.eqb z (e_pos e) then e_endpnt e else e_anchor e.
Definition near (v w : vert) : Prop := pdist (coord v) (coord w) < 1 / 1000000.
(** In the boundary of the cell, [e'] starts where [e] ends. *)
Definition follows (z : Z) (e e' : edge) : Prop := near (stop_pt z e) (start_pt z e').

(** Exactly one position of the list satisfies [P] *)
Definition exactly_one {A} (P : A -> Prop) (l : list A) : Prop := exists! i, exists x, nth_error l i = Some x /\ P x.
(** Every edge has exactly one successor and exactly one predecessor in the list. *)
Definition matched (z : Z) (es : list edge) : Prop :=
  (forall e, In e es -> exactly_one (fun e' => follows z e e') es) /\
  (forall e, In e es -> exactly_one (fun e' => follows z e' e) es).

(** A nonempty list in which each element is related to the next and the last to the first *)
Definition cyclic {A} (P : A -> A -> Prop) (l : list A) : Prop :=
  l <> [] /\ forall i x y, nth_error l i = Some x -> nth_error l (S i mod length l) = Some y -> P x y.

(** Running sums 0, n0, n0 + n1, ... *)
Fixpoint offsets_from (a : Z) (ns : list Z) : list Z := match ns with [] => [a] | n :: ns' => a :: offsets_from (a + n) ns' end.
Definition offsets (ns : list Z) : list Z := offsets_from 0 ns.
Definition total (ns : list Z) : Z := fold_right Z.add 0%Z ns.

(** The samples of an edge without the repeated end point, and their number *)
Definition open_smp (e : edge) : list sample := removelast (e_smp e).
Definition open_num (e : edge) : Z := (e_npts e - 1)%Z.

(** The sample points of a contour with edges [es], each end point left to the next edge *)
Definition contour_smp (es : list edge) : list sample := concat (map open_smp es).
Definition at_smp (g : R -> R -> R) (s : sample) : R := g (fst (sx s)) (snd (sx s)).
(** The quadrature sum of the values [v] on one edge without its end point *)
Definition edge_sum (e : edge) (v : list R) : R := 2 * PI / IZR (e_npts e - 1) * sum_list (zip_with Rmult v (map sw (open_smp e))).
(** [vs] cuts a list of values into blocks that fit the edges *)
Definition cut (es : list edge) (vs : list (list R)) : Prop := Forall2 (fun e v => Z.of_nat (length v) = open_num e) es vs.

(** The state of an edge after the cell on its [o] side was parameterized *)
Definition resampled (qd : quad * quad) (o : Z) (e e' : edge) : Prop :=
  exists e1, parameterize qd e = PyBase.Ok e1 /\ e' = (if Z.eqb o (-1) then reverse_orientation e1 else e1).

(** The number of samples of a contour, and the samples of a cell contour by contour *)
Definition csize (es : list edge) : Z := total (map open_num es).
Definition cell_smp (ess : list (list edge)) : list sample := concat (map contour_smp ess).
