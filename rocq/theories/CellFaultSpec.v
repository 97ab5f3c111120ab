(** What C83 says about a failed sampling, without the helpers of the model. *)
From Coq Require Import List ZArith Reals.
From Verif Require Import PyBase PolyModel BaryModel QuadModel VertModel EdgeModel EdgeSpec ContourModel CellModel.
Import ListNotations.
Open Scope R_scope.

(** Edges that sampling does not move: nothing in the diary joins points, or the edge is as Edge.__init__ makes it. *)
Definition calm (e : edge) : Prop := last_join (e_diary e) = None \/ set_verts e (e_anchor e) (e_endpnt e) = e.

(** Contours and cells up to the interior points, which no other step of the sampling reads *)
Definition bare_contour (k : contour) : contour := Contour (k_cell k) (k_edges k) (k_orients k) (k_npts k) (k_vidx k) (k_closest k) None.
Definition bare_cell (c : cell) : cell :=
  Cell (c_idx c) (map bare_contour (c_comps c)) (c_holes c) (c_nedges c) (c_orients c) (c_mesh c) (c_rtol c) (c_atol c) (c_npts c) (c_start c) (c_closest c) None.
(** The same exception, or the same heap and the same cell up to interior points *)
Definition same_sampling (r r' : res (heap * cell)) : Prop :=
  match r, r' with
  | Ok (H, c), Ok (H', c') => H' = H /\ bare_cell c' = bare_cell c
  | Err x, Err y => x = y
  | _, _ => False
  end.
