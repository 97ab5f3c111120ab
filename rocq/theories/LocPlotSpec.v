(** Vocabulary for plots of local functions. *)
From Coq Require Import List ZArith Reals.
From Verif Require Import PyBase BaryModel EdgeModel EdgeSpec CellModel CellSpec TraceModel LocalModel LocalSpec.
Import List ListNotations.
Open Scope R_scope.

(** The weighted tangential derivative of a trace that has one *)
Definition td (t : trace) : list R := match tr_wtd t with Some a => a | None => [] end.
(** Unit tangent and outward unit normal of a curve with the domain on its left *)
Definition framed (s : sample) : Prop := fst (sT s) ^ 2 + snd (sT s) ^ 2 = 1 /\ sN s = (snd (sT s), - fst (sT s)).
(** The [j]-th component of a vector, and of the plot *)
Inductive component : Z -> (pt -> R) -> Prop := comp1 : component 1 fst | comp2 : component 2 snd.
(** What is plotted for the number [x] at a boundary point of weight [w]: nothing where the weight
    is below 1e-8, nothing above 1000 *)
Definition shown (w x : R) (o : option R) : Prop :=
  (w < / 10 ^ 8 -> o = None) /\ (/ 10 ^ 8 <= w -> (x <= 1000 -> o = Some x) /\ (1000 < x -> o = None)).
(** The weighted derivatives of the function at the samples [l] are those of the vector field [G] *)
Definition has_gradient (u : lpois) (l : list sample) (G : sample -> pt) : Prop :=
  forall i s, nth_error l i = Some s -> exists a b d e,
    nth_error (nd (lh_trace (u_harm u))) i = Some a /\ nth_error (nd (lp_trace (u_poly u))) i = Some b /\ a + b = (fst (G s) * fst (sN s) + snd (G s) * snd (sN s)) * sw s /\
    nth_error (td (lh_trace (u_harm u))) i = Some d /\ nth_error (td (lp_trace (u_poly u))) i = Some e /\ d + e = (fst (G s) * fst (sT s) + snd (G s) * snd (sT s)) * sw s.
(** Edges sampled again with as many points *)
Definition resized (ess ess' : list (list edge)) : Prop := Forall2 (Forall2 (fun e e' => well_sampled e' /\ e_npts e' = e_npts e)) ess ess'.
(** A solver that answers zero for zero boundary data *)
Definition rests (S : nyst) (n : nat) : Prop :=
  (forall k, exists lc, ny_conj S (repeat 0 k) = Ok (repeat 0 k, lc) /\ lc = repeat 0 n) /\ forall k, ny_wtd S (repeat 0 k) = Ok (repeat 0 k).

(** ** Triangles *)
Definition corner_of (t : tri) (i : nat) : Prop := let '(a, b, d) := t in i = a \/ i = b \/ i = d.
(** Triangles between [n] points, with two masks *)
Definition triangles (ts : list tri) (m1 m2 : list bool) (n : nat) : Prop :=
  (forall t i, In t ts -> corner_of t i -> (i < n)%nat) /\ List.length m1 = List.length ts /\ List.length m2 = List.length ts.
(** The numbers drawn on a logarithmic scale *)
Definition scaled (log : bool) (x : R) : R := if log then ln (Rmax x (/ 10 ^ 16)) / ln 10 else x.
(** The arrays of interior and boundary values of each kind of plot *)
Definition norms (x y : option R) : option R := match x, y with Some x, Some y => Some (sqrt (x ^ 2 + y ^ 2)) | _, _ => None end.
