(** Convergence of integrals of polynomials over cells (C79) *)
From Coq Require Import List ZArith Reals Lia Lra Psatz Bool String Permutation.
From Coquelicot Require Import Coquelicot.
From Verif Require Import PyBase PolyModel PolySpec PolyProofs PolyProofs2 PolyProofs4 IntPolyModel IntPolyProofs BaryModel BBoxModel QuadModel QuadSpec QuadProofs QuadProps CurveModel CurveSpec CurveProps VertModel EdgeModel ContourModel CellModel CellSpec EdgeSpec EdgeProofs EdgeProofs2 EdgeProps EdgeProps3 EdgeProps4 CellProofs CellProps ContourProofs ContourProofs3 ContourProofs4 ContourProps CellProps2 CellProps3 Annulus LocalModel LocalSpec LocalProps2 ConvSpec ConvProofs ConvProofs2 ConvProps.
Import List ListNotations.
Open Scope R_scope.

(** ** Continuity of polynomial fields *)
Lemma cont_mult (f g : (R * R) * (R * R) -> R) q : continuous f q -> continuous g q -> continuous (fun q => f q * g q) q.
Proof. intros A B. apply (continuous_mult f g q A B). Qed.
Lemma cont_plus (f g : (R * R) * (R * R) -> R) q : continuous f q -> continuous g q -> continuous (fun q => f q + g q) q.
Proof. intros A B. apply (@continuous_plus _ R_AbsRing R_NormedModule f g q A B). Qed.
Lemma cont_pow (f : (R * R) * (R * R) -> R) k q : continuous f q -> continuous (fun q => f q ^ k) q.
Proof. intros A. induction k as [|k IH]; cbn [pow]; [apply continuous_const|apply cont_mult; assumption]. Qed.
Lemma cont_x q : continuous (fun q : (R * R) * (R * R) => fst (fst q)) q.
Proof. apply (continuous_comp (fun q : (R * R) * (R * R) => fst q) fst); apply continuous_fst. Qed.
Lemma cont_y q : continuous (fun q : (R * R) * (R * R) => snd (fst q)) q.
Proof. apply (continuous_comp (fun q : (R * R) * (R * R) => fst q) snd); [apply continuous_fst|apply continuous_snd]. Qed.
Lemma cont_nx q : continuous (fun q : (R * R) * (R * R) => fst (snd q)) q.
Proof. apply (continuous_comp (fun q : (R * R) * (R * R) => snd q) fst); [apply continuous_snd|apply continuous_fst]. Qed.
Lemma cont_ny q : continuous (fun q : (R * R) * (R * R) => snd (snd q)) q.
Proof. apply (continuous_comp (fun q : (R * R) * (R * R) => snd q) snd); apply continuous_snd. Qed.
Lemma value_continuous p q : continuous (fun q : (R * R) * (R * R) => value p (fst (fst q)) (snd (fst q))) q.
Proof.
  induction p as [|m p IH]; cbn [value]; [apply continuous_const|]. set (a := mx (malpha m)). set (b := my (malpha m)). set (c := mcoef m : R).
  apply (cont_plus (fun q => c * fst (fst q) ^ a * snd (fst q) ^ b) (fun q => value p (fst (fst q)) (snd (fst q)))); [|exact IH].
  apply (cont_mult (fun q => c * fst (fst q) ^ a) (fun q => snd (fst q) ^ b)); [|apply cont_pow, cont_y]. apply (cont_mult (fun _ => c) (fun q => fst (fst q) ^ a)); [apply continuous_const|apply cont_pow, cont_x].
Qed.
Definition poly_field (p : poly RS) (x n : pt) : R := fst x * value (rdiv p) (fst x) (snd x) * fst n + snd x * value (rdiv p) (fst x) (snd x) * snd n.
Lemma poly_field_continuous p : continuous_field (poly_field p).
Proof.
  intros q. unfold poly_field. apply (cont_plus (fun q => fst (fst q) * value (rdiv p) (fst (fst q)) (snd (fst q)) * fst (snd q)) (fun q => snd (fst q) * value (rdiv p) (fst (fst q)) (snd (fst q)) * snd (snd q))).
  - apply (cont_mult (fun q => fst (fst q) * value (rdiv p) (fst (fst q)) (snd (fst q))) (fun q => fst (snd q))); [|apply cont_nx]. apply (cont_mult (fun q => fst (fst q)) (fun q => value (rdiv p) (fst (fst q)) (snd (fst q)))); [apply cont_x|apply value_continuous].
  - apply (cont_mult (fun q => snd (fst q) * value (rdiv p) (fst (fst q)) (snd (fst q))) (fun q => snd (snd q))); [|apply cont_ny]. apply (cont_mult (fun q => snd (fst q)) (fun q => value (rdiv p) (fst (fst q)) (snd (fst q)))); [apply cont_y|apply value_continuous].
Qed.

(** ** The quadrature of the cell as sums over its edges *)
Lemma quadrature_sum (G : pt -> pt -> R) N es : Forall (fun e => e_npts e = N) es -> Forall well_sampled es ->
  bsum (quadrature es) (fun k => G (bs_x k, bs_y k) (bs_nx k, bs_ny k)) = sum_list (map (smp_sum G) es).
Proof.
  intros U W. destruct es as [|e0 es0]; [reflexivity|]. set (es := e0 :: es0) in *. assert (HN : (2 <= N)%Z) by (apply Forall_inv in U; apply Forall_inv in W; destruct W as (_ & _ & N3 & _); lia).
  assert (C : cut es (map (fun e => map (fun s => G (sx s) (sN s)) (open_smp e)) es)). { clear -W. unfold cut. induction W as [|e l We W IH]; constructor; [rewrite map_length; apply (open_pos e We)|exact IH]. }
  rewrite <- smp_sums. rewrite <- (uniform_sum N es _ HN U) by (discriminate || assumption).
  assert (X : concat (map (fun e => map (fun s => G (sx s) (sN s)) (open_smp e)) es) = map (fun s => G (sx s) (sN s)) (contour_smp es)) by (unfold contour_smp; rewrite concat_map, map_map; reflexivity). rewrite X.
  unfold quadrature. set (f := 2 * PI * INR (List.length es) / IZR (csize es)). clear. induction (contour_smp es) as [|s l IH]; [cbn; unfold sum_list, zip_with; cbn; ring|]. cbn [map bsum bs_x bs_y bs_nx bs_ny bs_w]. rewrite IH. unfold zip_with. cbn [map combine fst snd]. change (sum_list (?x :: ?l)) with (x + sum_list l). rewrite <- !surjective_pairing. ring.
Qed.

Lemma polynomial_conv f contains H z ids mesh rtol atol c p X DX Y' : (2 <= p)%Z -> mk_cell H z ids mesh rtol atol = Ok c ->
  (forall i e, In i ids -> nth_error H i = Some e -> smooth_edge e (X i) (DX i) /\ velocity e (X i) (Y' i)) -> forall eps, 0 < eps -> exists K, forall n, (K <= n)%Z -> forall qd w H' c', get_quad_dict (PInt n) p = Ok qd ->
  param_cell contains qd w H c = Ok (H', c') -> exists I, int_poly f H' c' = Ok I /\ Rabs (I - boundary_integral (poly_field f) H z ids X Y') <= eps.
Proof.
  intros Hp M Sm eps He. destruct (boundary_conv contains (poly_field f) H z ids mesh rtol atol c p X DX Y' (poly_field_continuous f) Hp M Sm eps He) as (K & HK). exists K. intros n Hn qd w H' c' Eq Pc.
  assert (Rd : ready contains H' c') by (exists H, z, ids, mesh, rtol, atol, c, (PInt n), p, qd, w, H; auto).
  destruct (param_cell_ok contains (fun _ _ => True) (fun _ _ _ _ _ _ => I) qd (PInt n) p w H c H' c' Eq (built_wf _ _ _ _ _ _ _ M) Pc) as (ess0 & ess & Pr). pose proof (p_fresh _ _ _ _ _ _ _ _ _ Pr) as Fr.
  assert (B : boundary_edges H' c' ess). { destruct Fr as (F & _). unfold boundary_edges. clear -F. induction F as [|k es ks ess (R & _) F IH]; constructor; assumption. }
  destruct (HK n Hn qd w H' c' ess Eq Pc B) as (I & EI & HI). exists I. split; [|exact HI]. rewrite (C54_cell_integral contains H' c' ess f Rd B). f_equal.
  rewrite (cell_smp_sum contains H' c' ess (poly_field f) Rd B) in EI. apply Ok_inj in EI. subst I. rewrite integrate_poly_value.
  destruct (ready_uniform _ _ _ _ Rd B) as (F & NE & N & U). pose proof (fresh_all _ _ _ (proj1 F)) as W. apply Forall_concat in U. apply Forall_concat in W.
  rewrite <- (quadrature_sum (poly_field f) N) by assumption. apply bsum_ext. intros k. unfold xn, poly_field. cbn [fst snd]. ring.
Qed.

(** The integral of a polynomial over a cell converges to the flux through the boundary of a field whose divergence is the
    polynomial. *)
Theorem C79_polynomial f : exists Fx Fy Fxx Fyy : R -> R -> R, is_dx Fx Fxx /\ is_dy Fy Fyy /\ (forall x y, Fxx x y + Fyy x y = peval RS f x y) /\
  forall contains H z ids mesh rtol atol c p X DX Y', (2 <= p)%Z -> mk_cell H z ids mesh rtol atol = Ok c ->
  (forall i e, In i ids -> nth_error H i = Some e -> smooth_edge e (X i) (DX i) /\ velocity e (X i) (Y' i)) -> forall eps, 0 < eps -> exists K, forall n, (K <= n)%Z -> forall qd w H' c', get_quad_dict (PInt n) p = Ok qd ->
  param_cell contains qd w H c = Ok (H', c') -> exists I, int_poly f H' c' = Ok I /\
    Rabs (I - boundary_integral (fun x n => Fx (fst x) (snd x) * fst n + Fy (fst x) (snd x) * snd n) H z ids X Y') <= eps.
Proof.
  exists (fun x y => x * value (rdiv f) x y), (fun x y => y * value (rdiv f) x y),
    (fun x y => 1 * value (rdiv f) x y + x * value (map (m_dx RS) (rdiv f)) x y),
    (fun x y => 1 * value (rdiv f) x y + y * value (map (m_dy RS) (rdiv f)) x y).
  split; [|split; [|split]].
  - intros x y. apply (derivable_pt_lim_mult (fun t => t) (fun t => value (rdiv f) t y)); [apply derivable_pt_lim_id|apply value_map_dx_lim].
  - intros x y. apply (derivable_pt_lim_mult (fun t => t) (fun t => value (rdiv f) x t)); [apply derivable_pt_lim_id|apply value_map_dy_lim].
  - intros x y. rewrite peval_value, <- (euler f x y). ring.
  - exact (polynomial_conv f).
Qed.
Print Assumptions C79_polynomial.
