(** Errors that the cutoff of small coefficients can cause (C08, C09, C53, C59).

    The exact statements of these claims need coefficients on a grid. The bounds here hold for every
    input: the code drops coefficients below [tol] = 1e-12, and these theorems say how far the
    results can be from the exact ones. *)
From Coq Require Import List ZArith Reals Lia Lra Bool String Permutation.
From Verif Require Import PyBase PolyModel PolySpec PolyProofs PolyProofs2 PolyProofs3 PolyProofs4 PolyProps BaryModel BarySpec BaryProofs BaryProps EdgeSpaceSpec QuadModel VertModel EdgeModel EdgeSpec EdgeProofs EdgeProofs2 EdgeProps3 ContourModel CellModel CellSpec CellProofs ContourProofs ContourProofs2 ContourProofs3 ContourProps CellProps3 InteriorProofs ContourProofs4 MeshModel TraceModel TraceSpec TraceProofs LocalModel LocalSpec LocalProofs LocalProofs2 LocalProofs3 LocalProofs5 LocalProps LocalProps3 NystromModel NystromSpec NystromProps2 EdgeSpaceModel EdgeSpaceProps GlobModel ShiftProofs LocSpaceModel LocSpaceSpec LocSpaceProofs LocSpaceProofs2 LocSpaceProofs3 LocSpaceProofs4 LocSpaceProps LocSpaceProps3 TriCell LocSpaceProps5 DiscCell LocalProps  PolyErr PolyErr2 PolyErr3.
Import List ListNotations.
Open Scope R_scope.

(** ** C08 *)
(** Every coefficient of the Laplacian of p.anti_laplacian() is the one of p up to an error that
    depends only on its degree. *)
Theorem C08_anti_laplacian_error p a b : canonical p -> let n := (a + b)%nat in
  Rabs (coef (plaplacian RS (panti_laplacian RS p)) a b - coef p a b) <= (2 * (INR (n + 1) * INR (n + 2)) ^ 2 + 1) * tol.
Proof.
  intros C n. rewrite coef_plap by apply panti_canonical. pose proof (cutoff_near _ _ _ (lap_err_ok p C a b)) as E. unfold lap_err in E. fold n in E. lra.
Qed.
Print Assumptions C08_anti_laplacian_error.
(** x^16 y^6, where the exact statement fails: the errors are below 1e-6. *)
Example C08_error_example a b : (a + b <= 22)%nat -> Rabs (coef (plaplacian RS (panti_laplacian RS [rmon 1 16 6])) a b - coef [rmon 1 16 6] a b) <= 1 / 1000000.
Proof.
  intros L. eapply Rle_trans; [apply C08_anti_laplacian_error; canon|]. cbv zeta. assert (E : (INR (a + b + 1) * INR (a + b + 2)) ^ 2 <= (INR 23 * INR 24) ^ 2) by (apply pow_incr; split; [apply Rmult_le_pos; apply pos_INR|apply Rmult_le_compat; try apply pos_INR; apply le_INR; lia]).
  set (u := (INR (a + b + 1) * INR (a + b + 2)) ^ 2) in *. rewrite !INR_IZR_INZ in E. cbn [Z.of_nat Pos.of_succ_nat Pos.succ] in E. unfold tol. lra.
Qed.

(** ** C09 *)
(** Powers and composition at a point where the inner polynomials are not large. *)
Theorem C09_power_error p n x y B : 1 <= B -> msize p x y <= B -> Rabs (peval RS p x y) <= B ->
  Rabs (peval RS (ppow_nat RS p n) x y - peval RS p x y ^ n) <= 2 * INR n * B ^ n * tol.
Proof. intros HB M V. rewrite !peval_value in *. apply ppow_err; [exact HB|split; assumption]. Qed.
Theorem C09_compose_error p q1 q2 D x y B : 1 <= B -> deg_le D p -> msize q1 x y <= B -> Rabs (peval RS q1 x y) <= B -> msize q2 x y <= B -> Rabs (peval RS q2 x y) <= B ->
  Rabs (peval RS (pcompose RS p q1 q2) x y - peval RS p (peval RS q1 x y) (peval RS q2 x y))
    <= ((1 + (1 + 2 * INR D) ^ 2) * abs_coefs p + INR (List.length p) * (INR (List.length p) + 1)) * B ^ D * tol.
Proof.
  intros HB HD M1 V1 M2 V2. rewrite !peval_value in *. pose proof (compose_err x y B HB D p q1 q2 (conj M1 V1) (conj M2 V2) HD) as E. unfold comp_c in E. replace ((1 + 2 * INR D) ^ 2) with ((1 + 2 * INR D) * (1 + 2 * INR D)) by ring. exact E.
Qed.
Print Assumptions C09_power_error.
Print Assumptions C09_compose_error.
(** (x + 1e-7 y)^2 loses the term 1e-14 y^2. *)
Definition slim : rpoly := [rmon 1 1 0; rmon (1 / 10000000) 0 1].
Lemma slim_canonical : canonical slim.
Proof. unfold slim. canon. Qed.
Lemma slim_sq : ppow_nat RS slim 2 = pmul RS slim slim.
Proof.
  cbn [ppow_nat]. f_equal. apply canonical_ext; [apply pmul_canonical|apply slim_canonical|]. intros a b. rewrite pone_eq, pmul_raw. assert (E : mulraw [rmon 1 0 0] slim = slim) by (transitivity [rmon (1 * 1) 1 0; rmon (1 * (1 / 10000000)) 0 1]; [reflexivity|rewrite !Rmult_1_l; reflexivity]). rewrite E, filter_nz_canonical by apply slim_canonical. rewrite coef_consolidate. apply canonical_cutoff, slim_canonical.
Qed.
Example C09_error_example : Rabs (peval RS (ppow_nat RS slim 2) 1 1 - peval RS slim 1 1 ^ 2) <= 1 / 10 ^ 10 /\ coef (ppow_nat RS slim 2) 0 2 = 0 /\ coef (ppow_nat RS slim 2) 2 0 = 1.
Proof.
  split.
  - eapply Rle_trans; [apply (C09_power_error slim 2 1 1 2); [lra| |]|]; unfold slim; rewrite ?peval_value; cbn [msize value rmon malpha mx my mcoef pow smul sadd RS INR]; rewrite ?Rabs_R1; try lra; [apply Rabs_le; lra|unfold tol; lra].
  - rewrite slim_sq, !coef_pmul by apply slim_canonical. cbn [sum_f_R0 Nat.sub slim coef rmon malpha mx my mcoef Nat.eqb andb].
    repeat (rewrite Rplus_0_l || rewrite Rplus_0_r || rewrite Rmult_0_l || rewrite Rmult_0_r || rewrite Rmult_1_r || rewrite cutoff_zero || rewrite cutoff_1).
    rewrite (cutoff_small (1 / 10000000 * (1 / 10000000))) by (rewrite Rabs_right by lra; unfold tol; lra). rewrite ?Rplus_0_l, ?cutoff_zero. split; reflexivity.
Qed.

(** ** C53 *)
(** The Laplacian of the polynomial part is near f on every square, for every polynomial f. *)
Theorem C53_laplacian_error contains S H c ess f g i d u D M : ready contains H c -> boundary_edges H c ess -> mk_lpois S H c f g i d = Ok u -> canonical f -> deg_le D f -> 1 <= M ->
  exists h, is_laplacian (peval RS (lp_form (u_poly u))) h /\
    forall x y, Rabs x <= M -> Rabs y <= M -> Rabs (h x y - peval RS f x y) <= 2 * INR (D + 1) ^ 4 * INR (D + 2) ^ 2 * M ^ D * tol.
Proof.
  intros Rd B E C HD HM. destruct (C53_polynomial _ _ _ _ _ _ _ _ _ _ Rd B E) as (-> & _). destruct (anti_near D f M C HD HM) as (h & Hh & Eh). exists h. split; [exact Hh|]. intros x y Hx Hy. eapply Rle_trans; [exact (Eh x y Hx Hy)|]. unfold lap_value_err, lap_err. apply Req_le. ring.
Qed.
Print Assumptions C53_laplacian_error.
(** On the unit disc, for a polynomial that is on no grid the exact theorem covers. *)
Example C53_error_example : exists H c e u h, unit_disc H c e /\ mk_lpois still H c [rmon PI 0 0; rmon (sqrt 2) 2 1] (TVal (VScal 3)) false false = Ok u /\
  is_laplacian (peval RS (lp_form (u_poly u))) h /\ forall x y, Rabs x <= 1 -> Rabs y <= 1 -> Rabs (h x y - (PI + sqrt 2 * x ^ 2 * y)) <= 1 / 10000000.
Proof.
  set (f := [rmon PI 0 0; rmon (sqrt 2) 2 1]). assert (S2 : 1 <= sqrt 2) by (rewrite <- sqrt_1; apply sqrt_le_1; lra). pose proof PI_RGT_0 as P0. pose proof PI2_1 as P2.
  assert (C : canonical f) by (unfold f; canon).
  destruct unit_disc_exists as (H & c & e & D). pose proof D as (Rd & B & N & _). destruct (C53_total Annulus.disc still H c [[e]] f (TVal (VScal 3)) Rd B (disc_tame _ _ _ D) (disc_const _ _ _ 3 D)) as (u & E).
  destruct (C53_laplacian_error Annulus.disc _ _ _ _ _ _ _ _ _ 3 1 Rd B E C ltac:(intros m [<-|[<-|[]]]; cbn; lia) ltac:(lra)) as (h & Hh & Eh). exists H, c, e, u, h. split; [exact D|]. split; [exact E|]. split; [exact Hh|].
  intros x y Hx Hy. specialize (Eh x y Hx Hy). rewrite peval_value in Eh. cbn [value f rmon malpha mx my mcoef pow Nat.add INR] in Eh. replace (PI + sqrt 2 * x ^ 2 * y) with (PI * 1 * 1 + (sqrt 2 * (x * (x * 1)) * (y * 1) + 0)) by ring. eapply Rle_trans; [exact Eh|]. unfold tol. lra.
Qed.

(** ** C59 *)
(** The Laplacian of the polynomial part of a bubble is near - (x - c_x)^a (y - c_y)^b / area^2, for
    every cell. *)
Theorem C59_bubble_laplacian_error low_rank gmres set_iter contains H c ess given d i g L k ku a b M : ready contains H c -> boundary_edges H c ess ->
  mk_lspace low_rank gmres set_iter H c given (PInt d) i g = Ok L -> nth_error (l_bubb L) k = Some ku -> mi_of_idx k = MI a b -> 1 <= M -> Rabs (fst (l_centroid L)) <= M -> Rabs (snd (l_centroid L)) <= M ->
  exists h, is_laplacian (peval RS (lp_form (u_poly (snd ku)))) h /\
    forall x y, Rabs x <= M -> Rabs y <= M -> Rabs (h x y - -1 / l_area L ^ 2 * (x - fst (l_centroid L)) ^ a * (y - snd (l_centroid L)) ^ b)
      <= (2 * INR (a + b + 1) ^ 4 * INR (a + b + 2) ^ 2 * M ^ (a + b) + (1 + Rabs (-1 / l_area L ^ 2) * (2 + 3 * INR a + 3 * INR b + 4 * INR a * INR b)) * (2 * M) ^ (a + b)) * tol.
Proof.
  intros Rd B E Eku Ek HM Hs Ht. destruct (lspace_inv _ _ _ _ _ _ _ _ _ _ _ _ Rd B E) as (d' & N & _ & Ed & Hd & _ & _ & _ & _ & Eb & _). injection Ed as <-. apply (bubb_inv _ _ _ _ _ _ _ Hd) in Eb. destruct (seq_F2 _ _ _ _ Eb) as [_ Q]. destruct (Q k ku Eku) as (_ & Eu). cbn [Nat.add] in Eu.
  assert (HD : deg_le (a + b) (centered_monomial (l_centroid L) (l_area L) k)) by (apply (centered_near (l_centroid L) (l_area L) k a b 0 0 M Ek HM); rewrite ?Rabs_R0; assumption || lra).
  destruct (C53_laplacian_error _ _ _ _ _ _ _ _ _ _ (a + b) M Rd B Eu (centered_canonical _ _ _) HD HM) as (h & Hh & Eh). exists h. split; [exact Hh|]. intros x y Hx Hy. specialize (Eh x y Hx Hy). destruct (centered_near (l_centroid L) (l_area L) k a b x y M Ek HM Hx Hy Hs Ht) as [_ Ec].
  unfold shift_c, comp_c in Ec. set (p := peval RS (centered_monomial _ _ _) x y) in *. set (T := -1 / l_area L ^ 2 * _ * _) in *. replace (h x y - T) with ((h x y - p) + (p - T)) by ring. eapply Rle_trans; [apply Rabs_triang|]. lra.
Qed.
Print Assumptions C59_bubble_laplacian_error.
(** A triangle with legs of length pi: the bubble for x^2 y. *)
Example C59_error_example low_rank gm set_iter : solves_sizes gm -> exists H c e0 e1 e2 L ku h, tri_ready PI 0 1 2 H c e0 e1 e2 /\ mk_lspace low_rank gm set_iter H c None (PInt 5) false false = Ok L /\ nth_error (l_bubb L) 7 = Some ku /\
  is_laplacian (peval RS (lp_form (u_poly (snd ku)))) h /\ forall x y, Rabs x <= 4 -> Rabs y <= 4 -> Rabs (h x y - - 4 / PI ^ 4 * (x - PI / 3) ^ 2 * (y - PI / 3)) <= 1 / 1000000.
Proof.
  intros G. pose proof PI_RGT_0 as P0. pose proof PI2_1 as P1. pose proof PI_4 as P4. destruct (tri_exists PI 0 1 2 ltac:(lra)) as (H & c & e0 & e1 & e2 & T & _). pose proof (tri_rd PI 0 1 2 H c e0 e1 e2 T) as Rd. pose proof (tri_be PI 0 1 2 H c e0 e1 e2 T) as Be.
  destruct (tri_total PI 0 1 2 ltac:(lra) H c e0 e1 e2 T low_rank gm set_iter None 5 G ltac:(lia)) as (L & E); [intros l El; discriminate El|].
  destruct (lspace_inv _ _ _ _ _ _ _ _ _ _ _ _ Rd Be E) as (d' & N & _ & _ & _ & _ & _ & Ec & Ea & _). destruct (tri_centroid PI 0 1 2 ltac:(lra) H c e0 e1 e2 T) as [Ec' Ea']. assert (Qa : l_area L = PI * PI / 2) by (pose proof (eq_trans (eq_sym Ea) Ea') as Q; apply Ok_inj in Q; congruence). assert (Qc : l_centroid L = (PI / 3, PI / 3)) by (pose proof (eq_trans (eq_sym Ec) Ec') as Q; apply Ok_inj in Q; congruence).
  pose proof (C59_bubbles low_rank gm set_iter _ _ _ _ _ _ _ _ _ Rd Be E) as Bs. apply F2_len in Bs. rewrite seq_length in Bs. assert (Ln : List.length (l_bubb L) = 10%nat) by (rewrite <- Bs; reflexivity). destruct (nth_error (l_bubb L) 7) as [ku|] eqn:Ek; [|apply nth_error_None in Ek; lia].
  assert (Ac : Rabs (PI / 3) <= 4) by (rewrite Rabs_right; lra). destruct (C59_bubble_laplacian_error low_rank gm set_iter _ H c _ None 5 false false L 7 ku 2 1 4 Rd Be E Ek eq_refl ltac:(lra) ltac:(rewrite Qc; exact Ac) ltac:(rewrite Qc; exact Ac)) as (h & Hh & Eh).
  exists H, c, e0, e1, e2, L, ku, h. repeat (split; [assumption|]). intros x y Hx Hy. specialize (Eh x y Hx Hy). rewrite Qa, Qc in Eh. cbn [fst snd] in Eh. replace (-1 / (PI * PI / 2) ^ 2) with (- 4 / PI ^ 4) in Eh by (field; lra). replace (- 4 / PI ^ 4 * (x - PI / 3) ^ 2 * (y - PI / 3)) with (- 4 / PI ^ 4 * (x - PI / 3) ^ 2 * (y - PI / 3) ^ 1) by (rewrite pow_1; reflexivity).
  eapply Rle_trans; [exact Eh|]. assert (A : Rabs (- 4 / PI ^ 4) <= 1). { assert (Q : 4 <= PI ^ 4) by (replace (PI ^ 4) with ((PI * PI) * (PI * PI)) by ring; assert (4 <= PI * PI) by nra; nra). unfold Rdiv. rewrite Rabs_mult, (Rabs_left (- 4)) by lra. rewrite Rabs_right by (apply Rle_ge, Rlt_le, Rinv_0_lt_compat; lra). apply (Rmult_le_reg_r (PI ^ 4)); [lra|]. rewrite Rmult_assoc, Rinv_l by lra. lra. }
  set (w := Rabs (-4 / PI ^ 4)) in *. clearbody w. clear -A. cbn [Nat.add INR pow]. unfold tol. lra.
Qed.
