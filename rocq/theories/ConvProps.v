(** Convergence of integrals (C79): as the number of points grows, the integrals the code computes over edges and boundaries of
    cells converge to line integrals. *)
From Coq Require Import List ZArith Reals Lia Lra Psatz Bool String Permutation.
From Coquelicot Require Import Coquelicot.
From Verif Require Import PyBase PolyModel BaryModel BBoxModel QuadModel QuadSpec QuadProofs QuadProps CurveModel CurveSpec CurveProps VertModel EdgeModel ContourModel CellModel CellSpec EdgeSpec EdgeProofs EdgeProofs2 EdgeProps EdgeProps3 EdgeProps4 CellProofs CellProps ContourProofs ContourProofs3 ContourProofs4 ContourProps CellProps2 CellProps3 Annulus ConvSpec ConvProofs ConvProofs2.
Import List ListNotations.
Open Scope R_scope.

(** ** Edges *)

(** For every continuous function of position and normal, the integral over an edge with n points comes as near to the line
    integral along the curve of the edge as one likes, and sampling never fails. The line integral is in the edge's own
    parameter: neither the scaling to [0, 2 pi] nor Kress's substitution changes it. *)
Theorem C79_edge G e X DX Y' p : continuous_field G -> smooth_edge e X DX -> velocity e X Y' -> (2 <= p)%Z -> forall eps, 0 < eps -> exists K, forall n, (K <= n)%Z ->
  exists qd e' I, get_quad_dict (PInt n) p = Ok qd /\ parameterize qd e = Ok e' /\ integrate_over_edge (map (fun s => G (sx s) (sN s)) (e_smp e')) false e' = Ok I /\
    Rabs (I - line_integral G 1 (traced X e) Y' (fst (e_tb e)) (snd (e_tb e))) <= eps.
Proof.
  intros HG HS HY Hp eps He. destruct (edge_limit G 1 e X DX p HG HS Hp) as (D & CD & LD & F). destruct (LD Y' HY) as (<- & _).
  set (g := fun t => rule_dphi p e t * D (rule_phi p e t)). assert (Cg : forall t, 0 <= t <= 2 * PI -> continuous g t) by (intros t Ht; apply rule_continuous; assumption).
  assert (Ig : RInt g 0 (2 * PI) = RInt D 0 (2 * PI)) by (apply (proj2 (edge_rule p e Hp)); exact CD). rewrite <- Ig.
  destruct (rules_converge g Cg eps He) as (K & K0 & HK). exists (Z.max 4 (Z.of_nat K)). intros n Hn. destruct (F n ltac:(lia)) as (qd & e' & Eq & Ep & En & ES). exists qd, e'.
  destruct (C33_well_sampled _ _ _ _ _ Eq Ep) as (W & _). pose proof W as (_ & Le & _). eexists. split; [exact Eq|]. split; [exact Ep|]. split; [apply C33_trapezoid; [exact W|rewrite map_length; exact Le]|].
  set (m := (2 * Z.to_nat n)%nat) in *. assert (EM : INR m = IZR (2 * n + 1 - 1)) by (apply nat_steps; lia). rewrite En, <- EM. cbv zeta in ES.
  assert (EZ : zip_with Rmult (map (fun s => G (sx s) (sN s)) (e_smp e')) (map sw (e_smp e')) = map (fun i => g (INR i * (2 * PI / INR m))) (seq 0 (S m))).
  { rewrite Nat.add_1_r in ES. etransitivity; [|exact ES]. clear. induction (e_smp e') as [|s l IH]; [reflexivity|]. unfold zip_with in *. cbn [map combine fst snd] in *. rewrite IH, pt_scale_1. reflexivity. }
  rewrite EZ, trapezoid_pairs. apply HK; [lia|]. intros i Hi. exists (1 / 2). split; [lra|]. field.
Qed.
Print Assumptions C79_edge.

(** With the trapezoid rule and an integrand with two derivatives the error is at most M (b - a)^3 / (48 n^2). *)
Theorem C79_second_order G e X DX Y' F' F'' M p n : continuous_field G -> smooth_edge e X DX -> velocity e X Y' -> (2 <= p)%Z -> e_qtype e = "trap"%string -> (4 <= n)%Z ->
  (let F := line_integrand G 1 (traced X e) Y' in forall t, fst (e_tb e) <= t <= snd (e_tb e) -> is_derive F t (F' t) /\ is_derive F' t (F'' t) /\ Rabs (F'' t) <= M) ->
  exists qd e' I, get_quad_dict (PInt n) p = Ok qd /\ parameterize qd e = Ok e' /\ integrate_over_edge (map (fun s => G (sx s) (sN s)) (e_smp e')) false e' = Ok I /\
    Rabs (I - line_integral G 1 (traced X e) Y' (fst (e_tb e)) (snd (e_tb e))) <= M * (snd (e_tb e) - fst (e_tb e)) ^ 3 / (48 * IZR n ^ 2).
Proof.
  intros HG HS HY Hp Hq Hn HF. cbv zeta in HF. pose proof PI_RGT_0 as HP. destruct (edge_limit G 1 e X DX p HG HS Hp) as (D & CD & LD & F). destruct (LD Y' HY) as (LI & DF). rewrite <- LI.
  destruct (F n Hn) as (qd & e' & Eq & Ep & En & ES). exists qd, e'. destruct (C33_well_sampled _ _ _ _ _ Eq Ep) as (W & _). pose proof W as (_ & Le & _). eexists. split; [exact Eq|]. split; [exact Ep|]. split; [apply C33_trapezoid; [exact W|rewrite map_length; exact Le]|].
  set (m := (2 * Z.to_nat n)%nat) in *. assert (EM : INR m = IZR (2 * n + 1 - 1)) by (apply nat_steps; lia). rewrite En, <- EM. cbv zeta in ES.
  set (L := line_integrand G 1 (traced X e) Y') in *. set (g := fun t => param_dt e * L (param_arg e t)).
  assert (Pm : 0 < INR m) by (apply lt_0_INR; lia). set (h := 2 * PI / INR m) in *. assert (Hh : 0 < h) by (unfold h; apply Rdiv_lt_0_compat; lra). assert (Mh : INR m * h = 2 * PI) by (unfold h; field; lra).
  assert (T0 : forall i, (i <= m)%nat -> 0 <= INR i * h <= 2 * PI) by (intros i Hi; split; [apply Rmult_le_pos; [apply pos_INR|lra]|rewrite <- Mh; apply Rmult_le_compat_r; [lra|apply le_INR, Hi]]).
  assert (EZ : zip_with Rmult (map (fun s => G (sx s) (sN s)) (e_smp e')) (map sw (e_smp e')) = map (fun i => g (INR i * h)) (seq 0 (S m))).
  { transitivity (map (fun s => G (sx s) (pt_scale 1 (sN s)) * sw s) (e_smp e')).
    - clear. induction (e_smp e') as [|s l IH]; [reflexivity|]. unfold zip_with in *. cbn [map combine fst snd] in *. rewrite IH, pt_scale_1. reflexivity.
    - rewrite ES, Nat.add_1_r. apply map_ext_in. intros i Hi. apply in_seq in Hi. unfold rule_dphi, rule_phi. rewrite Hq. cbn [String.eqb Ascii.eqb Bool.eqb]. rewrite Rmult_1_l. apply DF, T0. lia. }
  rewrite EZ, trapezoid_pairs. destruct HS as (_ & Ht & _). assert (Hdt : 0 < param_dt e) by (unfold param_dt; apply Rdiv_lt_0_compat; lra).
  assert (Harg : forall t, 0 <= t <= 2 * PI -> fst (e_tb e) <= param_arg e t <= snd (e_tb e)).
  { intros t Ht'. unfold param_arg. split; [nra|]. apply Rle_trans with (fst (e_tb e) + 2 * PI * param_dt e); [nra|]. unfold param_dt. right. field. lra. }
  assert (EI : RInt D 0 (2 * PI) = RInt g 0 (INR m * h)). { rewrite Mh. apply RInt_ext. intros t Hi. rewrite Rmin_left, Rmax_right in Hi by lra. apply DF. lra. }
  rewrite EI. pose proof (trapezoid_second g (fun t => param_dt e ^ 2 * F' (param_arg e t)) (fun t => param_dt e ^ 3 * F'' (param_arg e t)) h (param_dt e ^ 3 * M) (Rlt_le _ _ Hh) m) as T.
  assert (DA : forall t, is_derive (param_arg e) t (param_dt e)) by (intros t; unfold param_arg; auto_derive; [trivial|ring]).
  eapply Rle_trans; [apply T|].
  - intros t Hi. rewrite Mh in Hi. destruct (HF _ (Harg t Hi)) as (D1 & D2 & B). split; [|split].
    + unfold g. replace (param_dt e ^ 2 * F' (param_arg e t)) with (param_dt e * (param_dt e * F' (param_arg e t))) by ring. apply (is_derive_scal (fun t => L (param_arg e t)) t (param_dt e)). apply (is_derive_comp L (param_arg e) t _ _ D1 (DA t)).
    + replace (param_dt e ^ 3 * F'' (param_arg e t)) with (param_dt e ^ 2 * (param_dt e * F'' (param_arg e t))) by ring. apply (is_derive_scal (fun t => F' (param_arg e t)) t (param_dt e ^ 2)). apply (is_derive_comp F' (param_arg e) t _ _ D2 (DA t)).
    + rewrite Rabs_mult, (Rabs_pos_eq (param_dt e ^ 3)) by (apply pow_le; lra). apply Rmult_le_compat_l; [apply pow_le; lra|exact B].
  - right. unfold h, param_dt. replace (INR m) with (2 * IZR n) by (rewrite EM; replace (2 * n + 1 - 1)%Z with (2 * n)%Z by ring; rewrite mult_IZR; ring). field. split; [apply not_0_IZR; lia|lra].
Qed.
Print Assumptions C79_second_order.

(** ** Boundaries of cells *)

(** The integral over the boundary of a cell, contour by contour and without repeated points, converges to the sum of the line
    integrals along its edges, with the normals on the side of each edge away from the cell. *)
Theorem C79_boundary contains G H z ids mesh rtol atol c p X DX Y' : continuous_field G -> (2 <= p)%Z -> mk_cell H z ids mesh rtol atol = Ok c ->
  (forall i e, In i ids -> nth_error H i = Some e -> smooth_edge e (X i) (DX i) /\ velocity e (X i) (Y' i)) -> forall eps, 0 < eps -> exists K, forall n, (K <= n)%Z -> forall qd w H' c' ess, get_quad_dict (PInt n) p = Ok qd ->
  param_cell contains qd w H c = Ok (H', c') -> boundary_edges H' c' ess -> exists I, cell_integrate (map (fun s => G (sx s) (sN s)) (cell_smp ess)) H' c' = Ok I /\ Rabs (I - boundary_integral G H z ids X Y') <= eps.
Proof. exact (boundary_conv contains G H z ids mesh rtol atol c p X DX Y'). Qed.
Print Assumptions C79_boundary.

(** Functions of position, as the code evaluates them *)
Theorem C79_function contains (f : R -> R -> R) H z ids mesh rtol atol c p X DX Y' : (forall q : R * R, continuous (fun q => f (fst q) (snd q)) q) -> (2 <= p)%Z -> mk_cell H z ids mesh rtol atol = Ok c ->
  (forall i e, In i ids -> nth_error H i = Some e -> smooth_edge e (X i) (DX i) /\ velocity e (X i) (Y' i)) -> forall eps, 0 < eps -> exists K, forall n, (K <= n)%Z -> forall qd w H' c', get_quad_dict (PInt n) p = Ok qd ->
  param_cell contains qd w H c = Ok (H', c') -> exists v I, eval_on_boundary f H' c' = Ok v /\ cell_integrate v H' c' = Ok I /\ Rabs (I - boundary_integral (fun x _ => f (fst x) (snd x)) H z ids X Y') <= eps.
Proof.
  intros Hf Hp M Sm eps He. assert (HG : continuous_field (fun x _ => f (fst x) (snd x))). { intros q. apply (continuous_comp (fun q : (R * R) * (R * R) => fst q) (fun q => f (fst q) (snd q))); [apply continuous_fst|apply Hf]. }
  destruct (boundary_conv contains _ H z ids mesh rtol atol c p X DX Y' HG Hp M Sm eps He) as (K & HK). exists K. intros n Hn qd w H' c' Eq Pc.
  destruct (param_cell_ok contains (fun _ _ => True) (fun _ _ _ _ _ _ => I) qd (PInt n) p w H c H' c' Eq (built_wf _ _ _ _ _ _ _ M) Pc) as (ess0 & ess & Pr). pose proof (p_fresh _ _ _ _ _ _ _ _ _ Pr) as Fr.
  assert (B : boundary_edges H' c' ess). { destruct Fr as (F & _). unfold boundary_edges. clear -F. induction F as [|k es ks ess (R & _) F IH]; constructor; assumption. }
  destruct (HK n Hn qd w H' c' ess Eq Pc B) as (I & EI & HI). exists (map (at_smp f) (cell_smp ess)), I. split; [apply eval_boundary_ok, Fr|]. split; [exact EI|exact HI].
Qed.
Print Assumptions C79_function.
