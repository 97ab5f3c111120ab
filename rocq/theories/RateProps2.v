(** The order of convergence, continued (C81): cells bounded by circles, where the integrals are exact, scripts on pegboards, and examples. *)
From Coq Require Import List ZArith Reals Lia Lra Psatz Bool String Permutation.
From Coquelicot Require Import Coquelicot.
From Verif Require Import PyBase PolyModel PolySpec PolyProofs PolyProofs2 PolyProofs4 IntPolyModel IntPolyProofs BaryModel BBoxModel QuadModel QuadSpec QuadProofs QuadProps CurveModel CurveSpec CurveProps VertModel EdgeModel ContourModel CellModel CellSpec EdgeSpec EdgeProofs EdgeProofs2 EdgeProps EdgeProps3 EdgeProps4 CellProofs CellProps ContourProofs ContourProofs3 ContourProofs4 ContourProps CellProps2 CellProps3 Annulus LocalModel LocalSpec LocalProps2 ConvSpec ConvProofs ConvProofs2 ConvProps ConvProps2 RateSpec RateProofs RateProofs2.
From Verif Require Import ConvProofs3 ConvProofs4 ConvProps3 ConvProps4 RateProofs3 RateProofs4 RateProofs5.
From Verif Require Import MeshModel Labels PegSpec PegProofs PegProps PegProps2 ConvProofs5 ConvProps5 ConvProps6 RateProps.
Import List ListNotations.
Open Scope R_scope.

(** Over a cell bounded by circles with the trapezoid rule the integral of a polynomial of degree d is not only near the area integral but equal to it, as soon as 2n > d + 1. *)
Theorem C81_circles_exact f d contains H z ids mesh rtol atol c p n qd w H' c' (ls : list (bool * outline)) : (2 <= p)%Z -> mk_cell H z ids mesh rtol atol = Ok c ->
  Permutation ids (concat (map (fun l : bool * outline => outline_ids (snd l)) ls)) -> Forall (fun l => bounded_by H z (fst l) (snd l)) ls ->
  (forall i e, In i ids -> nth_error H i = Some e -> e_curve e = Circle /\ e_qtype e = "trap"%string) ->
  deg_le d f -> (4 <= n)%Z -> (Z.of_nat d + 1 < 2 * n)%Z -> get_quad_dict (PInt n) p = Ok qd -> param_cell contains qd w H c = Ok (H', c') ->
  int_poly f H' c' = Ok (sum_list (map (fun l : bool * outline => (if fst l then 1 else -1) * outline_integral (peval RS f) (snd l)) ls)).
Proof.
  intros Hp M P F Q D Hn Hd Eq Pc.
  assert (EB : boundary_integral (poly_field f) H z ids (shape_X H) (shape_V H) = sum_list (map (fun l : bool * outline => (if fst l then 1 else -1) * outline_integral (peval RS f) (snd l)) ls)).
  { transitivity (boundary_integral (poly_field f) H z (concat (map (fun l : bool * outline => outline_ids (snd l)) ls)) (shape_X H) (shape_V H)). { unfold boundary_integral. apply sum_perm, Permutation_map, P. }
    clear -F. induction F as [|l ls B F IH]; cbn [map concat]; [reflexivity|]. rewrite boundary_app, IH, (bounded_flux _ _ _ _ _ B). reflexivity. }
  rewrite <- EB. assert (PB : exists I, int_poly f H' c' = Ok I /\ Rabs (I - boundary_integral (poly_field f) H z ids (shape_X H) (shape_V H)) <= INR (List.length (oriented c)) * 0); [apply (polynomial_bound f contains H z ids mesh rtol atol c p (shape_X H) (shape_V H) n qd 0 M Eq (Rle_refl 0)) with (w := w); [|exact Pc]|destruct PB as (I & EI & B)].
  - intros i o e e' Ii Ho Es Ee R. destruct (Q i e Ii Ee) as (Ec & Eqt). apply (Permutation_in _ P), in_concat in Ii. destruct Ii as (l' & Il & Ii). apply in_map_iff in Il. destruct Il as (l & <- & Il). rewrite Forall_forall in F. pose proof (F l Il) as Bl. destruct l as [b [x0 x1 y0 y1 i1 i2 i3 i4|ce r i0]]; cbn [fst snd bounded_by outline_ids] in *.
    + exfalso. destruct Bl as (_ & _ & e1 & e2 & e3 & e4 & N1 & N2 & N3 & N4 & R1 & R2 & R3 & R4). assert (Ln : forall e u v, (if b then runs z e u v else runs z e v u) -> e_curve e = Line) by (intros e0 u v X; destruct b; apply (runs_line _ _ _ _ X)).
      destruct Ii as [<-|[<-|[<-|[<-|[]]]]]; [rewrite N1 in Ee; injection Ee as <-; rewrite (Ln _ _ _ R1) in Ec|rewrite N2 in Ee; injection Ee as <-; rewrite (Ln _ _ _ R2) in Ec|rewrite N3 in Ee; injection Ee as <-; rewrite (Ln _ _ _ R3) in Ec|rewrite N4 in Ee; injection Ee as <-; rewrite (Ln _ _ _ R4) in Ec]; discriminate.
    + destruct Bl as (e0 & N0 & Rd & _). destruct Ii as [<-|[]]. rewrite N0 in Ee. injection Ee as <-. unfold shape_X, shape_V. rewrite N0. pose proof Rd as (-> & _ & -> & _). rewrite (round_exact d f o e0 ce r p n qd e' D Rd Eqt Hp Hn Hd Ho Eq R). right. rewrite Rminus_eq_0. apply Rabs_R0.
  - rewrite EI. f_equal. rewrite Rmult_0_r in B. pose proof (Rabs_pos (I - boundary_integral (poly_field f) H z ids (shape_X H) (shape_V H))) as B'. assert (B0 : Rabs (I - boundary_integral (poly_field f) H z ids (shape_X H) (shape_V H)) = 0) by lra. destruct (Req_dec (I - boundary_integral (poly_field f) H z ids (shape_X H) (shape_V H)) 0) as [Z0|Z0]; [lra|]. apply Rabs_no_R0 in Z0. contradiction.
Qed.
Print Assumptions C81_circles_exact.

(** The disc cells of a pegboard *)
Lemma peg_disc M N radius H m i j : (1 <= M)%nat -> (1 <= N)%nat -> pegboard (Z.of_nat M, Z.of_nat N) radius = Ok (H, m) -> (i < M)%nat -> (j < N)%nat -> 0 < radius ->
  let z := (Z.of_nat (M * N) + square N i j)%Z in let ls := [(true, Round (coord (centre M N i j)) (radius * spacing M N) (place M N (Hole i j)))] in let its := concat (map (fun l : bool * outline => outline_ids (snd l)) ls) in
  get_cell H m z = mk_cell H z its (33, 33)%Z (5 / 100) (5 / 100) /\ Forall (fun l => bounded_by H z (fst l) (snd l)) ls /\ forall i e, In i its -> nth_error H i = Some e -> e_curve e = Circle /\ e_qtype e = "trap"%string.
Proof.
  intros HM HN E Hi Hj Hr z ls its. destruct (pegboard_ok M N radius HM HN) as (H0 & m0 & E0 & LH & ME & ND & MK). assert (Q0 : H0 = H /\ m0 = m) by (rewrite E0 in E; apply Ok_inj in E; injection E as <- <-; auto). destruct Q0 as [-> ->].
  destruct (edge_of_fields M N radius (Hole i j)) as (FP & _). cbn [pos_of] in FP. assert (HT : holes_of radius = true) by (unfold holes_of; destruct (Rle_dec radius 0); [lra|reflexivity]). change its with [place M N (Hole i j)]. split; [|split].
  - destruct (C46_mesh M N radius (holes_of radius) HM HN (holes_of_spec radius)) as (H1 & m1 & E1 & ME1 & _ & _ & CI). assert (Q : H1 = H /\ m1 = m) by (rewrite E1 in E; apply Ok_inj in E; injection E as <- <-; auto). destruct Q as [-> ->].
      pose proof (fun k e Ek => C46_cell M N radius (holes_of radius) H m i j HM HN (holes_of_spec radius) E Hi Hj k e Ek) as CC.
      destruct (MeshProps.C45_get_cell H m z) as [_ CG]; [rewrite ME; apply Forall_forall; intros x Ix; apply in_seq in Ix; lia|]. destruct CG as (ids & SS & II & EG & _). { apply CI. rewrite HT. unfold z, square. nia. }
      rewrite EG. f_equal. apply Labels.sorted_eq; [eapply Labels.subseq_sorted; [exact SS|]; rewrite ME; apply Labels.seq_sorted|repeat constructor|]. intros k. rewrite II, ME, in_seq. cbn [In]. split.
    + intros (_ & x & Ek & B). destruct (CC k x Ek) as (_ & _ & C3 & C4). left. destruct B as [B|B]; [apply C3 in B; symmetry; apply B|contradiction].
    + intros [<-|[]]. assert (En : nth_error H (place M N (Hole i j)) = Some (with_idx (edge_of M N radius (Hole i j)) (Some (Z.of_nat (place M N (Hole i j)))))) by (apply ND; cbn; auto). split; [split; [lia|]; apply nth_error_Some; congruence|]. eexists. split; [exact En|left; cbn [with_idx e_pos]; rewrite FP; reflexivity].
  - constructor; [|constructor]. cbn [fst snd bounded_by]. eexists. split; [apply ND; cbn; auto|]. split; [apply hole_round; assumption|]. cbn [with_idx e_pos]. rewrite FP. split; [reflexivity|intros _; reflexivity].
  - intros i0 e0 [<-|[]] En. rewrite (ND (Hole i j)) in En by (cbn; auto). injection En as <-. exact (peg_rule M N radius (Hole i j) _).
Qed.

(** The script "make a pegboard, get a cell, parameterize it, integrate a polynomial over it" runs with every number of points from 4 on. For a square its result is within C / n^k of
    the integral, k = p - 1, and for a disc it is the integral if 2n > d + 1. *)
Theorem C81_pegboard_runs f d M N radius H m i j p : (2 <= p)%Z -> (1 <= M)%nat -> (1 <= N)%nat -> pegboard (Z.of_nat M, Z.of_nat N) radius = Ok (H, m) -> (i < M)%nat -> (j < N)%nat -> deg_le d f ->
  let h := spacing M N in let disc := disc_integral (peval RS f) (coord (centre M N i j)) (radius * h) in
  let script n z P := exists c qd H' c' I, get_cell H m z = Ok c /\ get_quad_dict (PInt n) p = Ok qd /\ param_cell within qd false H c = Ok (H', c') /\ int_poly f H' c' = Ok I /\ P I in
  (0 < radius -> TOL <= radius * h) ->
  ((Z.of_nat (Nat.max M N) <= (if Rltb 0 radius then 707106 else 1000000))%Z -> exists C, 0 <= C /\ forall n, (4 <= n)%Z ->
    script n (square N i j) (fun I => Rabs (I - (rectangle_integral (peval RS f) (INR j * h) (INR (S j) * h) (INR i * h) (INR (S i) * h) - (if Rltb 0 radius then disc else 0))) <= C / IZR n ^ Z.to_nat (p - 1))) /\
  (0 < radius -> forall n, (4 <= n)%Z -> (Z.of_nat d + 1 < 2 * n)%Z -> script n (Z.of_nat (M * N) + square N i j)%Z (fun I => I = disc)).
Proof.
  intros Hp HM HN E Hi Hj D h disc script HR. destruct (C79_pegboard_runs f M N radius H m i j p Hp HM HN E Hi Hj HR) as (A1 & A2). fold h disc in A1, A2. destruct (C81_pegboard f within M N radius H m i j p Hp HM HN E Hi Hj) as (B1 & _). fold h disc in B1. split.
  - intros HB. destruct (A1 HB) as (c & G & Run & _). destruct (B1 (Z.to_nat (p - 1)) ltac:(lia) ltac:(lia) c G) as (C & C0 & HC). exists C. split; [exact C0|]. intros n Hn. destruct (Run n Hn) as (qd & H' & c' & I & Eq & Pc & EI). exists c, qd, H', c', I. do 4 (split; [assumption|]). destruct (HC n Hn qd false H' c' Eq Pc) as (I' & EI' & HI). rewrite EI in EI'. apply Ok_inj in EI'. subst I'. exact HI.
  - intros Hr n Hn Hd. destruct (A2 Hr) as (c & G & Run & _). destruct (Run n Hn) as (qd & H' & c' & I & Eq & Pc & EI). exists c, qd, H', c', I. do 4 (split; [assumption|]).
    pose proof (peg_disc M N radius H m i j HM HN E Hi Hj Hr) as (EG & BD & QT). rewrite EG in G. pose proof (C81_circles_exact f d within H _ _ _ _ _ c p n qd false H' c' _ Hp G (Permutation_refl _) BD QT D Hn Hd Eq Pc) as X. rewrite EI in X. apply Ok_inj in X. rewrite <- X. unfold sum_list. cbn [map fold_right fst snd outline_integral]. fold h disc. ring.
Qed.
Print Assumptions C81_pegboard_runs.

(** ** Examples *)

(** The integral of the first coordinate over the circle of radius 1 around (1, 0): the error decays faster than every power of n. *)
Lemma abscissa_smooth k : smooth_field k abscissa.
Proof. intros a b x y u v Hx _ _ _. exact Hx. Qed.
Example C81_example_circle p k : (2 <= p)%Z -> (1 <= k)%nat -> exists C, 0 <= C /\ forall n, (4 <= n)%Z -> exists qd e' I, get_quad_dict (PInt n) p = Ok qd /\ parameterize qd (ring 1 1 2 1) = Ok e' /\
  integrate_over_edge (map (fun s => fst (sx s)) (e_smp e')) false e' = Ok I /\ Rabs (I - 2 * PI) <= C / IZR n ^ k.
Proof.
  intros Hp Hk. pose proof (ring_round 1 1 2 1 Rlt_0_1) as Rd. destruct (C81_edge abscissa (ring 1 1 2 1) _ _ _ p k abscissa_continuous (abscissa_smooth k) (round_smooth _ _ _ Rd) (round_velocity _ _ _ Rd) Hp Hk (round_fits k p _ _ _ Rd (or_intror eq_refl))) as (C & C0 & HC). exists C. split; [exact C0|]. intros n Hn. destruct (HC n Hn) as (qd & e' & I & A & B & D & E). exists qd, e', I. cbn [ring e_tb fst snd] in E. rewrite abscissa_integral in E. auto.
Qed.

(** The area of the ring between the circle of radius 4 around (0, 0) and the one of radius 1 around (1, 0) comes out as 15 pi with every number of points. *)
Example C81_example_ring p tol n : (2 <= p)%Z -> 0 < tol -> (4 <= n)%Z -> exists c qd H' c', mk_cell rings 1 [1; 0]%nat (33, 33)%Z tol tol = Ok c /\
  get_quad_dict (PInt n) p = Ok qd /\ param_cell within qd false rings c = Ok (H', c') /\ int_poly one_poly H' c' = Ok (15 * PI).
Proof.
  intros Hp Ht Hn. pose proof (ring_cell_outer (33, 33)%Z tol Ht) as Mk. eexists. destruct (C19_dict n p ltac:(lia) Hp) as (a & b & Eq & _). exists (a, b). set (c := made _ _ _ _ _) in *. assert (T1 : TOL <= 1) by (unfold TOL; lra).
  destruct (ready_cell within (a, b) (PInt n) p rings c Eq (built_wf _ _ _ _ _ _ _ Mk)) as (H' & c' & Pc); [discriminate| |].
  { constructor; [|constructor; [|constructor]].
    - apply (round_ready rings (unset 1 1 1) 1%nat (ring 0 4 1 (-1)) (0, 0) 4 1 p n (a, b)); try reflexivity; try assumption; [apply ring_round; lra|lra].
    - apply (round_ready rings (unset 1 0 (-1)) 0%nat (ring 1 1 2 1) (1, 0) 1 (-1) p n (a, b)); try reflexivity; try assumption; apply ring_round; lra. }
  exists H', c'. split; [exact Mk|]. split; [exact Eq|]. split; [exact Pc|].
  rewrite (C81_circles_exact one_poly 0 within rings 1 [1; 0]%nat _ _ _ _ p n (a, b) false H' c' [(true, Round (0, 0) 4 1%nat); (false, Round (1, 0) 1 0%nat)] Hp Mk); [f_equal; unfold sum_list; cbn [map fold_right fst snd outline_integral]; rewrite !one_disc; ring|reflexivity| | | |exact Hn|lia|exact Eq|exact Pc].
  - constructor; [|constructor; [|constructor]]; cbn [fst snd bounded_by].
    + exists (ring 0 4 1 (-1)). split; [reflexivity|]. split; [apply ring_round; lra|]. split; reflexivity.
    + exists (ring 1 1 2 1). split; [reflexivity|]. split; [apply ring_round; lra|]. split; [discriminate|discriminate].
  - intros i e [<-|[<-|[]]] E; injection E as <-; split; reflexivity.
  - intros m [<-|[]]. cbn. lia.
Qed.

(** The board with one square and a hole of radius 1/4: the area of the square is found with an error of order p - 1, that of the disc without error. *)
Example C81_example_board p : (2 <= p)%Z -> exists H m C, pegboard (1, 1)%Z (1 / 4) = Ok (H, m) /\ 0 <= C /\ forall n, (4 <= n)%Z ->
  (exists c qd H' c' I, get_cell H m 0 = Ok c /\ get_quad_dict (PInt n) p = Ok qd /\ param_cell within qd false H c = Ok (H', c') /\ int_poly one_poly H' c' = Ok I /\ Rabs (I - (1 - PI / 16)) <= C / IZR n ^ Z.to_nat (p - 1)) /\
  exists c qd H' c' I, get_cell H m 1 = Ok c /\ get_quad_dict (PInt n) p = Ok qd /\ param_cell within qd false H c = Ok (H', c') /\ int_poly one_poly H' c' = Ok I /\ I = PI / 16.
Proof.
  intros Hp. destruct (pegboard_ok 1 1 (1 / 4) ltac:(lia) ltac:(lia)) as (H & m & E & _). destruct (C81_pegboard_runs one_poly 0 1 1 (1 / 4) H m 0 0 p Hp ltac:(lia) ltac:(lia) E ltac:(lia) ltac:(lia)) as (A & B).
  { intros x [<-|[]]. cbn. lia. }
  { intros _. unfold spacing, TOL. cbn. lra. }
  assert (Q : Rltb 0 (1 / 4) = true) by (apply Rltb_true; lra). rewrite Q in A. destruct A as (C & C0 & A); [cbn; lia|]. exists H, m, C. split; [exact E|]. split; [exact C0|]. rewrite one_disc in A, B. rewrite one_rectangle in A. unfold spacing in A, B. cbn [Nat.max INR] in A, B. intros n Hn. split.
  - replace (1 - PI / 16) with ((1 * (1 / 1) - 0 * (1 / 1)) * (1 * (1 / 1) - 0 * (1 / 1)) - PI * (1 / 4 * (1 / 1) * (1 / 4 * (1 / 1)))) by field. apply A, Hn.
  - replace (PI / 16) with (PI * (1 / 4 * (1 / 1) * (1 / 4 * (1 / 1)))) by field. apply B; [lra|exact Hn|lia].
Qed.
