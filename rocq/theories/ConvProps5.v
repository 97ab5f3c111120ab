(** Convergence of integrals (C79): the cells of a pegboard can be parameterized with any number of points, and examples. *)
From Coq Require Import List ZArith Reals Lia Lra Psatz Bool String Permutation.
From Coquelicot Require Import Coquelicot.
From Verif Require Import PyBase PolyModel PolySpec PolyProofs PolyProofs2 PolyProofs4 IntPolyModel IntPolyProofs BaryModel BBoxModel QuadModel QuadSpec QuadProofs QuadProps CurveModel CurveSpec CurveProps VertModel EdgeModel ContourModel CellModel CellSpec EdgeSpec EdgeProofs EdgeProofs2 EdgeProps EdgeProps3 EdgeProps4 CellProofs CellProps ContourProofs ContourProofs3 ContourProofs4 ContourProps CellProps2 CellProps3 Annulus LocalModel LocalSpec LocalProps2 ConvSpec ConvProofs ConvProofs2 ConvProps ConvProps2 ConvProofs3 ConvProofs4 ConvProps3.
From Verif Require Import MeshModel Labels PegSpec PegProofs PegProps PegProps2 ConvProps4 ConvProofs5.
Import List ListNotations.
Open Scope R_scope.

Lemma square_bounded M N radius H m i j : (1 <= M)%nat -> (1 <= N)%nat -> pegboard (Z.of_nat M, Z.of_nat N) radius = Ok (H, m) -> (i < M)%nat -> (j < N)%nat -> TOL <= spacing M N -> let h := spacing M N in
  bounded_by H (square N i j) true (Box (INR j * h) (INR (S j) * h) (INR i * h) (INR (S i) * h) (place M N (Hor i j)) (place M N (Ver i (S j))) (place M N (Hor (S i) j)) (place M N (Ver i j))).
Proof.
  intros HM HN E Hi Hj HT h. destruct (pegboard_ok M N radius HM HN) as (H0 & m0 & E0 & LH & ME & ND & MK). assert (Q0 : H0 = H /\ m0 = m) by (rewrite E0 in E; apply Ok_inj in E; injection E as <- <-; auto). destruct Q0 as [-> ->].
  set (z := square N i j) in *. pose proof (spacing_pos M N HM HN) as SP. fold h in SP, HT.
  assert (SR : forall i j, (i < M)%nat -> (j < N)%nat -> (0 <= square N i j < Z.of_nat (M * N))%Z) by (intros; unfold square; nia). pose proof (SR i j Hi Hj) as R0.
  set (ed := fun s => with_idx (edge_of M N radius s) (Some (Z.of_nat (place M N s)))).
  assert (POS : forall s, e_pos (ed s) = pos_of M N s) by (intros s; unfold ed; cbn [with_idx e_pos]; apply (edge_of_fields M N radius s)).
  assert (P1 : pos_of M N (Hor i j) = z) by (cbn; unfold above; destruct (Nat.ltb_spec i M); [reflexivity|lia]).
  assert (P3 : pos_of M N (Ver i (S j)) = z) by reflexivity.
  assert (Q2 : pos_of M N (Ver i j) <> z) by (cbn; unfold left_of; destruct j; [lia|]; unfold z, square in *; nia).
  assert (Q4 : pos_of M N (Hor (S i) j) <> z) by (cbn; unfold above; destruct (Nat.ltb_spec (S i) M); [unfold z, square in *; nia|lia]).
  assert (RU : forall s u v, (match s with Hole _ _ => False | _ => True end) -> pos_of M N s = z -> coord (from_of M N s) = u -> coord (to_of M N s) = v -> runs z (ed s) u v).
  { intros s u v Hs Ep <- <-. left. split; [rewrite POS; congruence|]. apply square_straight; assumption. }
  assert (RD : forall s u v, (match s with Hole _ _ => False | _ => True end) -> pos_of M N s <> z -> coord (from_of M N s) = v -> coord (to_of M N s) = u -> runs z (ed s) u v).
  { intros s u v Hs Ep <- <-. right. split; [rewrite POS; congruence|]. apply square_straight; assumption. }
  cbn [bounded_by]. rewrite !S_INR. split; [nra|]. split; [nra|]. exists (ed (Hor i j)), (ed (Ver i (S j))), (ed (Hor (S i) j)), (ed (Ver i j)). do 4 (split; [apply ND; cbn; lia|]).
  split; [apply RU; [exact I|exact P1|unfold coord; cbn; f_equal; unfold h; ring|unfold coord; cbn -[INR]; rewrite ?S_INR; f_equal; unfold h; ring]|].
  split; [apply RU; [exact I|exact P3|unfold coord; cbn -[INR]; rewrite ?S_INR; f_equal; unfold h; ring|unfold coord; cbn -[INR]; rewrite ?S_INR; f_equal; unfold h; ring]|].
  split; [apply RD; [exact I|exact Q4|unfold coord; cbn -[INR]; rewrite ?S_INR; f_equal; unfold h; ring|unfold coord; cbn -[INR]; rewrite ?S_INR; f_equal; unfold h; ring]|].
  apply RD; [exact I|exact Q2|unfold coord; cbn -[INR]; rewrite ?S_INR; f_equal; unfold h; ring|unfold coord; cbn -[INR]; rewrite ?S_INR; f_equal; unfold h; ring].
Qed.

Lemma got_made H m z c : get_cell H m z = Ok c -> exists ids, mk_cell H z ids (33, 33)%Z (5 / 100) (5 / 100) = Ok c.
Proof. unfold get_cell. destruct (zmemb z (m_cells m)); [|discriminate]. destruct (map_res _ _) as [es|]; [|discriminate]. cbn [bind]. eauto. Qed.

(** The script "make a pegboard, get a cell, parameterize it, integrate a polynomial over it" runs with every number of points from
    4 on, and its result tends to the integral over the square less the disc, or over the disc. Containment is tested by [within]. *)
Theorem C79_pegboard_runs f M N radius H m i j p : (2 <= p)%Z -> (1 <= M)%nat -> (1 <= N)%nat -> pegboard (Z.of_nat M, Z.of_nat N) radius = Ok (H, m) -> (i < M)%nat -> (j < N)%nat ->
  let h := spacing M N in let disc := disc_integral (peval RS f) (coord (centre M N i j)) (radius * h) in
  let script z v := exists c, get_cell H m z = Ok c /\
    (forall n, (4 <= n)%Z -> exists qd H' c' I, get_quad_dict (PInt n) p = Ok qd /\ param_cell within qd false H c = Ok (H', c') /\ int_poly f H' c' = Ok I) /\
    forall eps, 0 < eps -> exists K, forall n, (K <= n)%Z -> exists qd H' c' I, get_quad_dict (PInt n) p = Ok qd /\ param_cell within qd false H c = Ok (H', c') /\ int_poly f H' c' = Ok I /\ Rabs (I - v) <= eps in
  (0 < radius -> TOL <= radius * h) ->
  ((Z.of_nat (Nat.max M N) <= (if Rltb 0 radius then 707106 else 1000000))%Z -> script (square N i j) (rectangle_integral (peval RS f) (INR j * h) (INR (S j) * h) (INR i * h) (INR (S i) * h) - (if Rltb 0 radius then disc else 0))) /\
  (0 < radius -> script (Z.of_nat (M * N) + square N i j)%Z disc).
Proof.
  intros Hp HM HN E Hi Hj h disc script HR.
  assert (GO : forall z v c, get_cell H m z = Ok c -> wf_cell c -> c_comps c <> [] -> (forall n qd, (4 <= n)%Z -> get_quad_dict (PInt n) p = Ok qd -> Forall (samplable within qd H) (c_comps c)) ->
    (forall c, get_cell H m z = Ok c -> forall eps, 0 < eps -> exists K, forall n, (K <= n)%Z -> forall qd w H' c', get_quad_dict (PInt n) p = Ok qd -> param_cell within qd w H c = Ok (H', c') -> exists I, int_poly f H' c' = Ok I /\ Rabs (I - v) <= eps) -> script z v).
  { intros z v c G W NE RD L. exists c. split; [exact G|].
    assert (A : forall n, (4 <= n)%Z -> exists qd H' c', get_quad_dict (PInt n) p = Ok qd /\ param_cell within qd false H c = Ok (H', c')).
    { intros n Hn. destruct (C19_dict n p Hn Hp) as (a & b & Eq & _). exists (a, b). destruct (ready_cell within (a, b) (PInt n) p H c Eq W NE (RD n (a, b) Hn Eq)) as (H' & c' & Pc). exists H', c'. split; [exact Eq|exact Pc]. }
    split.
    - intros n Hn. destruct (A n Hn) as (qd & H' & c' & Eq & Pc). destruct (got_made _ _ _ _ G) as (ids & Mk).
      assert (Rd : ready within H' c') by (exists H, z, ids, (33, 33)%Z, (5 / 100), (5 / 100), c, (PInt n), p, qd, false, H; auto).
      destruct (param_cell_ok within (fun _ _ => True) (fun _ _ _ _ _ _ => I) qd (PInt n) p false H c H' c' Eq (built_wf _ _ _ _ _ _ _ Mk) Pc) as (ess0 & ess & Pr). pose proof (p_fresh _ _ _ _ _ _ _ _ _ Pr) as Fr.
      assert (B : boundary_edges H' c' ess). { destruct Fr as (F & _). unfold boundary_edges. clear -F. induction F as [|k es ks ess (R & _) F IH]; constructor; assumption. }
      exists qd, H', c'. eexists. split; [exact Eq|]. split; [exact Pc|]. apply (C54_cell_integral within H' c' ess f Rd B).
    - intros eps He. destruct (L c G eps He) as (K & HK). exists (Z.max 4 K). intros n Hn. destruct (A n ltac:(lia)) as (qd & H' & c' & Eq & Pc). destruct (HK n ltac:(lia) qd false H' c' Eq Pc) as (I & EI & HI). exists qd, H', c', I. auto. }
  assert (SG : forall z c k, get_cell H m z = Ok c -> In k (c_comps c) -> Forall2 (fun i o => exists e, nth_error H i = Some e /\ o = sign_for z e) (k_edges k) (k_orients k)).
  { intros z c k G Ik. destruct (got_made _ _ _ _ G) as (ids & Mk). destruct (C36_contours _ _ _ _ _ _ _ Mk) as (_ & _ & _ & _ & F). rewrite Forall_forall in F. destruct (F k Ik) as (_ & F2). clear -F2. induction F2 as [|x o l l' (e & E & _ & Eo) F IH]; constructor; [exists e; auto|exact IH]. }
  assert (WF : forall z c, get_cell H m z = Ok c -> wf_cell c) by (intros z c G; destruct (got_made _ _ _ _ G) as (ids & Mk); apply (built_wf _ _ _ _ _ _ _ Mk)).
  destruct (C79_pegboard f within M N radius H m i j p Hp HM HN E Hi Hj) as (L1 & L2).
  destruct (pegboard_ok M N radius HM HN) as (H0 & m0 & E0 & LH & ME & ND & MK). assert (Q0 : H0 = H /\ m0 = m) by (rewrite E0 in E; apply Ok_inj in E; injection E as <- <-; auto). destruct Q0 as [-> ->].
  assert (HQ : Rltb 0 radius = holes_of radius) by (unfold holes_of; destruct (Rle_dec radius 0); [apply Rltb_false|apply Rltb_true]; lra).
  destruct (C46_get_cell_partial M N radius (holes_of radius) H m i j HM HN (holes_of_spec radius) E Hi Hj) as (C1 & C2).
  assert (RH : forall n qd k o, 0 < radius -> (4 <= n)%Z -> get_quad_dict (PInt n) p = Ok qd -> k_edges k = [place M N (Hole i j)] -> k_orients k = [o] -> samplable within qd H k).
  { intros n qd k o Hr Hn Eq EK EO. apply (round_ready H k _ (with_idx (edge_of M N radius (Hole i j)) (Some (Z.of_nat (place M N (Hole i j))))) (coord (centre M N i j)) (radius * h) o p n qd Hp Hn Eq EK EO); [|apply hole_round; assumption| |apply HR, Hr].
    - apply ND. cbn. split; [auto|]. apply holes_of_spec, Hr.
    - destruct (hole_round M N radius i j (Some (Z.of_nat (place M N (Hole i j)))) HM HN Hr) as (Ec & _ & _ & _ & _ & _). cbn [with_idx e_qtype e_curve] in *. pose proof (made_ok M N radius (Hole i j)) as Em. cbn [made_for] in Em. unfold mk_edge in Em. cbn [check_idx bind] in Em. unfold check_t_bounds in Em. cbn [fst snd] in Em. destruct (Rle_dec (2 * PI) 0); [discriminate|]. cbn [bind] in Em. apply Ok_inj in Em. rewrite Em. unfold set_verts, set_cells. destruct (veqb _ _); reflexivity. }
  split.
  - rewrite HQ. intros B. assert (B' : (Z.of_nat (Nat.max M N) <= side_bound (holes_of radius))%Z) by (destruct (holes_of radius); exact B).
    assert (HT : TOL <= h). { unfold h. apply Rle_trans with (1 / IZR (side_bound (holes_of radius))); [unfold TOL; destruct (holes_of radius); cbn; lra|]. apply spacing_far; [exact HM|exact HN|destruct (holes_of radius); reflexivity|exact B']. }
    destruct (C1 B') as (c & G & _ & _ & KE & KO). rewrite <- HQ. apply (GO _ _ c G (WF _ _ G)); [intros X; rewrite X in KE; discriminate| |exact L1].
    intros n qd Hn Eq. pose proof (square_bounded M N radius H m i j HM HN E Hi Hj HT) as BS. cbv zeta in BS. fold h in BS. pose proof (WF _ _ G) as (NDc & _ & _). unfold cell_edges in NDc.
    assert (SQ : forall k, In k (c_comps c) -> NoDup (k_edges k) -> k_edges k = map (place M N) [Hor i j; Ver i (S j); Hor (S i) j; Ver i j] -> samplable within qd H k).
    { intros k Ik NDk EK. pose proof (SG _ _ _ G Ik) as F2. eapply (box_ready H (square N i j) k _ _ _ _ _ _ _ _ p n qd Hp Hn Eq NDk EK); [| |exact BS].
      - intros a x e Ea Ex. clear -F2 Ea Ex. revert a Ea. induction F2 as [|y o l l' (e' & E & Eo) F IH]; intros [|a] Ea; try discriminate; cbn in *; [injection Ea as ->; f_equal; congruence|apply IH, Ea].
      - rewrite <- (Forall2_len _ _ _ F2), EK. reflexivity. }
    destruct (holes_of radius) eqn:EH; cbn [map] in KE, KO; destruct (c_comps c) as [|k1 [|k2 [|]]]; try discriminate; cbn [map concat] in KE, KO, NDc.
    + injection KE as K1 K2. injection KO as O1 O2. constructor; [apply SQ; [left; reflexivity| |exact K1]|constructor; [|constructor]].
      * rewrite K1 in *. cbn [app] in NDc. clear -NDc. inversion NDc as [|? ? A NDc']; subst. inversion NDc' as [|? ? A' NDc'']; subst. inversion NDc'' as [|? ? A'' NDc3]; subst. inversion NDc3 as [|? ? A3 NDc4]; subst. cbn [In] in *. repeat (constructor; [cbn [In]; tauto|]). constructor.
      * eapply (RH n qd k2); [apply holes_of_spec; exact EH|exact Hn|exact Eq|exact K2|exact O2].
    + injection KE as K1. constructor; [|constructor]. apply SQ; [left; reflexivity| |exact K1]. rewrite app_nil_r in NDc. exact NDc.
  - intros Hr. destruct (C2 (proj2 (holes_of_spec radius) Hr)) as (c & G & _ & KE & KO). apply (GO _ _ c G (WF _ _ G)); [intros X; rewrite X in KE; discriminate| |exact (L2 Hr)].
    intros n qd Hn Eq. destruct (c_comps c) as [|k [|]]; try discriminate. cbn [map] in KE, KO. injection KE as K1. injection KO as O1. constructor; [|constructor]. exact (RH n qd k 1%Z Hr Hn Eq K1 O1).
Qed.
Print Assumptions C79_pegboard_runs.
