(** The functions of an edge before the correction, and their spans. *)
From Coq Require Import List ZArith Reals Lia Lra Bool Arith.
From Verif Require Import PyBase PolyModel PolySpec PolyProofs PolyProofs2 PolyProofs3 PolyProofs4 LegendreModel LegendreProofs LegendreProofs2 BBoxModel BaryModel BarySpec BaryProofs EdgeSpaceModel EdgeSpaceSpec EdgeSpaceProofs EdgeSpaceProps PolyErr PolyErr2 CellProofs SpanSpec SpanProofs.
Import ListNotations.
Open Scope R_scope.

(** ** Linear functions *)
Lemma pmul_one p : canonical p -> pmul RS p (pone RS) = p.
Proof.
  intros C. destruct top_one as (_ & C1 & _ & _). apply canonical_ext; [apply pmul_canonical|exact C|]. intros a b. rewrite coef_pmul by assumption.
  assert (O : forall u v, coef (pone RS) u v = if (Nat.eqb u 0 && Nat.eqb v 0)%bool then 1 else 0) by (intros u v; rewrite pone_eq; destruct u, v; cbn; ring).
  rewrite (sum2_single (fun i j => cutoff (coef p i j * coef (pone RS) (a - i) (b - j))) a b a b); [|lia|lia|].
  - rewrite O, !Nat.sub_diag. cbn [Nat.eqb andb]. rewrite Rmult_1_r, !canonical_cutoff by exact C. reflexivity.
  - intros i j Hi Hj N. rewrite O. destruct (Nat.eqb_spec (a - i) 0), (Nat.eqb_spec (b - j) 0); cbn [andb]; try (rewrite Rmult_0_r; apply cutoff_zero). exfalso. apply N. f_equal; lia.
Qed.
Lemma one_pmul p : canonical p -> pmul RS (pone RS) p = p.
Proof. intros C. rewrite pmul_comm; [apply pmul_one, C|apply top_one|exact C]. Qed.
Lemma islin_one : islin 1 0 0 (pone RS).
Proof. split; [apply top_one|]. intros a b. rewrite pone_eq. destruct a as [|[|a]], b as [|[|b]]; cbn; ring. Qed.
Lemma islin_nil : islin 0 0 0 [].
Proof. split; [constructor|]. intros a b. destruct a as [|[|a]], b as [|[|b]]; reflexivity. Qed.
Lemma islin_eq a b c a' b' c' p : islin a b c p -> a = a' -> b = b' -> c = c' -> islin a' b' c' p.
Proof. intros H -> -> ->. exact H. Qed.
Lemma canonical_lin c0 cx cy p : islin c0 cx cy p -> cx <> 0 -> cy <> 0 -> (c0 = 0 /\ p = [rmon cx 1 0; rmon cy 0 1]) \/ p = [rmon c0 0 0; rmon cx 1 0; rmon cy 0 1].
Proof.
  intros [C H] Nx Ny. assert (B : forall a b, coef p a b <> 0 -> tol <= Rabs (coef p a b)) by (intros a b N; destruct (canonical_coef_big p a b C); [contradiction|assumption]).
  pose proof (B 1%nat 0%nat) as Bx. pose proof (B 0%nat 1%nat) as By. rewrite H in Bx, By. cbn [tlin] in Bx, By. assert (C2 : canonical [rmon cx 1 0; rmon cy 0 1]) by (constructor; [apply Bx, Nx|constructor; [right; cbn; lia|constructor]|constructor; [apply By, Ny|constructor|constructor]]).
  destruct (Req_dec c0 0) as [->|N0].
  - left. split; [reflexivity|]. apply canonical_ext; [exact C|exact C2|]. intros a b. rewrite H. destruct a as [|[|a]], b as [|[|b]]; cbn; ring.
  - right. pose proof (B 0%nat 0%nat) as B0. rewrite H in B0. apply canonical_ext; [exact C|constructor; [apply B0, N0| |exact C2]|intros a b; rewrite H; symmetry; apply coef_lin]. constructor; [left; cbn; lia|constructor; [left; cbn; lia|constructor]].
Qed.
Lemma islin_piadd c0 cx cy p d0 dx dy q : islin c0 cx cy p -> islin d0 dx dy q -> islin (cutoff (c0 + d0)) (cutoff (cx + dx)) (cutoff (cy + dy)) (piadd RS p q).
Proof. intros P Q. rewrite piadd_padd; [apply islin_add; assumption|apply P|apply Q]. Qed.
Lemma cut_near a b e : Rabs (a - b) <= e -> Rabs (cutoff a - b) <= e + tol.
Proof. intros H. pose proof (cutoff_err a) as E. pose proof (Rabs_triang (cutoff a - a) (a - b)) as T. replace (cutoff a - a + (a - b)) with (cutoff a - b) in T by ring. lra. Qed.
Lemma plus_near a b c d e f : Rabs (a - b) <= e -> Rabs (c - d) <= f -> Rabs (a + c - (b + d)) <= e + f.
Proof. intros H K. replace (a + c - (b + d)) with ((a - b) + (c - d)) by ring. pose proof (Rabs_triang (a - b) (c - d)). lra. Qed.
Lemma self_near a : Rabs (a - a) <= 0.
Proof. rewrite Rminus_diag_eq by reflexivity. rewrite Rabs_R0. lra. Qed.
Lemma lin_compose c0 cx cy b0 bx d0 dy p q1 q2 : islin c0 cx cy p -> islin b0 bx 0 q1 -> islin d0 0 dy q2 -> cx <> 0 -> cy <> 0 -> tol <= Rabs (bx * cx) -> tol <= Rabs (dy * cy) ->
  exists K, islin K (bx * cx) (dy * cy) (pcompose RS p q1 q2) /\ Rabs (K - (c0 + b0 * cx + d0 * cy)) <= 6 * tol.
Proof.
  intros P Q1 Q2 Nx Ny Bx By. assert (X1 : forall c, cterm q1 q2 c 1 0 = pscale RS q1 c) by (intros c; unfold cterm; cbn [ppow_nat]; rewrite pmul_one by apply pmul_canonical; rewrite one_pmul by apply Q1; reflexivity).
  assert (X2 : forall c, cterm q1 q2 c 0 1 = pscale RS q2 c) by (intros c; unfold cterm; cbn [ppow_nat]; rewrite !one_pmul; [reflexivity|apply Q2|apply pmul_canonical]).
  assert (X0 : forall c, cterm q1 q2 c 0 0 = pscale RS (pone RS) c) by (intros c; unfold cterm; cbn [ppow_nat]; rewrite one_pmul by apply top_one; reflexivity).
  assert (Z : forall c, cutoff (0 * c) = 0) by (intros c; rewrite Rmult_0_l; apply cutoff_zero). pose proof tol_pos as TP.
  assert (G : forall a0 acc, islin a0 0 0 acc -> exists K, islin K (bx * cx) (dy * cy) (compose_from q1 q2 [rmon cx 1 0; rmon cy 0 1] acc) /\ Rabs (K - (a0 + b0 * cx + d0 * cy)) <= 4 * tol).
  { intros a0 acc A. unfold compose_from. cbn [fold_left rmon malpha mcoef mx my]. rewrite X1, X2. pose proof (islin_piadd _ _ _ _ _ _ _ _ (islin_piadd _ _ _ _ _ _ _ _ A (islin_scale _ _ _ _ cx Q1)) (islin_scale _ _ _ _ cy Q2)) as Y.
    eexists. split; [eapply islin_eq; [exact Y|reflexivity| |]|].
    - rewrite Z, Rplus_0_r, Rplus_0_l, !cut_cut. apply cutoff_id, Bx.
    - rewrite Z, Rplus_0_l, cutoff_zero, Rplus_0_l, cut_cut. apply cutoff_id, By.
    - replace (4 * tol) with (0 + (0 + tol) + tol + (0 + tol) + tol) by ring. apply cut_near, plus_near; [|apply cut_near, self_near]. apply cut_near, plus_near; [apply self_near|apply cut_near, self_near]. }
  rewrite compose_eq. destruct (canonical_lin _ _ _ _ P Nx Ny) as [(-> & ->)|Ep]; [|rewrite Ep; clear Ep].
  - destruct (G 0 [] islin_nil) as (K & A & B). exists K. split; [exact A|lra].
  - unfold compose_from. cbn [fold_left rmon malpha mcoef mx my]. rewrite X0. destruct (G (cutoff (0 + cutoff (1 * c0))) (piadd RS [] (pscale RS (pone RS) c0))) as (K & A & B).
    + eapply islin_eq; [exact (islin_piadd _ _ _ _ _ _ _ _ islin_nil (islin_scale _ _ _ _ c0 islin_one))|reflexivity| |]; rewrite Z, Rplus_0_l; apply cutoff_zero.
    + exists K. split; [exact A|]. rewrite Rplus_0_l, cut_cut, Rmult_1_l in B. pose proof (cutoff_err c0) as E. replace (K - (c0 + b0 * cx + d0 * cy)) with ((K - (cutoff c0 + b0 * cx + d0 * cy)) + (cutoff c0 - c0)) by ring. pose proof (Rabs_triang (K - (cutoff c0 + b0 * cx + d0 * cy)) (cutoff c0 - c0)). lra.
Qed.
Ltac linp := split; [apply mkpoly_canonical|]; intros a b; rewrite coef_mkpoly; cbn [fold_right]; destruct a as [|[|a]], b as [|[|b]]; cbn; rewrite ?Rplus_0_r, ?Rplus_0_l, ?cut_cut, ?cutoff_1, ?cutoff_zero; try reflexivity.
Lemma cutoff_m1 : cutoff (-1) = -1.
Proof. apply cutoff_id. rewrite Rabs_left by lra. pose proof tol_lt1. lra. Qed.
Lemma lin0_is : islin 1 1 1 lin0.
Proof. unfold lin0. linp; apply cutoff_1. Qed.
Lemma lin1_is : islin 1 (-1) (-1) lin1.
Proof. unfold lin1. linp; rewrite ?cutoff_m1; reflexivity || apply cutoff_1. Qed.
Lemma lin2_is : islin 0 1 (-1) lin2.
Proof. unfold lin2. linp; rewrite ?cutoff_m1; reflexivity || apply cutoff_1. Qed.
Lemma shift_x_is s : islin (cutoff (- s)) 1 0 (mkpoly RS [(1, 1%nat, 0%nat); (- s, 0%nat, 0%nat)]).
Proof. linp; apply cutoff_1. Qed.
Lemma shift_y_is s : islin (cutoff (- s)) 0 1 (mkpoly RS [(1, 0%nat, 1%nat); (- s, 0%nat, 0%nat)]).
Proof. linp; apply cutoff_1. Qed.

(** ** The maps to the box *)
Lemma lmin_lmax (f : pt -> R) z l : exists a b, In a (z :: l) /\ In b (z :: l) /\ lmin (f z) (map f l) = f a /\ lmax (f z) (map f l) = f b /\ forall c, In c (z :: l) -> f a <= f c <= f b.
Proof.
  assert (A : exists a, In a (z :: l) /\ lmin (f z) (map f l) = f a /\ forall c, In c (z :: l) -> f a <= f c).
  { revert z. induction l as [|y l IH]; intros z; [exists z; cbn; split; [auto|]; split; [reflexivity|]; intros c [->|[]]; lra|]. cbn [map]. unfold lmin. cbn [fold_left]. unfold Rmin. destruct (Rle_dec (f z) (f y)).
    - destruct (IH z) as (a & I & E & H). exists a. split; [destruct I; [left|right; right]; assumption|]. split; [exact E|]. intros c [->|[->|K]]; [apply H; left; reflexivity| |apply H; right; exact K]. pose proof (H z (or_introl eq_refl)). lra.
    - destruct (IH y) as (a & I & E & H). exists a. split; [right; exact I|]. split; [exact E|]. intros c [->|K]; [|apply H; exact K]. pose proof (H y (or_introl eq_refl)). lra. }
  assert (B : exists a, In a (z :: l) /\ lmax (f z) (map f l) = f a /\ forall c, In c (z :: l) -> f c <= f a).
  { clear A. revert z. induction l as [|y l IH]; intros z; [exists z; cbn; split; [auto|]; split; [reflexivity|]; intros c [->|[]]; lra|]. cbn [map]. unfold lmax. cbn [fold_left]. unfold Rmax. destruct (Rle_dec (f z) (f y)).
    - destruct (IH y) as (a & I & E & H). exists a. split; [right; exact I|]. split; [exact E|]. intros c [->|K]; [|apply H; exact K]. pose proof (H y (or_introl eq_refl)). lra.
    - destruct (IH z) as (a & I & E & H). exists a. split; [destruct I; [left|right; right]; assumption|]. split; [exact E|]. intros c [->|[->|K]]; [apply H; left; reflexivity| |apply H; right; exact K]. pose proof (H z (or_introl eq_refl)). lra. }
  destruct A as (a & Ia & Ea & Ha), B as (b & Ib & Eb & Hb). exists a, b. split; [exact Ia|]. split; [exact Ib|]. split; [exact Ea|]. split; [exact Eb|]. intros c Ic. split; [apply Ha|apply Hb]; exact Ic.
Qed.
Lemma extent_is f z l w : extent f (z :: l) w -> lmax (f z) (map f l) - lmin (f z) (map f l) = w.
Proof.
  intros (H & a & b & Ia & Ib & E). destruct (lmin_lmax f z l) as (c & d & Ic & Id & -> & -> & M). pose proof (H d c Id Ic). pose proof (M a Ia). pose proof (M b Ib). lra.
Qed.
Lemma maps_ok pts sx sy : halves pts sx sy -> exists tx ty, 0 < sx /\ 0 < sy /\
  bbox_maps pts = Ok (pscale RS (mkpoly RS [(1, 1%nat, 0%nat); (- tx, 0%nat, 0%nat)]) (1 / sx), pscale RS (mkpoly RS [(1, 0%nat, 1%nat); (- ty, 0%nat, 0%nat)]) (1 / sy)).
Proof.
  intros (wx & wy & Ex & Ey & T & -> & ->). destruct pts as [|z l]; [destruct Ex as (_ & a & _ & [] & _)|]. apply extent_is in Ex, Ey. unfold pt in *. pose proof tol_pos as TP. unfold bbox_maps, bounding_box. cbn [map]. cbv beta iota zeta. rewrite Ex, Ey. fold tol. destruct (Rlt_dec (Rmax wx wy) tol) as [L|_]; [lra|].
  destruct (Rlt_dec wx tol) as [Lx|Lx], (Rlt_dec wy tol) as [Ly|Ly]; cbn [bind].
  all: repeat match goal with |- context [?a + ?d / 2 - (?a - ?d / 2)] => replace (a + d / 2 - (a - d / 2)) with d by lra end. all: rewrite ?Ex, ?Ey. all: do 2 eexists; (split; [lra|]); (split; [lra|]); reflexivity.
Qed.
Lemma top_x al t : tol <= Rabs al -> top 1 1 0 al (pscale RS (mkpoly RS [(1, 1%nat, 0%nat); (- t, 0%nat, 0%nat)]) al) /\ islin (cutoff (cutoff (- t) * al)) al 0 (pscale RS (mkpoly RS [(1, 1%nat, 0%nat); (- t, 0%nat, 0%nat)]) al).
Proof.
  intros B. assert (L : islin (cutoff (cutoff (- t) * al)) al 0 (pscale RS (mkpoly RS [(1, 1%nat, 0%nat); (- t, 0%nat, 0%nat)]) al)) by (eapply islin_eq; [apply islin_scale, shift_x_is|reflexivity|rewrite Rmult_1_l; apply cutoff_id, B|rewrite Rmult_0_l; apply cutoff_zero]).
  split; [|exact L]. destruct L as (C & H). split; [reflexivity|]. split; [exact C|]. split; [apply coef_deg_le; [exact C|]; intros i j Hij; rewrite H; destruct i as [|[|i]], j as [|[|j]]; try reflexivity; lia|]. intros i j Hij. rewrite H. destruct i as [|[|i]], j as [|[|j]]; try lia; reflexivity.
Qed.
Lemma top_y al t : tol <= Rabs al -> top 1 0 1 al (pscale RS (mkpoly RS [(1, 0%nat, 1%nat); (- t, 0%nat, 0%nat)]) al) /\ islin (cutoff (cutoff (- t) * al)) 0 al (pscale RS (mkpoly RS [(1, 0%nat, 1%nat); (- t, 0%nat, 0%nat)]) al).
Proof.
  intros B. assert (L : islin (cutoff (cutoff (- t) * al)) 0 al (pscale RS (mkpoly RS [(1, 0%nat, 1%nat); (- t, 0%nat, 0%nat)]) al)) by (eapply islin_eq; [apply islin_scale, shift_y_is|reflexivity|rewrite Rmult_0_l; apply cutoff_zero|rewrite Rmult_1_l; apply cutoff_id, B]).
  split; [|exact L]. destruct L as (C & H). split; [reflexivity|]. split; [exact C|]. split; [apply coef_deg_le; [exact C|]; intros i j Hij; rewrite H; destruct i as [|[|i]], j as [|[|j]]; try reflexivity; lia|]. intros i j Hij. rewrite H. destruct i as [|[|i]], j as [|[|j]]; try lia; reflexivity.
Qed.

(** ** The list *)
Lemma nth_set_nth {A} n (a : A) l k : (n < length l)%nat -> nth_error (set_nth n a l) k = if Nat.eqb k n then Some a else nth_error l k.
Proof.
  intros L. unfold set_nth. destruct (Nat.eqb_spec k n) as [->|N].
  - rewrite nth_error_app2 by (rewrite firstn_length; lia). rewrite firstn_length, Nat.min_l, Nat.sub_diag by lia. reflexivity.
  - destruct (Nat.lt_ge_cases k n) as [H|H].
    + rewrite nth_error_app1 by (rewrite firstn_length; lia). apply nth_error_firstn, H.
    + rewrite nth_error_app2 by (rewrite firstn_length; lia). rewrite firstn_length, Nat.min_l by lia. destruct (k - n)%nat eqn:E; [lia|]. cbn [nth_error]. rewrite nth_error_skipn. f_equal. lia.
Qed.
Lemma nth_pairs deg : (1 <= deg)%nat -> nth_error (pair_list deg) 0 = Some (0, 0)%nat /\ nth_error (pair_list deg) 1 = Some (0, 1)%nat /\ nth_error (pair_list deg) (deg + 1) = Some (1, 0)%nat.
Proof.
  intros H. destruct deg as [|d]; [lia|]. unfold pair_list. replace (S d + 1)%nat with (S (S d)) by lia. cbn [seq flat_map]. rewrite Nat.sub_0_r. split; [reflexivity|]. split; [reflexivity|]. rewrite nth_error_app2 by (rewrite map_length, seq_length; lia). rewrite map_length, seq_length, Nat.sub_diag. cbn [Nat.sub]. reflexivity.
Qed.
(** What [pre_traces] puts at each place *)
Definition tensor deg m n : rpoly := pmul RS (nth m (integrated_legendre_polynomials deg) []) (nth n (map swap_coordinates (integrated_legendre_polynomials deg)) []).
Lemma nth_tensor deg k m n : nth_error (pair_list deg) k = Some (m, n) -> nth_error (integrated_legendre_tensor_products deg) k = Some (tensor deg m n).
Proof. intros E. unfold integrated_legendre_tensor_products. rewrite tensor_list, nth_error_map, E. reflexivity. Qed.
Lemma pre_nth e deg qx qy pre : (1 <= deg)%nat -> bbox_maps (ev_pts e) = Ok (qx, qy) -> pre_traces e deg = Ok pre -> exists y1 y2 s1 s2, islin s1 1 0 y1 /\ islin s2 0 1 y2 /\
  let at_q f := pcompose RS f qx qy in
  nth_error pre 0 = Some (at_q (pcompose RS lin0 y1 y2)) /\ nth_error pre 1 = Some (at_q (pcompose RS lin1 y1 y2)) /\ nth_error pre (deg + 1) = Some (at_q (pcompose RS lin2 y1 y2)) /\
  forall m n, (2 <= m + n <= deg)%nat -> exists k, (2 <= k)%nat /\ k <> (deg + 1)%nat /\ nth_error pre k = Some (at_q (tensor deg m n)).
Proof.
  intros Hd Eq E. unfold pre_traces in E. rewrite Eq in E. cbn [bind] in E. apply Ok_inj in E. subst pre. set (a1 := ev_int e (map fst (ev_pts e)) / ev_int e (map (fun _ => 1) (ev_pts e))). set (a2 := ev_int e (map snd (ev_pts e)) / ev_int e (map (fun _ => 1) (ev_pts e))). set (y1 := mkpoly RS [(1, 1%nat, 0%nat); (- a1, 0%nat, 0%nat)]). set (y2 := mkpoly RS [(1, 0%nat, 1%nat); (- a2, 0%nat, 0%nat)]). exists y1, y2, (cutoff (- a1)), (cutoff (- a2)). split; [apply shift_x_is|]. split; [apply shift_y_is|]. cbv zeta.
  pose proof (tensor_big deg Hd) as Big. set (T := integrated_legendre_tensor_products deg) in *. unfold upd.
  assert (L0 : (0 < length T)%nat) by lia. assert (L1 : (1 < length T)%nat) by lia. assert (N1 : 1%nat <> (deg + 1)%nat) by lia.
  set (l0 := set_nth (deg + 1) lin2 (set_nth 1 lin1 (set_nth 0 lin0 T))).
  assert (E0 : forall k, nth_error l0 k = if Nat.eqb k (deg + 1) then Some lin2 else if Nat.eqb k 1 then Some lin1 else if Nat.eqb k 0 then Some lin0 else nth_error T k) by (intros k; unfold l0; rewrite !nth_set_nth by (rewrite ?length_set_nth; rewrite ?length_set_nth; lia); reflexivity).
  assert (Ll : length l0 = length T) by (unfold l0; rewrite !length_set_nth; rewrite ?length_set_nth; rewrite ?length_set_nth; lia).
  assert (Nt : forall k x, nth_error l0 k = Some x -> nth k l0 [] = x) by (intros k x; apply nth_error_nth).
  rewrite (Nt 0%nat lin0) by (rewrite E0; destruct (Nat.eqb_spec 0 (deg + 1)); [lia|]; reflexivity). set (c0 := pcompose RS lin0 y1 y2). set (l1 := set_nth 0 c0 l0).
  assert (E1 : forall k, nth_error l1 k = if Nat.eqb k 0 then Some c0 else nth_error l0 k) by (intros k; apply nth_set_nth; lia). assert (Ll1 : length l1 = length T) by (unfold l1; rewrite length_set_nth; lia).
  rewrite (nth_error_nth l1 1 [] (x := lin1)) by (rewrite E1; cbn [Nat.eqb]; rewrite E0; destruct (Nat.eqb_spec 1 (deg + 1)); [lia|]; reflexivity). set (c1 := pcompose RS lin1 y1 y2). set (l2 := set_nth 1 c1 l1).
  assert (E2 : forall k, nth_error l2 k = if Nat.eqb k 1 then Some c1 else nth_error l1 k) by (intros k; apply nth_set_nth; lia). assert (Ll2 : length l2 = length T) by (unfold l2; rewrite length_set_nth; lia).
  rewrite (nth_error_nth l2 (deg + 1) [] (x := lin2)) by (rewrite E2, E1, E0; destruct (Nat.eqb_spec (deg + 1) 1); [lia|]; destruct (Nat.eqb_spec (deg + 1) 0); [lia|]; rewrite Nat.eqb_refl; reflexivity). set (c2 := pcompose RS lin2 y1 y2).
  assert (E3 : forall k, nth_error (set_nth (deg + 1) c2 l2) k = if Nat.eqb k (deg + 1) then Some c2 else nth_error l2 k) by (intros k; apply nth_set_nth; lia).
  split; [rewrite nth_error_map, E3; destruct (Nat.eqb_spec 0 (deg + 1)); [lia|]; rewrite E2; cbn [Nat.eqb]; rewrite E1; reflexivity|].
  split; [rewrite nth_error_map, E3; destruct (Nat.eqb_spec 1 (deg + 1)); [lia|]; rewrite E2; reflexivity|].
  split; [rewrite nth_error_map, E3, Nat.eqb_refl; reflexivity|].
  intros m n Hmn. destruct (In_nth_error _ _ (proj2 (in_pair_list deg m n) ltac:(lia))) as (k & Ek). destruct (nth_pairs deg Hd) as (P0 & P1 & P2).
  assert (K0 : k <> 0%nat) by (intros ->; rewrite P0 in Ek; injection Ek as <- <-; lia). assert (K1 : k <> 1%nat) by (intros ->; rewrite P1 in Ek; injection Ek as <- <-; lia). assert (K2 : k <> (deg + 1)%nat) by (intros ->; rewrite P2 in Ek; injection Ek as <- <-; lia).
  exists k. split; [lia|]. split; [exact K2|]. rewrite nth_error_map, E3, E2, E1, E0. destruct (Nat.eqb_spec k (deg + 1)); [lia|]. destruct (Nat.eqb_spec k 1); [lia|]. destruct (Nat.eqb_spec k 0); [lia|]. unfold T. rewrite (nth_tensor deg k m n Ek). reflexivity.
Qed.
Lemma ilc_above n a : (n < a)%nat -> ilc n a = 0.
Proof. intros H. destruct n as [|[|n]]; cbn [ilc]; rewrite ?(lc_zero _ a) by (intros k; lia); [reflexivity|reflexivity|]. unfold Rdiv. ring. Qed.
Lemma ilc_lead n : ilc n n <> 0.
Proof.
  pose proof (pos_INR n) as P. pose proof (lc_big n n 0 ltac:(lia)) as B. cbn [pow] in B. rewrite Rmult_1_l in B. assert (0 < / (INR n + 1)) by (apply Rinv_0_lt_compat; lra). assert (L : 0 < lc n n) by lra. destruct n as [|[|n]]; [cbn [ilc]; lra|cbn [ilc]; lra|]. unfold ilc. rewrite (lc_zero n (S (S n))) by (intros k; lia). rewrite Rminus_0_r. pose proof (sqrt_s_pos n). apply Rgt_not_eq. apply Rdiv_lt_0_compat; assumption.
Qed.
Lemma lead_big deg m n : (m + n <= deg)%nat -> / (4 * (INR deg + 1) ^ 4) <= Rabs (ilc m m * ilc n n).
Proof.
  intros H. destruct (ilc_big m m) as [Q|E1]; [destruct (ilc_lead m Q)|]. destruct (ilc_big n n) as [Q|E2]; [destruct (ilc_lead n Q)|]. rewrite Rabs_mult. pose proof (pos_INR deg). pose proof (pos_INR m). pose proof (pos_INR n). assert (INR m <= INR deg) by (apply le_INR; lia). assert (INR n <= INR deg) by (apply le_INR; lia).
  assert (Q : forall k, 0 <= k <= INR deg -> / (2 * (INR deg + 1) ^ 2) <= / (2 * (k + 1) ^ 2)) by (intros k Hk; apply Rinv_le_contravar; [cbn; nra|]; apply Rmult_le_compat_l; [lra|]; apply pow_incr; lra). assert (Z : 0 < / (2 * (INR deg + 1) ^ 2)) by (apply Rinv_0_lt_compat; cbn; nra).
  replace (/ (4 * (INR deg + 1) ^ 4)) with (/ (2 * (INR deg + 1) ^ 2) * / (2 * (INR deg + 1) ^ 2)) by (field; lra). apply Rmult_le_compat; [lra|lra| |]; (eapply Rle_trans; [apply Q|eassumption]); lra.
Qed.
Lemma tensor_top deg m n : 4 * (INR deg + 1) ^ 4 * tol <= 1 -> (m + n <= deg)%nat -> top (m + n) m n (ilc m m * ilc n n) (tensor deg m n).
Proof.
  intros T H. unfold tensor. rewrite nth_map_swap. pose proof (integrated_ok deg m T ltac:(lia)) as Xm. pose proof (integrated_ok deg n T ltac:(lia)) as Xn. assert (K : forall a b, coef (pmul RS (nth m (integrated_legendre_polynomials deg) []) (swap_coordinates (nth n (integrated_legendre_polynomials deg) []))) a b = cutoff (ilc m a * ilc n b)) by (intros a b; rewrite (coef_tensor _ _ _ _ _ _ Xm Xn); apply cut_cut).
  split; [reflexivity|]. split; [apply pmul_canonical|]. assert (Z : forall a b, (m < a \/ n < b)%nat -> cutoff (ilc m a * ilc n b) = 0) by (intros a b [L|L]; rewrite (ilc_above _ _ L), ?Rmult_0_l, ?Rmult_0_r; apply cutoff_zero). split.
  - apply coef_deg_le; [apply pmul_canonical|]. intros i j Hij. rewrite K. apply Z. lia.
  - intros i j Hij. rewrite K. destruct (Nat.eqb_spec i m) as [->|]; cbn [andb]; [|apply Z; lia]. assert (j = n) by lia. subst j. rewrite Nat.eqb_refl. apply cutoff_id. eapply Rle_trans; [|apply (lead_big deg m n H)]. pose proof (pos_INR deg). assert (P : 0 < 4 * (INR deg + 1) ^ 4) by (apply Rmult_lt_0_compat; [lra|apply pow_lt; lra]). apply (Rmult_le_reg_l (4 * (INR deg + 1) ^ 4)); [exact P|]. rewrite Rinv_r by lra. exact T.
Qed.
