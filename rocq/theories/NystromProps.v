(** C58: the boundary integral operators. *)
From Coq Require Import List ZArith Reals Lia Lra Bool String Permutation.
From Coquelicot Require Import Coquelicot.
From Verif Require Import PyBase PolyModel PolySpec BaryModel QuadModel VertModel EdgeModel EdgeSpec EdgeProps4 ContourModel CellModel CellSpec CellProofs CellProps ContourProofs ContourProofs2 ContourProofs3 InteriorProofs ContourProofs4 ContourProps CellProps3 TraceModel TraceSpec TraceProofs LocalProofs3 LocalModel LocalSpec LocalProofs LocalProofs2 LocalProofs5 FftModel FftSpec FftProofs FftProofs2 FftProofs3 FftProps AntilapModel AntilapSpec AntilapProofs AntilapProofs2 AntilapProofs3 AntilapProofs4 AntilapProps2 NystromModel NystromSpec NystromProofs NystromProofs2 NystromProofs3 NystromProofs4 NystromProofs5 NystromProofs6 NystromProofs7 NystromProofs8.
From Verif Require Import Annulus DiscCell RingCell.
Import List ListNotations.
Open Scope R_scope.

(** ** The matrices *)

(** The matrix of the double layer has, for the samples [a] and [b] of the boundary in the order in
    which arrays list them, the kernel of the potential at [a] and [b] with the quadrature weight of
    [b] as its entry. *)
Theorem C58_double_matrix contains H c ess : ready contains H c -> boundary_edges H c ess -> apart (cell_grid c ess) ->
  layer_mat H c double_block = Ok (matrix_of double_entry (cell_grid c ess)) /\ map p_smp (cell_grid c ess) = contour_smp (concat ess).
Proof. intros Rd B A. pose proof (NpF Rd B) as F. split; [exact (double_matrix H c ess F A)|exact (grid_smp H c ess F)]. Qed.
Print Assumptions C58_double_matrix.

(** If samples with weight of two edges coincide, the constructor divides by zero. *)
Theorem C58_double_refused contains H c ess : ready contains H c -> boundary_edges H c ess -> ~ apart (cell_grid c ess) ->
  layer_mat H c double_block = Err ZeroDivisionError.
Proof. intros Rd B A. exact (double_refused H c ess (NpF Rd B) A). Qed.
Print Assumptions C58_double_refused.

(** On a cell where no two samples coincide, with at most 2 * 10^7 intervals per edge, the constructor
    returns both matrices: the single layer has Martensen's weights between samples of one edge and the
    plain logarithm between samples of two edges. *)
Theorem C58_matrices contains H c ess : ready contains H c -> boundary_edges H c ess -> NoDup (map sx (contour_smp (concat ess))) ->
  (forall e, In e (concat ess) -> (e_npts e <= 20000001)%Z) ->
  exists L, build_layers H c = Ok L /\ ly_single L = matrix_of single_entry (cell_grid c ess) /\ ly_double L = matrix_of double_entry (cell_grid c ess).
Proof.
  intros Rd B Nd Hn. pose proof (NpF Rd B) as F. destruct (ready_odd _ _ _ _ Rd B) as (m & Lm & Om). eexists. split; [apply (layers_ok Rd B)|split; reflexivity].
  - exact (distinct_apart H c ess F Nd).
  - apply (distinct_separated H c ess m F Om); [|exact Nd]. pose proof (ready_nonempty _ _ _ _ Rd B) as Ne. destruct (concat ess) as [|e es] eqn:Ec; [congruence|]. specialize (Hn e (or_introl eq_refl)). assert (I : In e (concat ess)) by (rewrite Ec; left; reflexivity). apply in_concat in I. destruct I as (l & Il & Ie). rewrite Forall_forall in Om. specialize (Om l Il). rewrite Forall_forall in Om. specialize (Om e Ie). lia.
Qed.
Print Assumptions C58_matrices.

(** ** The operators *)

(** The double layer operator applied to [u] at sample [i] is half the jump from the value [u_c] at the
    closest vertex, plus the integral of the kernel against [u - u_c]. The closest vertex comes from the
    table of the cell. *)
Theorem C58_double_operator contains H c ess L u : ready contains H c -> boundary_edges H c ess -> build_layers H c = Ok L -> fitting (concat ess) u ->
  exists idx, c_closest c = Some idx /\ double_layer c L u = Ok (map (fun i => let uc := nth (Z.to_nat (nth i idx 0%Z)) u 0 in
      (nth i u 0 - uc) / 2 + sum_list (zip_with Rmult (nth i (ly_double L) []) (map (fun x => x - uc) u))) (seq 0 (List.length u))).
Proof.
  intros Rd B EL Fu. assert (Lu : List.length u = Z.to_nat (csize (concat ess))) by (apply (fit_N Rd B), Fu). destruct (closest_table Rd B) as (idx & Ei & _). exists idx. split; [exact Ei|]. rewrite (double_ok Rd B L u EL Lu), Lu. f_equal. apply map_sq_ext. intros i Li. unfold double_at, corner_of. rewrite Ei. cbv zeta. set (uc := nth (Z.to_nat _) u 0).
  destruct (layers_shape Rd B L EL) as (_ & [S1 S2] & _). assert (Lr : List.length (nth i (ly_double L) []) = List.length u) by (rewrite Lu; rewrite Forall_forall in S2; apply S2, nth_In; lia). set (r := nth i (ly_double L) []) in *.
  replace (sum_list (zip_with Rmult r (map (fun x => x - uc) u))) with (np_dot r u - uc * np_sum r); [field|]. clearbody uc r. clear -Lr. revert u Lr. unfold np_dot, np_sum, sum_list, zip_with. induction r as [|x r IH]; intros [|y u] Lr; try discriminate; [cbn; ring|]. cbn [combine map fold_right fst snd]. rewrite <- IH by (cbn in Lr; lia). ring.
Qed.
Print Assumptions C58_double_operator.

(** It maps constants to zero: on every cell, with or without holes. *)
Theorem C58_double_constant contains H c ess L k : ready contains H c -> boundary_edges H c ess -> build_layers H c = Ok L ->
  double_layer c L (samples_of (concat ess) (fun _ => k)) = Ok (samples_of (concat ess) (fun _ => 0)).
Proof.
  intros Rd B EL. assert (K : forall k, samples_of (concat ess) (fun _ => k) = repeat k (Z.to_nat (csize (concat ess)))). { intros z. pose proof (fit_samples Rd B (fun _ => z)) as Ls. unfold samples_of in *. rewrite map_length in Ls. rewrite <- Ls. generalize (contour_smp (concat ess)). induction l as [|s l IH]; [reflexivity|]. cbn [map List.length repeat]. rewrite IH. reflexivity. }
  rewrite !K. rewrite (double_ok Rd B L _ EL) by apply repeat_length. f_equal. rewrite (repeat_sq 0). apply map_sq_ext. intros i Li. apply double_at_const; [exact (proj1 (proj2 (layers_shape Rd B L EL)))|exact Li|exact (corner_lt Rd B i Li)].
Qed.
Print Assumptions C58_double_constant.

(** The augmented operator multiplies constants by the length of the boundary. *)
Theorem C58_neumann_constant contains H c ess L k : ready contains H c -> boundary_edges H c ess -> build_layers H c = Ok L ->
  neumann_op H c L (samples_of (concat ess) (fun _ => k)) = Ok (samples_of (concat ess) (fun _ => k * perimeter (concat ess))).
Proof.
  intros Rd B EL. assert (K : forall k, samples_of (concat ess) (fun _ => k) = repeat k (Z.to_nat (csize (concat ess)))). { intros z. pose proof (fit_samples Rd B (fun _ => z)) as Ls. unfold samples_of in *. rewrite map_length in Ls. rewrite <- Ls. generalize (contour_smp (concat ess)). induction l as [|s l IH]; [reflexivity|]. cbn [map List.length repeat]. rewrite IH. reflexivity. }
  rewrite !K. rewrite (neumann_ok Rd B L _ EL) by apply repeat_length. f_equal. rewrite (repeat_sq (k * _)). apply map_sq_ext. intros i Li. rewrite double_at_const; [|exact (proj1 (proj2 (layers_shape Rd B L EL)))|exact Li|exact (corner_lt Rd B i Li)]. rewrite (total_const Rd B). unfold perimeter. ring.
Qed.
Print Assumptions C58_neumann_constant.

(** On a cell with holes the augmented operator also gives the constant times the length of the
    boundary, followed by one number per hole. *)
Theorem C58_conjugate_constant contains H c ess L T xs k : ready contains H c -> boundary_edges H c ess -> build_layers H c = Ok L -> centers c xs -> compute_log_terms H c L = Ok T ->
  conjugate_op H c L T (samples_of (concat ess) (fun _ => k) ++ map (fun _ => 0) xs) =
    Ok (samples_of (concat ess) (fun _ => k * perimeter (concat ess)) ++ map (fun xi => - k * boundary_sum (concat ess) (samples_of (concat ess) (weighted_in sT (log_x xi) (log_y xi)))) xs).
Proof.
  intros Rd B EL Cx ET. assert (K : forall k, samples_of (concat ess) (fun _ => k) = repeat k (Z.to_nat (csize (concat ess)))). { intros z. pose proof (fit_samples Rd B (fun _ => z)) as Ls. unfold samples_of in *. rewrite map_length in Ls. rewrite <- Ls. generalize (contour_smp (concat ess)). induction l as [|s l IH]; [reflexivity|]. cbn [map List.length repeat]. rewrite IH. reflexivity. }
  destruct (terms_facts Rd B L EL T xs ET Cx) as (Fl & _ & Lx). rewrite !K. rewrite (conjugate_ok Rd B L T xs); try assumption; [|apply repeat_length|rewrite map_length; exact Lx]. f_equal.
  assert (D0 : forall r : list R, np_dot r (map (fun _ => 0) xs) = 0). { intros r. unfold np_dot. generalize xs. induction r as [|x r IH]; intros [|y ys]; try reflexivity. cbn [map combine fst snd np_sum fold_right]. unfold np_sum in IH. rewrite IH. ring. }
  f_equal.
  - rewrite (repeat_sq (k * _)). apply map_sq_ext. intros i Li. unfold conj_first. rewrite D0, double_at_const; [|exact (proj1 (proj2 (layers_shape Rd B L EL)))|exact Li|exact (corner_lt Rd B i Li)]. rewrite (total_const Rd B). unfold perimeter. ring.
  - assert (Dx : map (fun xi => - k * boundary_sum (concat ess) (samples_of (concat ess) (weighted_in sT (log_x xi) (log_y xi)))) xs = map (fun j => - k * boundary_sum (concat ess) (tang_of T j)) (seq 0 (List.length xs))).
    { rewrite (as_map (0, 0) xs) at 1. rewrite map_map. apply map_sq_ext. intros j Lj. destruct (F2_at _ _ _ j Fl) as (xi & t & Ex & Et & (_ & _ & E3)); [rewrite <- (Forall2_len _ _ _ Fl); exact Lj|]. rewrite (nth_error_nth _ _ _ Ex). unfold tang_of. rewrite Et, E3. reflexivity. }
    rewrite Dx, Lx. apply map_sq_ext. intros j Lj. unfold conj_second. rewrite D0. destruct (F2_at _ _ _ j Fl) as (xi & t & Ex & Et & (_ & _ & E3)); [rewrite <- (Forall2_len _ _ _ Fl); lia|]. unfold tang_of. rewrite Et, E3. unfold boundary_sum. rewrite <- (fit_samples Rd B (weighted_in sT (log_x xi) (log_y xi))), sum_scaled. ring.
Qed.
Print Assumptions C58_conjugate_constant.

(** All operators are linear. *)
Definition linear_on (n : nat) (f : list R -> res (list R)) : Prop :=
  forall a b u v, List.length u = n -> List.length v = n -> exists y z, f u = Ok y /\ f v = Ok z /\ List.length y = n /\ List.length z = n /\ f (lincomb a b u v) = Ok (lincomb a b y z).
Theorem C58_linear contains H c ess L : ready contains H c -> boundary_edges H c ess -> build_layers H c = Ok L ->
  let n := Z.to_nat (csize (concat ess)) in linear_on n (single_layer c L) /\ linear_on n (double_layer c L) /\ linear_on n (neumann_op H c L).
Proof.
  intros Rd B EL n. repeat split; intros a b u v Lu Lv; assert (Ll : List.length (lincomb a b u v) = n) by (rewrite lincomb_length by congruence; exact Lu).
  - rewrite !(single_ok Rd B L _ EL) by assumption. do 2 eexists. split; [reflexivity|]. split; [reflexivity|]. rewrite !map_length, !seq_length. split; [reflexivity|]. split; [reflexivity|]. rewrite lincomb_sq. f_equal. apply map_sq_ext. intros i _. apply dot_linear. congruence.
  - rewrite !(double_ok Rd B L _ EL) by assumption. do 2 eexists. split; [reflexivity|]. split; [reflexivity|]. rewrite !map_length, !seq_length. split; [reflexivity|]. split; [reflexivity|]. rewrite lincomb_sq. f_equal. apply map_sq_ext. intros i _. apply double_at_linear. congruence.
  - rewrite !(neumann_ok Rd B L _ EL) by assumption. do 2 eexists. split; [reflexivity|]. split; [reflexivity|]. rewrite !map_length, !seq_length. split; [reflexivity|]. split; [reflexivity|]. rewrite lincomb_sq. f_equal. apply map_sq_ext. intros i _. rewrite double_at_linear, total_linear by congruence. ring.
Qed.
Print Assumptions C58_linear.
Theorem C58_conjugate_linear contains H c ess L T xs : ready contains H c -> boundary_edges H c ess -> build_layers H c = Ok L -> centers c xs -> compute_log_terms H c L = Ok T ->
  linear_on (Z.to_nat (csize (concat ess)) + Z.to_nat (c_holes c)) (conjugate_op H c L T).
Proof.
  intros Rd B EL Cx ET a b u v Lu Lv. set (n := Z.to_nat (csize (concat ess))) in *. rewrite <- (firstn_skipn n u), <- (firstn_skipn n v). set (u1 := firstn n u). set (u2 := skipn n u). set (v1 := firstn n v). set (v2 := skipn n v).
  assert (A1 : List.length u1 = n) by (unfold u1; rewrite firstn_length; lia). assert (A2 : List.length v1 = n) by (unfold v1; rewrite firstn_length; lia). assert (A3 : List.length u2 = Z.to_nat (c_holes c)) by (unfold u2; rewrite skipn_length; lia). assert (A4 : List.length v2 = Z.to_nat (c_holes c)) by (unfold v2; rewrite skipn_length; lia).
  replace (lincomb a b (u1 ++ u2) (v1 ++ v2)) with (lincomb a b u1 v1 ++ lincomb a b u2 v2) by (unfold lincomb; symmetry; apply zip_app; congruence). rewrite !(conjugate_ok Rd B L T xs) by (try assumption; rewrite lincomb_length by congruence; assumption). do 2 eexists. split; [reflexivity|]. split; [reflexivity|]. rewrite !app_length, !map_length, !seq_length. split; [reflexivity|]. split; [reflexivity|]. f_equal.
  assert (La : forall p q r s, List.length p = List.length r -> lincomb a b (p ++ q) (r ++ s) = lincomb a b p r ++ lincomb a b q s) by (intros; unfold lincomb; apply zip_app; assumption). rewrite La by (rewrite !map_length; reflexivity). rewrite !lincomb_sq. f_equal.
  - apply map_sq_ext. intros i _. apply (conj_first_linear L T); congruence.
  - apply map_sq_ext. intros i _. apply conj_second_linear; congruence.
Qed.
Print Assumptions C58_conjugate_linear.
