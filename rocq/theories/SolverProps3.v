(** C50: the error of the cutoff in linear combinations of basis functions. *)
From Coq Require Import List ZArith Reals Bool String Lia Lra.
From Verif Require Import PyBase PolyModel PolyProofs VertModel EdgeModel ContourModel CellModel CellProofs MeshModel MeshSpec MeshProofs MeshProps GlobModel GlobSpec GlobProofs GlobProps SolverModel SolverSpec SolverProofs SolverProps SolverProps2.
Import List ListNotations.
Open Scope R_scope.

(** Sums of products, of all pairs and of those with a coefficient that is not below 1e-4 *)
Fixpoint dot (a : list R) (x : list R) : R := match a, x with u :: a, c :: x => c * u + dot a x | _, _ => 0 end.
Fixpoint kept_dot (a : list R) (x : list R) : R := match a, x with u :: a, c :: x => (if Rle_dec (1 / 10000) (Rabs c) then c * u else 0) + kept_dot a x | _, _ => 0 end.
Fixpoint size1 (a : list R) : R := match a with u :: a => Rabs u + size1 a | [] => 0 end.

Lemma kept_error a : forall x, Rabs (kept_dot a x - dot a x) <= size1 a / 10000.
Proof.
  induction a as [|u a IH]; intros [|c x]; cbn [kept_dot dot size1]; try (replace (0 - 0) with 0 by ring; rewrite Rabs_R0; lra).
  - replace (0 - 0) with 0 by ring. rewrite Rabs_R0. assert (Z : 0 <= size1 a) by (clear; induction a; cbn; [lra|]; pose proof (Rabs_pos a); lra). pose proof (Rabs_pos u). lra.
  - specialize (IH x). destruct (Rle_dec _ _) as [L|L].
    + replace (c * u + kept_dot a x - (c * u + dot a x)) with (kept_dot a x - dot a x) by ring. pose proof (Rabs_pos u). lra.
    + replace (0 + kept_dot a x - (c * u + dot a x)) with (- (c * u) + (kept_dot a x - dot a x)) by ring. eapply Rle_trans; [apply Rabs_triang|]. rewrite Rabs_Ropp, Rabs_mult. pose proof (Rabs_pos u). assert (Rabs c * Rabs u <= 1 / 10000 * Rabs u) by (apply Rmult_le_compat_r; lra). lra.
Qed.
Lemma kept_all a : forall x, (forall c, In c x -> 1 / 10000 <= Rabs c) -> kept_dot a x = dot a x.
Proof. induction a as [|u a IH]; intros [|c x] A; cbn [kept_dot dot]; try reflexivity. destruct (Rle_dec _ _) as [_|N]; [|exfalso; apply N, A; left; reflexivity]. rewrite IH; [reflexivity|]. intros; apply A; right; assumption. Qed.
Lemma combine_value {Fn} (fadd : Fn -> Fn -> Fn) fscale (value : Fn -> R) : (forall f g, value (fadd f g) = value f + value g) -> (forall f c, value (fscale f c) = value f * c) ->
  forall fs lc w, value (combine_all fadd fscale w (filter (fun fc => negb (Rltb (Rabs (snd fc)) CUT)) (combine fs lc))) = value w + kept_dot (map value fs) lc.
Proof.
  intros A M. induction fs as [|f fs IH]; intros [|c lc] w; cbn [combine filter map kept_dot snd]; try (cbn; ring). unfold Rltb at 1. unfold CUT at 1. destruct (Rlt_dec (Rabs c) (1 / 10000)) as [L|L]; destruct (Rle_dec (1 / 10000) (Rabs c)); try lra; cbn [negb].
  - rewrite IH. ring.
  - unfold combine_all. cbn [fold_left fst snd]. fold (combine_all fadd fscale). change (fold_left _ ?l ?w) with (combine_all fadd fscale w l). rewrite IH, A, M. ring.
Qed.
(** Let [value] be linear in the function, for instance the value at a point, an integral or a Fourier coefficient. For the
    combination it is the sum over the coefficients that are at least 1e-4 in size. It differs from the full sum by at most 1e-4
    times the sum of the sizes of the values of the basis, and not at all if no coefficient is smaller. *)
Theorem C50_combo_error {Fn} fzero fadd fscale (value : Fn -> R) H0 H is m deg sizes p (basis : nat -> res (list (gkey * Fn))) h1 l2 load D Rc v :
  (forall c, value (fzero c) = 0) -> (forall f g, value (fadd f g) = value f + value g) -> (forall f c, value (fscale f c) = value f * c) ->
  mk_mesh H0 is = Ok (H, m) -> mk_space m deg sizes = Ok p -> Forall (Z.le 0) sizes -> mk_solver H basis h1 l2 load D Rc p true = Ok v ->
  forall coef c z kf, List.length coef = Z.to_nat (v_num v) -> nth_error (m_cells m) c = Some z -> basis c = Ok kf ->
  let lc := map (fun i => nth (Z.to_nat i) coef 0) (indices basis p c) in let vals := map (fun k => value (snd k)) kf in
  exists w, linear_combo fzero fadd fscale v z coef = Ok w /\ value w = kept_dot vals lc /\ Rabs (value w - dot vals lc) <= size1 vals / 10000 /\
    ((forall x, In x lc -> 1 / 10000 <= Rabs x) -> value w = dot vals lc).
Proof.
  intros VZ VA VM M S F B coef c z kf Lc Ez Eb lc vals. destruct (C50_combo fzero fadd fscale H0 H is m deg sizes p basis h1 l2 load D Rc true v M S F B coef c z kf Lc Ez Eb) as (E & _ & _). eexists. split; [exact (E eq_refl)|].
  rewrite (combine_value fadd fscale value VA VM), VZ, Rplus_0_l, map_map. fold lc vals. split; [reflexivity|]. split; [apply kept_error|]. intros A. apply kept_all. exact A.
Qed.
Print Assumptions C50_combo_error.
(** The bound is attained up to a factor near one: a coefficient just below 1e-4 is lost whole. *)
Theorem C50_combo_sharp d : 0 < d -> d < 1 / 10000 -> exists a x, size1 a = 1 /\ Rabs (kept_dot a x - dot a x) = 1 / 10000 - d.
Proof.
  intros A B. exists [1], [1 / 10000 - d]. cbn [size1 kept_dot dot]. rewrite Rabs_R1. split; [ring|]. destruct (Rle_dec _ _) as [L|L]; [rewrite Rabs_pos_eq in L by lra; lra|]. replace (0 + 0 - ((1 / 10000 - d) * 1 + 0)) with (- (1 / 10000 - d)) by ring. rewrite Rabs_Ropp, Rabs_pos_eq by lra. reflexivity.
Qed.
Print Assumptions C50_combo_sharp.
Example C50_combo_example h1 l2 load D Rc : exists H m p v w, mk_mesh two_triangles [0; 1; 2; 4; 3]%nat = Ok (H, m) /\ mk_space m (PInt 2) [0; 1; 0; 0; 0]%Z = Ok p /\ mk_solver H ex_basis h1 l2 load D Rc p true = Ok v /\
  linear_combo (fun _ => 0) Rplus Rmult v 0 [3 / 20000; 0; 0; 0; 0; 0; 3] = Ok w /\ w = 3 + 3 / 20000.
Proof.
  eexists _, _, _, _, _. split; [vm_compute; reflexivity|]. split; [vm_compute; reflexivity|]. split; [vm_compute; reflexivity|].
  assert (Z0 : Rltb (Rabs 0) CUT = true) by (apply Rltb_true; rewrite Rabs_R0; unfold CUT; lra).
  assert (Z1 : Rltb (Rabs (3 / 20000)) CUT = false) by (apply Rltb_false; rewrite Rabs_pos_eq by lra; unfold CUT; lra).
  assert (Z3 : Rltb (Rabs 3) CUT = false) by (apply Rltb_false; rewrite Rabs_pos_eq by lra; unfold CUT; lra).
  split.
  - cbv [linear_combo v_local get_coef v_space p_mesh get_abs_cell_idx m_cells index_of bind pyget p_dofs geti nth_error map_res glob g_glob List.length Z.of_nat Z.ltb Z.compare Z.eqb Z.to_nat Pos.to_nat Pos.iter_op Init.Nat.add Pos.of_succ_nat Pos.succ combine seq fold_res fst snd]. rewrite Z0, Z1, Z3. reflexivity.
  - change R1 with 1. lra.
Qed.
