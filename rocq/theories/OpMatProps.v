(** C58: the matrix of an operator does what the operator does. *)
From Coq Require Import List ZArith Reals Lia Lra Bool Arith.
From Verif Require Import PyBase PolyModel PolySpec BaryModel QuadModel VertModel EdgeModel EdgeSpec EdgeProps4 ContourModel CellModel CellSpec CellProofs CellProps ContourProofs ContourProofs2 ContourProofs3 InteriorProofs ContourProofs4 ContourProps CellProps3 TraceModel TraceSpec TraceProofs LocalProofs3 LocalModel LocalSpec LocalProofs LocalProofs2 LocalProofs5 FftModel FftSpec FftProofs FftProofs2 FftProofs3 FftProps AntilapModel AntilapSpec AntilapProofs AntilapProofs2 AntilapProofs3 AntilapProofs4 AntilapProps2 NystromModel NystromSpec NystromProofs NystromProofs2 NystromProofs3 NystromProofs4 NystromProofs5 NystromProofs6 NystromProofs7 NystromProofs8 NystromProps GlobProps OpMatModel.
Import ListNotations.
Open Scope R_scope.

Definition column_sum (cols : list (list R)) (u : list R) (k i : nat) : R := np_sum (map (fun j => nth i (nth j cols []) 0 * nth j u 0) (seq 0 k)).
Lemma as_map (u : list R) : u = map (fun i => nth i u 0) (seq 0 (List.length u)).
Proof. induction u as [|a u IH]; [reflexivity|]. cbn [List.length seq map nth]. rewrite <- seq_shift, map_map. cbn [nth]. rewrite <- IH. reflexivity. Qed.
Lemma map_seq_inj {A} (f g : nat -> A) n : map f (seq 0 n) = map g (seq 0 n) -> forall i, (i < n)%nat -> f i = g i.
Proof. intros E i Hi. apply (f_equal (fun l => nth_error l i)) in E. rewrite !nth_error_map, (nth_error_nth' _ 0%nat) in E by (rewrite seq_length; exact Hi). rewrite seq_nth in E by exact Hi. cbn in E. congruence. Qed.
Lemma np_sum_snoc f k : np_sum (map f (seq 0 (S k))) = np_sum (map f (seq 0 k)) + f k.
Proof. rewrite seq_S, map_app. cbn [map]. assert (A : forall l a, np_sum (l ++ [a]) = np_sum l + a) by (intros l a; unfold np_sum; induction l as [|b l IH]; cbn; [ring|]; rewrite IH; ring). apply A. Qed.

Theorem C58_operator_matrix n A : linear_on n A -> exists M, get_operator_matrix n A = Ok M /\ List.length M = n /\
  forall u, List.length u = n -> exists y, A u = Ok y /\ mat_vec M u = Ok y.
Proof.
  intros Lin. assert (Le : forall i, List.length (eye_column n i) = n) by (intros i; unfold eye_column; rewrite map_length; apply seq_length).
  assert (Tot : forall u, List.length u = n -> exists y, A u = Ok y /\ List.length y = n) by (intros u Hu; destruct (Lin 0 0 u u Hu Hu) as (y & _ & E & _ & Ly & _); exists y; auto).
  assert (Cs : exists cols, map_res (fun i => A (eye_column n i)) (seq 0 n) = Ok cols /\ forall i, (i < n)%nat -> A (eye_column n i) = Ok (nth i cols [])).
  { destruct (map_res (fun i => A (eye_column n i)) (seq 0 n)) as [cols|x] eqn:E.
    - exists cols. split; [reflexivity|]. intros i Hi. destruct (map_res_nth _ _ _ E i i) as (y & Ey & N); [rewrite (nth_error_nth' _ 0%nat) by (rewrite seq_length; exact Hi); rewrite seq_nth by exact Hi; reflexivity|]. rewrite Ey. f_equal. symmetry. apply nth_error_nth, N.
    - exfalso. rewrite (map_res_map _ (fun i => match A (eye_column n i) with Ok y => y | Err _ => [] end)) in E; [discriminate|]. intros i _. destruct (Tot _ (Le i)) as (y & -> & _). reflexivity. }
  destruct Cs as (cols & Ec & Hc). unfold get_operator_matrix. rewrite Ec. cbn [bind]. eexists. split; [reflexivity|]. split; [unfold from_columns; rewrite map_length; apply seq_length|].
  assert (Lc : List.length cols = n) by (rewrite (map_res_length _ _ _ Ec); apply seq_length). intros u Lu.
  set (trunc := fun k => map (fun i => if Nat.ltb i k then nth i u 0 else 0) (seq 0 n)). assert (Lt : forall k, List.length (trunc k) = n) by (intros k; unfold trunc; rewrite map_length; apply seq_length).
  assert (G : forall k, (k <= n)%nat -> A (trunc k) = Ok (map (column_sum cols u k) (seq 0 n))).
  { induction k as [|k IH]; intros Hk.
    - destruct (Lin 0 0 (trunc 0%nat) (trunc 0%nat) (Lt _) (Lt _)) as (y & z & E1 & E2 & Ly & Lz & E). assert (Z : lincomb 0 0 (trunc 0%nat) (trunc 0%nat) = trunc 0%nat) by (unfold trunc; rewrite lincomb_sq; apply map_ext; intros i; cbn; ring). rewrite Z in E. rewrite E. f_equal. rewrite (as_map y), (as_map z), Ly, Lz, lincomb_sq. apply map_ext. intros i. cbn. ring.
    - specialize (IH ltac:(lia)). destruct (Lin 1 (nth k u 0) (trunc k) (eye_column n k) (Lt _) (Le _)) as (y & z & E1 & E2 & Ly & Lz & E). rewrite IH in E1. rewrite (Hc k) in E2 by lia. injection E1 as <-. injection E2 as E2.
      assert (Z : lincomb 1 (nth k u 0) (trunc k) (eye_column n k) = trunc (S k)). { unfold trunc, eye_column. rewrite lincomb_sq. apply map_ext_in. intros i _. destruct (Nat.ltb_spec i k), (Nat.ltb_spec i (S k)), (Nat.eqb_spec k i); try lia; subst; ring. }
      rewrite Z in E. rewrite E. f_equal. rewrite (as_map z), Lz, lincomb_sq. apply map_ext. intros i. unfold column_sum. rewrite np_sum_snoc, E2. ring. }
  specialize (G n (le_n n)). assert (U : trunc n = u). { unfold trunc. etransitivity; [|symmetry; apply as_map]. rewrite Lu. apply map_ext_in. intros i Hi. apply in_seq in Hi. destruct (Nat.ltb_spec i n); [reflexivity|lia]. } rewrite U in G. eexists. split; [exact G|].
  unfold mat_vec. rewrite (map_res_map _ (fun r => np_dot r u)).
  - unfold from_columns. rewrite map_map. f_equal. apply map_ext. intros i. unfold np_dot, column_sum. f_equal. replace (map (fun col : list R => nth i col 0) cols) with (map (fun j => nth i (nth j cols []) 0) (seq 0 n)).
    + rewrite (as_map u) at 1. rewrite Lu. generalize (seq 0 n). intros l. induction l as [|j l IH]; [reflexivity|]. cbn [map combine]. cbn [fst snd]. rewrite IH. reflexivity.
    + rewrite <- Lc. clear. induction cols as [|a cols IH]; [reflexivity|]. cbn [List.length seq map nth]. rewrite <- seq_shift, map_map. cbn [nth]. rewrite IH. reflexivity.
  - intros r I. unfold from_columns in I. apply in_map_iff in I. destruct I as (i & <- & _). rewrite map_length, Lc, Lu, Nat.eqb_refl. reflexivity.
Qed.
Print Assumptions C58_operator_matrix.

(** In particular for the operators of a cell, whose matrices can be inspected in this way. *)
Theorem C58_neumann_matrix contains H c ess L : ready contains H c -> boundary_edges H c ess -> build_layers H c = Ok L ->
  let n := Z.to_nat (csize (concat ess)) in exists M, get_operator_matrix n (neumann_op H c L) = Ok M /\ forall u, fitting (concat ess) u -> exists y, neumann_op H c L u = Ok y /\ mat_vec M u = Ok y.
Proof.
  intros Rd B EL n. destruct (C58_linear contains H c ess L Rd B EL) as (_ & _ & Ln). destruct (C58_operator_matrix n _ Ln) as (M & E & _ & HM). exists M. split; [exact E|]. intros u F. apply HM. unfold n. unfold fitting in F. lia.
Qed.
Print Assumptions C58_neumann_matrix.
Example C58_operator_matrix_example : exists M, get_operator_matrix 2 (fun u => Ok (rev u)) = Ok M /\ mat_vec M [3; 4] = Ok [4; 3].
Proof.
  assert (Ln : linear_on 2 (fun u => Ok (rev u))) by (intros a b u v Hu Hv; destruct u as [|u1 [|u2 [|u3 u]]]; try discriminate; destruct v as [|v1 [|v2 [|v3 v]]]; try discriminate; do 2 eexists; repeat split; reflexivity).
  destruct (C58_operator_matrix 2 _ Ln) as (M & E & _ & HM). exists M. split; [exact E|]. destruct (HM [3; 4] eq_refl) as (y & Ey & Em). injection Ey as <-. exact Em.
Qed.
