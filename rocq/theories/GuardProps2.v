(** More refusals: the number of a global function (C47), values of traces without functions (C51), sums in place (C53) and the
    recovery of traces from their derivatives (C55) *)
From Coq Require Import List ZArith Reals Lia Lra Bool String.
From Verif Require Import PyBase PolyModel BaryModel QuadModel VertModel CurveModel EdgeModel ContourModel CellModel TraceModel LocalModel AntilapModel MeshModel LocSpaceModel GlobModel.
Import List ListNotations.
Open Scope R_scope.

(** A number is stored exactly if it is not negative; nothing else of the key changes. *)
Theorem C47_glob_idx k i : ((i < 0)%Z -> set_glob_idx k i = Err ValueError) /\
  ((0 <= i)%Z -> exists k', set_glob_idx k i = Ok k' /\ g_glob k' = Some i /\ g_bdry k' = g_bdry k /\ g_type k' = g_type k /\ g_vert k' = g_vert k /\ g_edge k' = g_edge k /\ g_espace k' = g_espace k /\ g_bubb k' = g_bubb k).
Proof.
  unfold set_glob_idx. split; intros H; [rewrite (proj2 (Z.ltb_lt _ _) H); reflexivity|]. rewrite (proj2 (Z.ltb_ge _ _) H). eexists. split; [reflexivity|]. repeat split.
Qed.
Print Assumptions C47_glob_idx.
Example C47_glob_idx_example : exists k, mk_key "vert" (PInt 0) (PInt 3) (PInt 0) (PInt 0) = Ok k /\ set_glob_idx k (-1) = Err ValueError /\ exists k', set_glob_idx k 7 = Ok k' /\ g_vert k' = 3%Z /\ g_glob k' = Some 7%Z.
Proof. eexists. split; [reflexivity|]. split; [reflexivity|]. eexists. split; [reflexivity|]. split; reflexivity. Qed.

(** Values are computed from functions, on edges that have been sampled. *)
Theorem C51_values_refused t : (tr_funcs t = None \/ edges_param (tr_edges t) = false) -> find_values t = Err ValueError.
Proof. unfold find_values. intros [E|E]; [rewrite E; reflexivity|]. destruct (tr_funcs t); [rewrite E|]; reflexivity. Qed.
Print Assumptions C51_values_refused.
Example C51_values_refused_example : find_values (Trace [] None None None None None None) = Err ValueError.
Proof. apply C51_values_refused. left. reflexivity. Qed.

(** [u += v] on arrays: the second has the length of the first, or is a single number that is added to every entry. *)
Theorem C53_sum_in_place u v : (exists r, np_iadd u v = Ok r) <-> (List.length v = List.length u \/ List.length v = 1%nat).
Proof.
  unfold np_iadd. destruct (Nat.eqb_spec (List.length u) (List.length v)) as [E|E].
  - split; [intros _; left; symmetry; exact E|]. intros _. eexists. reflexivity.
  - split.
    + intros (r & H). destruct v as [|c [|d v]]; try discriminate. right. reflexivity.
    + intros [L|L]; [congruence|]. destruct v as [|c [|d v]]; try discriminate. eexists. reflexivity.
Qed.
Print Assumptions C53_sum_in_place.
Theorem C53_sum_entries u v r i x y : np_iadd u v = Ok r -> nth_error u i = Some x -> (List.length v = List.length u -> nth_error v i = Some y) -> (List.length v <> List.length u -> v = [y]) -> nth_error r i = Some (x + y) /\ List.length r = List.length u.
Proof.
  unfold np_iadd. destruct (Nat.eqb_spec (List.length u) (List.length v)) as [E|E]; intros H Hx H1 H2.
  - apply Ok_inj in H. subst r. specialize (H1 (eq_sym E)). clear H2. split; [|rewrite map_length, combine_length; lia]. revert v i E Hx H1. induction u as [|a u IH]; intros [|b v] [|i] E Hx H1; try discriminate; cbn in *; [congruence|]. apply (IH v i); [lia|exact Hx|exact H1].
  - rewrite (H2 ltac:(congruence)) in H. apply Ok_inj in H. subst r. split; [|apply map_length]. rewrite nth_error_map, Hx. reflexivity.
Qed.
Print Assumptions C53_sum_entries.
Example C53_sum_example : np_iadd [1; 2; 3] [10] = Ok [1 + 10; 2 + 10; 3 + 10] /\ np_iadd [1; 2] [3; 4] = Ok [1 + 3; 2 + 4] /\ np_iadd [1] [3; 4] = Err BroadcastError.
Proof. repeat split. Qed.

(** Both weighted derivatives of both traces are needed. *)
Theorem C55_derivatives_needed N H c rho rho_hat : tr_wnd rho = None \/ tr_wtd rho = None \/ tr_wnd rho_hat = None \/ tr_wtd rho_hat = None -> fft_solve N H c rho rho_hat = Err ValueError.
Proof. unfold fft_solve. intros E. destruct (tr_wnd rho), (tr_wtd rho), (tr_wnd rho_hat), (tr_wtd rho_hat); try reflexivity. destruct E as [E|[E|[E|E]]]; discriminate. Qed.
Print Assumptions C55_derivatives_needed.
Example C55_derivatives_example N H c : let t := Trace [] None None None None (Some []) None in fft_solve N H c t t = Err ValueError.
Proof. apply C55_derivatives_needed. left. reflexivity. Qed.
