(** More refusals: sums of monomials (C04), missing normal derivatives (C55) and edge spaces of other cells (C59) *)
From Coq Require Import List ZArith Reals Lia Lra Bool String.
From Verif Require Import PyBase PolyModel BaryModel QuadModel VertModel CurveModel EdgeModel ContourModel CellModel TraceModel LocalModel AntilapModel MeshModel EdgeSpaceModel LocSpaceModel Annulus.
From Verif Require PolyProofs.
Import List ListNotations.
Open Scope R_scope.

(** The sum of two monomials exists exactly if they have the same exponents; its value is then the sum of the values. *)
Theorem C04_monomial_sum (m n : mono RS) : let same := mx (malpha m) = mx (malpha n) /\ my (malpha m) = my (malpha n) in
  (same -> exists s, m_add RS m n = Ok s /\ malpha s = malpha m /\ forall x y, m_eval RS s x y = m_eval RS m x y + m_eval RS n x y) /\ (~ same -> m_add RS m n = Err ValueError).
Proof.
  cbv zeta. unfold m_add, mi_eqb. destruct m as [[a b] c]. destruct n as [[a' b'] c']. cbn [malpha mx my]. split.
  - intros [-> ->]. rewrite !Nat.eqb_refl. eexists. split; [reflexivity|]. split; [reflexivity|]. intros x y. unfold m_eval. cbn [malpha mcoef mx my RS smul sone sadd car]. destruct (Nat.ltb 0 a'); destruct (Nat.ltb 0 b'); ring.
  - intros D. destruct (Nat.eqb_spec (midx (MI a b)) (midx (MI a' b'))) as [E|]; [|reflexivity]. exfalso. apply PolyProofs.midx_inj in E. injection E as -> ->. apply D. split; reflexivity.
Qed.
Print Assumptions C04_monomial_sum.
Example C04_monomial_sum_example : (exists s, m_add RS (@Mono RS (MI 2 1) 3) (@Mono RS (MI 2 1) 4) = Ok s /\ m_eval RS s 1 1 = 7) /\ m_add RS (@Mono RS (MI 2 1) 3) (@Mono RS (MI 1 2) 4) = Err ValueError.
Proof. split; [|reflexivity]. destruct (proj1 (C04_monomial_sum (@Mono RS (MI 2 1) 3) (@Mono RS (MI 2 1) 4)) (conj eq_refl eq_refl)) as (s & E & _ & V). exists s. split; [exact E|]. rewrite V. unfold m_eval. cbn. ring. Qed.

(** The direct solution needs both normal derivatives. *)
Theorem C55_direct_needed N rho rho_hat : tr_wnd rho = None \/ tr_wnd rho_hat = None -> direct_solve N rho rho_hat = Err ValueError.
Proof. unfold direct_solve. intros [E|E]; rewrite E; [reflexivity|]. destruct (tr_wnd rho); reflexivity. Qed.
Print Assumptions C55_direct_needed.
Example C55_direct_example N : let t w := Trace [] None None None None w None in direct_solve N (t (Some [1; -1])) (t None) = Err ValueError /\ direct_solve N (t None) (t (Some [1; -1])) = Err ValueError.
Proof. cbv zeta. split; apply C55_direct_needed; auto. Qed.

(** An edge space of an edge that the cell does not have is refused, and with it every list of spaces that contains it. *)
Lemma find_idx_missing i : forall l k, ~ In i l -> find_idx i l k = Err ValueError.
Proof.
  induction l as [|o l IH]; intros k N; cbn [find_idx]; [reflexivity|]. assert (D : i <> o) by (intros ->; apply N; left; reflexivity). destruct i as [a|], o as [b|]; try (destruct (Z.eqb_spec a b) as [->|]); try contradiction; try (apply IH; intros X; apply N; right; exact X).
Qed.
Theorem C59_foreign_space N H c i g es spaces b : kedges H c = Ok es -> In b spaces -> ~ In (sp_idx b) (map e_idx es) -> space_funs N H c i g b = Err ValueError /\ forall l, edge_funs N H c spaces i g <> Ok l.
Proof.
  intros K I X. assert (E : space_funs N H c i g b = Err ValueError) by (unfold space_funs; rewrite K; cbn [bind]; rewrite find_idx_missing by exact X; reflexivity). split; [exact E|].
  intros l L. unfold edge_funs in L. destruct (map_res (space_funs N H c i g) spaces) as [r|] eqn:M; [|discriminate]. clear L l. revert r M. induction spaces as [|b' spaces IH]; [destruct I|]. intros r M. cbn [map_res] in M. destruct (space_funs N H c i g b') as [u|] eqn:Eb; [|discriminate]. cbn [bind] in M. destruct I as [->|I]; [congruence|]. destruct (map_res _ spaces) as [r'|]; [|discriminate]. exact (IH I r' eq_refl).
Qed.
Print Assumptions C59_foreign_space.
(** The annulus of Annulus.v: its edges have no number, and a space of edge 3 is refused. *)
Example C59_foreign_example N i g : let c := made 1 [unset 1 1 1; unset 1 0 (-1)] [1; -1]%Z (5, 5)%Z 1 in exists es, kedges rings c = Ok es /\ List.length es = 2%nat /\ space_funs N rings c i g (ESpace (Some 3%Z) [] [] [] []) = Err ValueError.
Proof.
  cbv zeta. set (c := made _ _ _ _ _). assert (K : kedges rings c = Ok [ring 0 4 1 (-1); ring 1 1 2 1]) by reflexivity. exists [ring 0 4 1 (-1); ring 1 1 2 1]. split; [exact K|]. split; [reflexivity|].
  refine (proj1 (C59_foreign_space N rings c i g _ [_] _ K (or_introl eq_refl) _)). cbn. intros [X|[X|[]]]; discriminate.
Qed.
