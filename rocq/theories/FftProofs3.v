(** Parameterized cells have an odd number of samples per edge. *)
From Coq Require Import List ZArith Reals Lia Lra Bool Permutation String.
From Verif Require Import PyBase PolyModel BaryModel BBoxModel QuadModel QuadSpec QuadProofs QuadProps CurveModel VertModel EdgeModel EdgeSpec EdgeProofs EdgeProofs2 EdgeProps EdgeProps3 ContourModel CellModel CellSpec CellProofs CellProps ContourProofs ContourProofs2 ContourProofs3 InteriorProofs ContourProofs4 VertProps EdgeProps4 ContourProps CellProofs2 Annulus CellProps2 CellProps3.
Import List ListNotations.
Open Scope R_scope.

Lemma dict_odd n p qd : get_quad_dict n p = Ok qd -> exists N, forall e o e', resampled qd o e e' -> e_npts e' = (2 * N + 1)%Z.
Proof.
  intros Q. destruct qd as [a b]. assert (AB : q_n a = q_n b).
  { pose proof Q as Q'. unfold get_quad_dict in Q'. destruct (mk_quad "trap" n 7) as [qa|] eqn:Ea; [|discriminate]. destruct (mk_quad "kress" n p) as [qb|] eqn:Eb; [|discriminate]. cbn [bind] in Q'. apply Ok_inj in Q'. injection Q' as -> ->. destruct n as [n|]; [|discriminate]. rewrite quad_trap in Ea. rewrite quad_kress in Eb. destruct (Z.ltb_spec n 4); [discriminate|]. destruct (Z.ltb_spec p 2); [discriminate|]. cbv zeta in Ea, Eb. apply Ok_inj in Ea, Eb. subst qa qb. reflexivity. }
  exists (Z.of_nat (q_n a))%Z. intros e o e' (e1 & P & ->). destruct (parameterize_frame _ _ _ _ _ Q P) as (q & Hq & E). assert (X : e_npts e1 = (2 * Z.of_nat (q_n a) + 1)%Z).
  { rewrite E. assert (Y : q_n q = q_n a) by (unfold EdgeProofs2.pick in Hq; destruct (String.eqb _ _); [apply Ok_inj in Hq; subst; reflexivity|]; destruct (String.eqb _ _); [|discriminate]; apply Ok_inj in Hq; subst; symmetry; exact AB). rewrite <- Y. clear. unfold after_diary. destruct (last_join _) as [[u v]|]; reflexivity. }
  destruct (Z.eqb o (-1)); [|exact X]. unfold reverse_orientation. destruct (e_param e1); exact X.
Qed.
Lemma ready_odd contains H c ess : ready contains H c -> boundary_edges H c ess -> exists N, Forall (Forall (fun e => e_npts e = (2 * N + 1)%Z)) ess.
Proof.
  intros (H0 & z & ids & mesh & rtol & atol & c0 & n & p & qd & w & H1 & B & Q & P) BE. destruct (param_cell_ok contains (fun _ _ => True) (fun _ _ _ _ _ _ => I) qd n p w H1 c0 H c Q (built_wf _ _ _ _ _ _ _ B) P) as (ess0 & ess' & X). assert (ess = ess') by (eapply edges_unique; [apply X|exact BE]). subst ess'.
  destruct (dict_odd _ _ _ Q) as (N & HN). exists N. pose proof (p_new _ _ _ _ _ _ _ _ _ X) as Y. clear -Y HN. revert Y. generalize (combine (c_comps c) ess0) as l. induction 1 as [|ke es l ess Y F IH]; constructor; [|exact IH]. clear -Y HN. revert Y. generalize (combine (k_orients (fst ke)) (snd ke)) as l. induction 1 as [|oe e l es R F IH]; constructor; [eapply HN, R|exact IH].
Qed.
