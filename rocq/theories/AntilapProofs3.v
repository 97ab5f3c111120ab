(** The whole anti-Laplacian on cells. *)
From Coq Require Import List ZArith Reals Lia Lra Bool.
From Coquelicot Require Import Coquelicot.
From Verif Require Import PyBase PolyModel PolySpec BaryModel VertModel EdgeModel EdgeSpec EdgeProps4 ContourModel CellModel CellSpec CellProofs CellProps ContourProofs ContourProofs3 ContourProps CellProps3 TraceModel TraceSpec TraceProofs LocalProofs3 LocalModel LocalSpec LocalProofs LocalProofs2 LocalProofs5 FftModel FftSpec FftProofs FftProofs2 FftProofs3 FftProps AntilapModel AntilapSpec AntilapProofs AntilapProofs2.
Import List ListNotations.
Open Scope R_scope.

Lemma rat_poles hs x y : rat hs (x, y) = poles hs x y.
Proof. induction hs as [|[xi [b c]] hs IH]; [unfold rat, np_sum, poles; cbn; ring|]. rewrite rat_cons, IH. unfold poles. cbn [map fst snd]. rewrite sum_cons. unfold mu, mu_hat, norm_sq, psub_pt, Rdiv, Rsqr. cbn [fst snd]. replace ((x - fst xi) ^ 2 + (y - snd xi) ^ 2) with ((x - fst xi) * (x - fst xi) + (y - snd xi) * (y - snd xi)) by ring. ring. Qed.
Lemma rat_hat_poles hs x y : rat_hat hs (x, y) = poles_hat hs x y.
Proof. induction hs as [|[xi [b c]] hs IH]; [unfold rat_hat, np_sum, poles_hat; cbn; ring|]. rewrite rat_hat_cons, IH. unfold poles_hat. cbn [map fst snd]. rewrite sum_cons. unfold mu, mu_hat, norm_sq, psub_pt, Rdiv, Rsqr. cbn [fst snd]. replace ((x - fst xi) ^ 2 + (y - snd xi) ^ 2) with ((x - fst xi) * (x - fst xi) + (y - snd xi) * (y - snd xi)) by ring. ring. Qed.
Lemma log_y_sqrt xi x y : (x, y) <> xi -> log_y xi (x, y) = ln (sqrt ((x - fst xi)² + (y - snd xi)²)).
Proof.
  intros Ne. assert (P : 0 < (x - fst xi)² + (y - snd xi)²).
  { destruct xi as [a b]. cbn [fst snd]. pose proof (Rle_0_sqr (x - a)). pose proof (Rle_0_sqr (y - b)). destruct (Req_dec (x - a) 0) as [A|A]; [destruct (Req_dec (y - b) 0) as [B|B]; [exfalso; apply Ne; apply f_equal2; lra|pose proof (Rsqr_pos_lt _ B); lra]|pose proof (Rsqr_pos_lt _ A); lra]. }
  unfold log_y, norm_sq, psub_pt. cbn [fst snd]. replace ((x - fst xi) ^ 2 + (y - snd xi) ^ 2) with ((x - fst xi)² + (y - snd xi)²) by (unfold Rsqr; ring). set (q := (x - fst xi)² + (y - snd xi)²) in *. assert (0 < sqrt q) by (apply sqrt_lt_R0, P). rewrite <- (sqrt_sqrt q) at 1 by lra. rewrite ln_mult by assumption. lra.
Qed.
Lemma h_lap_spec xs bcs lc x y : List.length xs = List.length bcs -> List.length xs = List.length lc -> Forall (fun xi => (x, y) <> xi) xs -> h_lap (x, y) (combine (combine xs bcs) lc) = poles (combine xs bcs) x y + logs xs lc x y.
Proof.
  intros L1 L2 A. rewrite h_lap_rat by (rewrite combine_length; lia). rewrite rat_poles. f_equal. unfold logs. clear - L1 L2 A. revert bcs lc L1 L2. induction A as [|xi xs N A IH]; intros [|bc bcs] [|a lc] L1 L2; try discriminate; [reflexivity|]. cbn [combine map fst snd]. rewrite !sum_cons, (IH bcs lc) by (cbn in *; lia). rewrite log_y_sqrt by exact N. reflexivity.
Qed.
Lemma centres_ok c xs : c_holes c = (Z.of_nat (List.length (c_comps c)) - 1)%Z -> centers c xs -> centres c = Ok xs.
Proof.
  unfold centres, holes, centers. intros -> C. destruct (c_comps c) as [|k0 ks]; cbn [List.length tl] in *; [inversion C; reflexivity|]. replace (Z.to_nat _) with (List.length ks) by lia.
  assert (G : forall n a xs, (n + a = List.length ks)%nat -> Forall2 (fun k p => exists v, k_int k = Some v /\ coord v = p) (skipn a ks) xs -> map_res (fun j => do k <- geti (k0 :: ks) (S j); do xi <- attr (k_int k); Ok (coord xi)) (seq a n) = Ok xs); [|exact (G (List.length ks) 0%nat xs ltac:(lia) C)].
  clear. induction n as [|n IH]; intros a xs L F; [rewrite skipn_all2 in F by lia; inversion F; reflexivity|].
  destruct (nth_error ks a) as [k|] eqn:Ek; [|apply nth_error_None in Ek; lia]. rewrite (skipn_nth ks a k Ek) in F. inversion F as [|? p ? xs' (v & Ev & <-) F']; subst. cbn [seq map_res]. rewrite (geti_nth (k0 :: ks) (S a) k) by exact Ek. cbn [bind]. rewrite Ev. cbn [attr bind]. rewrite (IH (S a) xs' ltac:(lia) F'). reflexivity.
Qed.
Lemma centers_length c xs : centers c xs -> List.length xs = (List.length (c_comps c) - 1)%nat.
Proof. intros C. unfold centers in C. rewrite <- (Forall2_len _ _ _ C). destruct (c_comps c); cbn [tl List.length]; lia. Qed.

Section Cell.
Context {H : heap} {c : cell} {ess : list (list edge)} {N : Z}.
Hypothesis F : cell_fresh H c ess.
Hypothesis NE : Forall (fun es => es <> []) ess.
Hypothesis U : Forall (Forall (fun e => e_npts e = N)) ess.
Local Notation es := (concat ess).
Local Notation S_ := (samples_of (concat ess)).

Lemma residues_ok u v : residues H c (S_ (fun s => at_smp u s * fst (sT s) + - at_smp v s * snd (sT s))) (S_ (fun s => at_smp v s * fst (sT s) + at_smp u s * snd (sT s))) = Ok (map (residue u v) (tl ess)).
Proof using F NE U.
  unfold residues, holes. destruct F as (FF & EH & _ & ES). rewrite EH, ES. pose proof (Forall2_len _ _ _ FF) as LF. destruct ess as [|l0 ls] eqn:Eess; [destruct (c_comps c); [reflexivity|discriminate]|]. cbn [List.length] in LF. cbn [tl]. replace (Z.to_nat _) with (List.length ls) by lia. rewrite <- Eess in *.
  pose proof (fresh_all _ _ _ FF) as W.
  assert (G : forall n a, (n + a = List.length ls)%nat -> map_res (fun j => do s <- attr (Some (offsets (map csize ess))); do a <- geti s (S j); do b <- geti s (S (S j)); do k <- geti (c_comps c) (S j); do bj <- contour_integrate (slice (S_ (fun s => at_smp v s * fst (sT s) + at_smp u s * snd (sT s))) a b) H k; do cj <- contour_integrate (slice (S_ (fun s => at_smp u s * fst (sT s) + - at_smp v s * snd (sT s))) a b) H k; Ok (bj / (-2 * PI), cj / (2 * PI))) (seq a n) = Ok (map (residue u v) (skipn a ls))); [|exact (G (List.length ls) 0%nat ltac:(lia))].
  induction n as [|n IH]; intros a L; [rewrite skipn_all2 by lia; reflexivity|].
  destruct (nth_error ls a) as [l|] eqn:El; [|apply nth_error_None in El; lia]. assert (El' : nth_error ess (S a) = Some l) by (rewrite Eess; exact El). destruct (nth_error (c_comps c) (S a)) as [k|] eqn:Ek; [|apply nth_error_None in Ek; lia].
  cbn [seq map_res]. rewrite (IH (S a)) by lia. cbn [attr bind]. assert (Le : List.length ess = S (List.length ls)) by (rewrite Eess; reflexivity). unfold geti, offsets. rewrite !offsets_nth by (rewrite map_length; lia). cbn [bind]. rewrite Ek. cbn [bind]. rewrite !Z.add_0_l.
  rewrite !samples_concat. rewrite !(nums_slice (map csize ess) _ (S a) (samples_of l _) (samples_cut ess _ W)) by (rewrite nth_error_map, El'; reflexivity). rewrite !(comp_int F NE U (S a) k l _ Ek El'). cbn [bind]. rewrite (skipn_nth ls a l El). cbn [map]. do 2 f_equal. unfold residue. pose proof PI_neq0. apply f_equal2; [|reflexivity]. unfold weighted_in. field. auto.
Qed.

Lemma on_sx (g : pt -> R) : map g (combine (S_ (fun s => fst (sx s))) (S_ (fun s => snd (sx s)))) = S_ (fun s => g (sx s)).
Proof. unfold samples_of. rewrite combine_map, map_map. apply map_ext. intros s. destruct (sx s); reflexivity. Qed.
Lemma add_holes_ok hs lc : List.length hs = Z.to_nat (c_holes c) -> List.length lc = Z.to_nat (c_holes c) -> forall G g1 g2 : pt -> R,
  add_holes H c (combine (S_ (fun s => fst (sx s))) (S_ (fun s => snd (sx s)))) hs lc (S_ (fun s => G (sx s))) (S_ (fun s => (g1 (sx s) * fst (sN s) + g2 (sx s) * snd (sN s)) * sw s)) =
  Ok (S_ (fun s => G (sx s) + h_val (sx s) (combine hs lc)), S_ (fun s => ((g1 (sx s) + h_x1 (sx s) (combine hs lc)) * fst (sN s) + (g2 (sx s) + h_x2 (sx s) (combine hs lc)) * snd (sN s)) * sw s)).
Proof using F.
  intros Lh Ll. unfold add_holes, holes.
  match goal with |- forall G g1 g2, fold_res ?st _ _ = _ => assert (K : forall n a (G g1 g2 : pt -> R), (n + a = Z.to_nat (c_holes c))%nat -> fold_res st (seq a n) (S_ (fun s => G (sx s)), S_ (fun s => (g1 (sx s) * fst (sN s) + g2 (sx s) * snd (sN s)) * sw s)) = Ok (S_ (fun s => G (sx s) + h_val (sx s) (skipn a (combine hs lc))), S_ (fun s => ((g1 (sx s) + h_x1 (sx s) (skipn a (combine hs lc))) * fst (sN s) + (g2 (sx s) + h_x2 (sx s) (skipn a (combine hs lc))) * snd (sN s)) * sw s))) end.
  2: { intros G g1 g2. exact (K (Z.to_nat (c_holes c)) 0%nat G g1 g2 ltac:(lia)). }
  induction n as [|n IH]; intros a G g1 g2 L.
  - rewrite skipn_all2 by (rewrite combine_length; lia). cbn [seq fold_res]. unfold h_val, h_x1, h_x2, hsum. cbn [map]. change (sum_list []) with 0. f_equal. apply f_equal2; apply s_ext; intros s; ring.
  - destruct (nth_error hs a) as [[xi [b k]]|] eqn:Eh; [|apply nth_error_None in Eh; lia]. destruct (nth_error lc a) as [al|] eqn:Ea; [|apply nth_error_None in Ea; lia].
    assert (Ec : nth_error (combine hs lc) a = Some (xi, (b, k), al)) by (rewrite nth_error_combine, Eh, Ea; reflexivity).
    cbn [seq fold_res]. rewrite (geti_nth _ _ _ Eh). cbn [bind]. rewrite !on_sx. rewrite s_iadd. cbn [bind]. rewrite (s_norm F). cbn [bind]. rewrite s_iadd. cbn [bind]. unfold dot_with_normal at 1. rewrite (dot_ok F). cbn [bind]. rewrite (geti_nth _ _ _ Ea). cbn [bind]. rewrite on_sx, s_iadd. cbn [bind]. rewrite (dx_ok F). cbn [bind]. rewrite s_map. rewrite s_iadd. cbn [bind].
    rewrite (skipn_nth _ a _ Ec).
    pose proof (IH (S a) (fun z => G z + m_val xi z b k + al * lam_val xi z) (fun z => g1 z + m_x1 xi z b k + al * lam_x1 xi z) (fun z => g2 z + m_x2 xi z b k + al * lam_x2 xi z) ltac:(lia)) as E. cbv beta in E.
    match type of E with fold_res _ _ (_, ?w) = _ => match goal with |- fold_res _ _ (_, ?w') = _ => replace w' with w by (apply s_ext; intros s; ring) end end. rewrite E. f_equal. unfold h_val, h_x1, h_x2, hsum. cbn [map fst snd]. apply f_equal2; apply s_ext; intros s; rewrite !sum_cons; ring.
Qed.

(** The arrays after the solver *)
Lemma solve_ok Nn t v0 r u v : solved Nn ess r u v -> carries (ess := ess) t v0 (Some (S_ (weighted_in sN u v))) (Some (S_ (weighted_in sT u v))) -> as_strategy Nn = ByFft -> exists t', recover Nn H c t = Ok t' /\ tr_vals t' = Some (S_ (at_smp r)).
Proof using F NE U.
  intros So Ca St. unfold solved in So. rewrite St in So. destruct So as (A & B & eta & Ee & C). destruct (recover_ok F NE U Nn t v0 (at_smp r) _ _ eta Ee Ca A B C) as (t' & E & (_ & V & _)). eauto.
Qed.
Lemma s_at_neg v : map Ropp (S_ (at_smp v)) = S_ (at_smp (fun x y => - v x y)).
Proof. rewrite s_map. reflexivity. Qed.

Theorem multiply_ok Nn xs lc u v r s : centers c xs -> List.length lc = Z.to_nat (c_holes c) ->
  let hs := combine xs (map (residue u v) (tl ess)) in let u0 := fun x y => u x y - poles hs x y in let v0 := fun x y => v x y - poles_hat hs x y in
  solved Nn ess r u0 (fun x y => - v0 x y) -> solved Nn ess s v0 u0 ->
  multiply_connected Nn H c (S_ (at_smp u)) (S_ (at_smp v)) lc =
  Ok (S_ (at_smp (fun x y => four r s x y + h_val (x, y) (combine hs lc))), S_ (weighted_in sN (fun x y => four1 r u0 v0 x y + h_x1 (x, y) (combine hs lc)) (fun x y => four2 s u0 v0 x y + h_x2 (x, y) (combine hs lc)))).
Proof using F NE U.
  intros Cx Ll hs u0 v0 So So'. unfold multiply_connected, dot_with_tangent. rewrite s_map, !(dot_ok F). cbn [bind]. rewrite residues_ok. cbn [bind]. rewrite (s_points F). cbn [bind]. rewrite (centres_ok c xs (proj1 (proj2 F)) Cx). cbn [bind]. fold hs. cbv zeta. rewrite !on_sx.
  replace (S_ (fun s0 => rat hs (sx s0))) with (S_ (at_smp (poles hs))) by (apply s_ext; intros q; unfold at_smp; rewrite <- rat_poles; destruct (sx q); reflexivity). replace (S_ (fun s0 => rat_hat hs (sx s0))) with (S_ (at_smp (poles_hat hs))) by (apply s_ext; intros q; unfold at_smp; rewrite <- rat_hat_poles; destruct (sx q); reflexivity).
  rewrite !s_sub. cbn [bind]. change (fun s0 => at_smp u s0 - at_smp (poles hs) s0) with (at_smp u0). change (fun s0 => at_smp v s0 - at_smp (poles_hat hs) s0) with (at_smp v0).
  destruct (trace_scal F 0) as (z & Ez & Lz & _). rewrite Ez. cbn [bind]. pose proof (made_carries z None None Lz I I) as Ca. unfold wnd_from_gradient. rewrite s_at_neg, !(s_norm F). cbn [bind].
  change (fun s0 => (at_smp u0 s0 * fst (sN s0) + at_smp (fun x y => - v0 x y) s0 * snd (sN s0)) * sw s0) with (weighted_in sN u0 (fun x y => - v0 x y)). change (fun s0 => (at_smp v0 s0 * fst (sN s0) + at_smp u0 s0 * snd (sN s0)) * sw s0) with (weighted_in sN v0 u0).
  destruct (set_wnd_ok F _ _ _ _ (S_ (weighted_in sN u0 (fun x y => - v0 x y))) Ca (samples_fit F _)) as (t1 & E1 & C1). rewrite E1. cbn [bind]. destruct (set_wnd_ok F _ _ _ _ (S_ (weighted_in sN v0 u0)) Ca (samples_fit F _)) as (t2 & E2 & C2). rewrite E2. cbn [bind].
  match goal with |- bind ?X _ = _ => assert (Y : exists t3 t4, X = Ok (t3, t4) /\ tr_vals t3 = Some (S_ (at_smp r)) /\ tr_vals t4 = Some (S_ (at_smp s))) end.
  { destruct (as_strategy Nn) eqn:St.
    - unfold direct_solve. destruct C1 as (B1 & V1 & N1 & W1). destruct C2 as (B2 & V2 & N2 & W2). rewrite N1, N2. unfold solved in So, So'. rewrite St in So, So'. rewrite So. cbn [bind]. unfold set_trace_values. rewrite (tfill_arr es) by (exact (all_sampleable F) || exact B1 || apply (samples_fit F)). cbn [bind]. rewrite So'. cbn [bind]. rewrite (tfill_arr es) by (exact (all_sampleable F) || exact B2 || apply (samples_fit F)). cbn [bind]. eexists _, _. split; [reflexivity|]. split; reflexivity.
    - unfold wtd_from_gradient. rewrite !(s_tang F). cbn [bind]. change (fun s0 => (at_smp u0 s0 * fst (sT s0) + at_smp (fun x y => - v0 x y) s0 * snd (sT s0)) * sw s0) with (weighted_in sT u0 (fun x y => - v0 x y)). change (fun s0 => (at_smp v0 s0 * fst (sT s0) + at_smp u0 s0 * snd (sT s0)) * sw s0) with (weighted_in sT v0 u0).
      destruct (set_wtd_ok F _ _ _ _ (S_ (weighted_in sT u0 (fun x y => - v0 x y))) C1 (samples_fit F _)) as (t3 & E3 & C3). rewrite E3. cbn [bind]. destruct (set_wtd_ok F _ _ _ _ (S_ (weighted_in sT v0 u0)) C2 (samples_fit F _)) as (t4 & E4 & C4). rewrite E4. cbn [bind]. unfold fft_solve. destruct C3 as (B3 & V3 & N3 & W3). destruct C4 as (B4 & V4 & N4 & W4). rewrite N3, W3, N4, W4.
      destruct (solve_ok Nn t3 _ r _ _ So (conj B3 (conj V3 (conj N3 W3))) St) as (t5 & E5 & V5). rewrite E5. cbn [bind]. destruct (solve_ok Nn t4 _ s _ _ So' (conj B4 (conj V4 (conj N4 W4))) St) as (t6 & E6 & V6). rewrite E6. cbn [bind]. eexists _, _. split; [reflexivity|]. split; assumption. }
  destruct Y as (t3 & t4 & -> & V3 & V4). cbn [bind]. rewrite V3, V4. cbn [attr bind]. rewrite (components_ok F). cbn [bind].
  assert (Lh : List.length hs = Z.to_nat (c_holes c)). { unfold hs. rewrite combine_length, map_length, (centers_length c xs Cx). destruct F as (FF & EH & _). rewrite EH. pose proof (Forall2_len _ _ _ FF) as LF. destruct ess; cbn [tl List.length] in *; lia. }
  pose proof (add_holes_ok hs lc Lh Ll (fun z => four r s (fst z) (snd z)) (fun z => four1 r u0 v0 (fst z) (snd z)) (fun z => four2 s u0 v0 (fst z) (snd z))) as A. unfold at_smp at 1, weighted_in at 1. unfold at_smp. cbv beta in A. rewrite A. reflexivity.
Qed.

Theorem simply_ok u v r s : c_holes c = 0%Z -> c_nedges c = List.length es -> resolved_on es (at_smp r) (weighted_in sT u (fun x y => - v x y)) -> resolved_on es (at_smp s) (weighted_in sT v u) ->
  exists k k', let r' := fun x y => r x y - k in let s' := fun x y => s x y - k' in
  simply_connected H c (S_ (at_smp u)) (S_ (at_smp v)) = Ok (S_ (at_smp (four r' s')), S_ (weighted_in sN (four1 r' u v) (four2 s' u v))).
Proof using F NE.
  intros Hz En Rr Rs. assert (X : exists l, ess = [l]). { destruct F as (FF & EH & _). pose proof (Forall2_len _ _ _ FF) as LF. rewrite Hz in EH. clear -LF EH. destruct ess as [|l [|l' ls]]; cbn [List.length] in LF; try lia. exists l. reflexivity. }
  destruct X as (l & El). assert (Es : es = l) by (rewrite El; cbn; apply app_nil_r). assert (Il : In l ess) by (rewrite El; left; reflexivity). assert (Nl : l <> []) by (pose proof NE as X; rewrite Forall_forall in X; apply X, Il). pose proof (smp_nonempty F NE l Il) as Ns.
  exists (mean (S_ (at_smp r))), (mean (S_ (at_smp s))). cbv zeta. unfold simply_connected. rewrite s_at_neg, !(s_tang F). cbn [bind]. rewrite En.
  change (fun s0 => (at_smp u s0 * fst (sT s0) + at_smp (fun x y => - v x y) s0 * snd (sT s0)) * sw s0) with (weighted_in sT u (fun x y => - v x y)). change (fun s0 => (at_smp v s0 * fst (sT s0) + at_smp u s0 * snd (sT s0)) * sw s0) with (weighted_in sT v u).
  rewrite <- Es in Nl, Ns. rewrite (resolved_anti es _ _ Nl Ns Rr). cbn [bind]. rewrite (resolved_anti es _ _ Nl Ns Rs). cbn [bind].
  exact (components_ok F (fun x y => r x y - mean (S_ (at_smp r))) (fun x y => s x y - mean (S_ (at_smp s))) u v).
Qed.
End Cell.
