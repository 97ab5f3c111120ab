From Coq Require Import List ZArith Reals Lia Lra Arith.
From Verif Require Import PyBase PolyModel PolySpec PolyProofs PolyProofs2 PolyProofs4 IntPolyModel.
Import ListNotations.
Open Scope R_scope.

Fixpoint bsum (K : list bsample) (f : bsample -> R) : R :=
  match K with [] => 0 | k :: K' => f k * bs_w k + bsum K' f end.
Lemma iob_bsum K f : integrate_over_boundary K f = bsum K f.
Proof.
  unfold integrate_over_boundary. assert (G : forall a, fold_left (fun s k => s + f k * bs_w k) K a = a + bsum K f).
  { induction K as [|k K IH]; intros a; cbn [fold_left bsum]; [ring|]. rewrite IH. ring. }
  rewrite G. ring.
Qed.
Lemma bsum_plus K f g : bsum K (fun k => f k + g k) = bsum K f + bsum K g.
Proof. induction K as [|k K IH]; cbn [bsum]; [ring|]. rewrite IH. ring. Qed.
Lemma bsum_scal K f c : bsum K (fun k => c * f k) = c * bsum K f.
Proof. induction K as [|k K IH]; cbn [bsum]; [ring|]. rewrite IH. ring. Qed.
Lemma bsum_ext K f g : (forall k, f k = g k) -> bsum K f = bsum K g.
Proof. intros H. induction K as [|k K IH]; cbn [bsum]; [reflexivity|]. rewrite IH, H. reflexivity. Qed.

(** Coefficients divided by 2 + degree. *)
Definition rdiv (p : rpoly) : rpoly := map (fun m : rmono => Mono (S:=RS) (malpha m) ((mcoef m : R) / (2 + INR (morder (malpha m))))) p.
Lemma coef_rdiv p a b : coef (rdiv p) a b = coef p a b / (2 + INR (a + b)).
Proof.
  induction p as [|m p IH]; cbn [rdiv map coef]; [unfold Rdiv; ring|]. fold (rdiv p). rewrite IH. cbn [malpha mcoef].
  destruct (Nat.eqb_spec (mx (malpha m)) a) as [<-|]; destruct (Nat.eqb_spec (my (malpha m)) b) as [<-|]; cbn [andb];
    unfold morder, Rdiv; ring.
Qed.

Definition xn (k : bsample) : R := bs_x k * bs_nx k + bs_y k * bs_ny k.

Lemma integrate_poly_value p K :
  integrate_poly_over_mesh_cell p K = bsum K (fun k => xn k * value (rdiv p) (bs_x k) (bs_y k)).
Proof.
  unfold integrate_poly_over_mesh_cell.
  assert (G : forall a, fold_left (fun val m => val + integrate_over_boundary K (fun k =>
      (bs_x k * bs_nx k + bs_y k * bs_ny k) * m_eval RS m (bs_x k) (bs_y k) / (2 + INR (morder (malpha m))))) p a
      = a + bsum K (fun k => xn k * value (rdiv p) (bs_x k) (bs_y k))).
  { induction p as [|m p IH]; intros a; cbn [fold_left].
    - rewrite (bsum_ext K _ (fun k => 0 * xn k)) by (intros k; cbn; ring). rewrite bsum_scal. ring.
    - rewrite IH, iob_bsum, Rplus_assoc, <- bsum_plus. f_equal. apply bsum_ext. intros k.
      cbn [rdiv map value]. fold (rdiv p). cbn [malpha mcoef]. rewrite m_eval_RS. unfold xn, Rdiv. ring. }
  rewrite G. ring.
Qed.

Definition rlin (c d : R) (p q : rpoly) : rpoly :=
  map (fun m : rmono => Mono (S:=RS) (malpha m) (c * (mcoef m : R))) p ++ map (fun m : rmono => Mono (S:=RS) (malpha m) (d * (mcoef m : R))) q.
Lemma coef_map_c c p a b : coef (map (fun m : rmono => Mono (S:=RS) (malpha m) (c * (mcoef m : R))) p) a b = c * coef p a b.
Proof. induction p as [|m p IH]; cbn [map coef]; [ring|]. rewrite IH. cbn [malpha mcoef]. destruct (_ && _)%bool; ring. Qed.
Lemma value_map_c c p x y : value (map (fun m : rmono => Mono (S:=RS) (malpha m) (c * (mcoef m : R))) p) x y = c * value p x y.
Proof. induction p as [|m p IH]; cbn [map value]; [ring|]. rewrite IH. cbn [malpha mcoef]. ring. Qed.

Lemma integrate_poly_linear p q r c d K : (forall a b, coef r a b = c * coef p a b + d * coef q a b) ->
  integrate_poly_over_mesh_cell r K = c * integrate_poly_over_mesh_cell p K + d * integrate_poly_over_mesh_cell q K.
Proof.
  intros H. rewrite !integrate_poly_value, <- !bsum_scal, <- bsum_plus. apply bsum_ext. intros k.
  replace (value (rdiv r) (bs_x k) (bs_y k)) with (value (rlin c d (rdiv p) (rdiv q)) (bs_x k) (bs_y k)).
  - unfold rlin. rewrite value_app, !value_map_c. ring.
  - apply value_coef_ext. intros a b. unfold rlin. rewrite coef_app, !coef_map_c, !coef_rdiv, H. unfold Rdiv. ring.
Qed.

(** Euler's identity for the formal derivatives. *)
Lemma pow_pred x n : x * (INR n * x ^ (n - 1)) = INR n * x ^ n.
Proof. destruct n as [|n]; [cbn; ring|]. replace (S n - 1)%nat with n by lia. cbn [pow]. ring. Qed.

Lemma value_dx_cons m p x y : value (map (m_dx RS) (m :: p)) x y
  = (mcoef m : R) * (INR (mx (malpha m)) * x ^ (mx (malpha m) - 1)) * y ^ my (malpha m) + value (map (m_dx RS) p) x y.
Proof.
  cbn [map value]. f_equal. unfold m_dx. destruct (malpha m) as [a b]. cbn [mx my]. destruct a as [|a]; cbn [malpha mcoef mx my].
  - cbn. ring.
  - replace (S a - 1)%nat with a by lia. rewrite INR_IZR_INZ. cbn [smul sofZ RS]. ring.
Qed.
Lemma value_dy_cons m p x y : value (map (m_dy RS) (m :: p)) x y
  = (mcoef m : R) * x ^ mx (malpha m) * (INR (my (malpha m)) * y ^ (my (malpha m) - 1)) + value (map (m_dy RS) p) x y.
Proof.
  cbn [map value]. f_equal. unfold m_dy. destruct (malpha m) as [a b]. cbn [mx my]. destruct b as [|b]; cbn [malpha mcoef mx my].
  - cbn. ring.
  - replace (S b - 1)%nat with b by lia. rewrite INR_IZR_INZ. cbn [smul sofZ RS]. ring.
Qed.

Lemma euler p x y :
  2 * value (rdiv p) x y + x * value (map (m_dx RS) (rdiv p)) x y + y * value (map (m_dy RS) (rdiv p)) x y = value p x y.
Proof.
  induction p as [|m p IH]; [cbn; ring|].
  change (rdiv (m :: p)) with (Mono (S:=RS) (malpha m) ((mcoef m : R) / (2 + INR (morder (malpha m)))) :: rdiv p).
  rewrite value_dx_cons, value_dy_cons. cbn [value malpha mcoef]. rewrite <- IH.
  set (a := mx (malpha m)). set (b := my (malpha m)). set (c := (mcoef m : R)).
  unfold morder. fold a b. rewrite plus_INR. pose proof (pos_INR a). pose proof (pos_INR b).
  pose proof (pow_pred x a) as Ex. pose proof (pow_pred y b) as Ey.
  transitivity (c / (2 + (INR a + INR b)) * (2 * (x ^ a * y ^ b) + (x * (INR a * x ^ (a - 1))) * y ^ b + x ^ a * (y * (INR b * y ^ (b - 1))))
     + (2 * value (rdiv p) x y + x * value (map (m_dx RS) (rdiv p)) x y + y * value (map (m_dy RS) (rdiv p)) x y)); [ring|].
  rewrite Ex, Ey. field. lra.
Qed.

Lemma divergence_field p K : exists Fx Fy Fxx Fyy : R -> R -> R,
  is_dx Fx Fxx /\ is_dy Fy Fyy /\ (forall x y, Fxx x y + Fyy x y = value p x y) /\
  integrate_poly_over_mesh_cell p K =
    integrate_over_boundary K (fun k => Fx (bs_x k) (bs_y k) * bs_nx k + Fy (bs_x k) (bs_y k) * bs_ny k).
Proof.
  exists (fun x y => x * value (rdiv p) x y), (fun x y => y * value (rdiv p) x y),
    (fun x y => 1 * value (rdiv p) x y + x * value (map (m_dx RS) (rdiv p)) x y),
    (fun x y => 1 * value (rdiv p) x y + y * value (map (m_dy RS) (rdiv p)) x y).
  split; [|split; [|split]].
  - intros x y. apply (derivable_pt_lim_mult (fun t => t) (fun t => value (rdiv p) t y)); [apply derivable_pt_lim_id|apply value_map_dx_lim].
  - intros x y. apply (derivable_pt_lim_mult (fun t => t) (fun t => value (rdiv p) x t)); [apply derivable_pt_lim_id|apply value_map_dy_lim].
  - intros x y. rewrite <- (euler p x y). ring.
  - rewrite integrate_poly_value, iob_bsum. apply bsum_ext. intros k. unfold xn. ring.
Qed.
