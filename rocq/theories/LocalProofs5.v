(** Lemmas on the interior values of local functions. *)
From Coq Require Import List ZArith Reals Lia Lra Bool Permutation.
From Coquelicot Require Import Coquelicot.
From Verif Require Import PyBase PolyModel PolySpec PolyProofs PolyProps BaryModel VertModel EdgeModel EdgeSpec EdgeProps4 ContourModel CellModel CellSpec CellProofs CellProps ContourProofs ContourProofs2 ContourProofs3 ContourProofs4 CellProofs2 ContourProps CellProps3 TraceModel TraceSpec TraceProofs IntPolyModel IntPolyProofs LocalModel LocalSpec LocalProofs LocalProofs2 LocalProofs3.
Import List ListNotations.
Open Scope R_scope.

(** ** The complex form of the sums *)
Lemma cs_off (s : csample) y : cs_x s <> y -> norm_sq (psub_pt (cs_x s) y) <> 0.
Proof.
  destruct s as [[a b] t w u v]. destruct y as [p q]. cbn. unfold norm_sq, psub_pt. cbn [fst snd]. intros N Z. apply N.
  assert (X : (a - p) ^ 2 = 0 /\ (b - q) ^ 2 = 0) by (pose proof (pow2_ge_0 (a - p)); pose proof (pow2_ge_0 (b - q)); lra). destruct X as [X Y]. apply f_equal2; nra.
Qed.
(** One term of the Cauchy sum *)
Definition cterm (m : nat) (y : pt) (s : csample) : pt := Nat.iter m (fun q => cdiv q (csub (cs_x s) y)) (cmul (cs_u s, cs_v s) (cscale (cs_w s) (cs_t s))).
Lemma csum_fst l : fst (csum l) = sum_list (map fst l).
Proof. induction l as [|a l IH]; [reflexivity|]. change (fst (csum (a :: l))) with (fst a + fst (csum l)). rewrite IH. reflexivity. Qed.
Lemma csum_snd l : snd (csum l) = sum_list (map snd l).
Proof. induction l as [|a l IH]; [reflexivity|]. change (snd (csum (a :: l))) with (snd a + snd (csum l)). rewrite IH. reflexivity. Qed.
Lemma cauchy_sum_re m l y : fst (cauchy_sum m l y) = sum_list (map (fun s => snd (cterm m y s)) l) / (2 * PI).
Proof. unfold cauchy_sum. fold (cterm m y). set (q := csum _). unfold cdiv, norm_sq. cbn [fst snd]. replace (sum_list _) with (snd q) by (unfold q; rewrite csum_snd, map_map; reflexivity). pose proof PI_RGT_0. field. lra. Qed.
Lemma cauchy_sum_im m l y : snd (cauchy_sum m l y) = - sum_list (map (fun s => fst (cterm m y s)) l) / (2 * PI).
Proof. unfold cauchy_sum. fold (cterm m y). set (q := csum _). unfold cdiv, norm_sq. cbn [fst snd]. replace (sum_list _) with (fst q) by (unfold q; rewrite csum_fst, map_map; reflexivity). pose proof PI_RGT_0. field. lra. Qed.
Lemma cterm_value s y : cs_x s <> y -> cs_w s * int_f s y = snd (cterm 1 y s).
Proof. intros N. apply cs_off in N. unfold int_f, eta, eta_hat, cterm, Nat.iter, nat_rect, cdiv, csub, cmul, cscale. cbn [fst snd]. unfold psub_pt, norm_sq in *. cbn [fst snd] in *. field. exact N. Qed.
Lemma cterm_g1 s y : cs_x s <> y -> cs_w s * int_g1 s y = snd (cterm 2 y s).
Proof. intros N. apply cs_off in N. unfold int_g1, omega, omega_hat, eta, eta_hat, cterm, Nat.iter, nat_rect, cdiv, csub, cmul, cscale. cbn [fst snd]. unfold psub_pt, norm_sq in *. cbn [fst snd] in *. field. exact N. Qed.
Lemma cterm_g2 s y : cs_x s <> y -> cs_w s * int_g2 s y = fst (cterm 2 y s).
Proof. intros N. apply cs_off in N. unfold int_g2, omega, omega_hat, eta, eta_hat, cterm, Nat.iter, nat_rect, cdiv, csub, cmul, cscale. cbn [fst snd]. unfold psub_pt, norm_sq in *. cbn [fst snd] in *. field. exact N. Qed.
Lemma np_sum_list l : np_sum l = sum_list l.
Proof. reflexivity. Qed.
Lemma cauchy_list f g l y : Forall (fun s => cs_x s <> y) l -> (forall s, cs_x s <> y -> cs_w s * f s y = g s) -> cauchy f l y = sum_list (map g l) / (2 * PI).
Proof. intros A E. unfold cauchy. rewrite np_sum_list. replace (map (fun s => cs_w s * f s y) l) with (map g l); [pose proof PI_RGT_0; field; lra|]. apply map_ext_in. intros s I. symmetry. apply E. rewrite Forall_forall in A. apply A, I. Qed.
Lemma cauchy_value l y : Forall (fun s => cs_x s <> y) l -> cauchy int_f l y = fst (cauchy_sum 1 l y).
Proof. intros A. rewrite cauchy_sum_re. apply cauchy_list; [exact A|]. intros s N. apply cterm_value, N. Qed.
Lemma cauchy_g1 l y : Forall (fun s => cs_x s <> y) l -> cauchy int_g1 l y = fst (cauchy_sum 2 l y).
Proof. intros A. rewrite cauchy_sum_re. apply cauchy_list; [exact A|]. intros s N. apply cterm_g1, N. Qed.
Lemma cauchy_g2 l y : Forall (fun s => cs_x s <> y) l -> cauchy int_g2 l y = - snd (cauchy_sum 2 l y).
Proof. intros A. rewrite cauchy_sum_im, (cauchy_list _ (fun s => fst (cterm 2 y s)) l y A) by (intros; apply cterm_g2; assumption). pose proof PI_RGT_0. field. lra. Qed.

(** ** Derivatives *)
Lemma cterm_d m s y : cs_x s <> y -> (m = 1 \/ m = 2)%nat ->
  derivable_pt_lim (fun t => fst (cterm m (t, snd y) s)) (fst y) (INR m * fst (cterm (S m) y s)) /\
  derivable_pt_lim (fun t => snd (cterm m (t, snd y) s)) (fst y) (INR m * snd (cterm (S m) y s)) /\
  derivable_pt_lim (fun t => fst (cterm m (fst y, t) s)) (snd y) (- INR m * snd (cterm (S m) y s)) /\
  derivable_pt_lim (fun t => snd (cterm m (fst y, t) s)) (snd y) (INR m * fst (cterm (S m) y s)).
Proof.
  intros N M. apply cs_off in N. unfold psub_pt, norm_sq in N. destruct y as [p q]. cbn [fst snd] in N.
  destruct M; subst m; unfold cterm, Nat.iter, nat_rect, cdiv, csub, cmul, cscale, norm_sq; cbn [fst snd INR]; repeat split; apply is_derive_Reals; auto_derive; try (repeat split; assumption); field; repeat split; assumption.
Qed.

Lemma sum_derive {A} (f : A -> R -> R) (f' : A -> R) l x : (forall s, In s l -> derivable_pt_lim (f s) x (f' s)) -> derivable_pt_lim (fun t => sum_list (map (fun s => f s t) l)) x (sum_list (map f' l)).
Proof.
  induction l as [|a l IH]; intros D; [apply derivable_pt_lim_const|]. cbn [map]. change (sum_list (?a :: ?l)) with (a + sum_list l).
  eapply (derivable_pt_lim_plus (f a) (fun t => sum_list (map (fun s => f s t) l))); [apply D; left; reflexivity|apply IH; intros s I; apply D; right; exact I].
Qed.
Lemma derive_ext f g x l : (forall t, f t = g t) -> derivable_pt_lim f x l -> derivable_pt_lim g x l.
Proof. intros E D e He. destruct (D e He) as (d & Hd). exists d. intros h Hn Hh. rewrite <- !E. apply Hd; assumption. Qed.
Lemma derive_val f x l l' : l = l' -> derivable_pt_lim f x l -> derivable_pt_lim f x l'.
Proof. intros ->. exact (fun D => D). Qed.
Lemma derive_div f x l k : derivable_pt_lim f x l -> derivable_pt_lim (fun t => f t / k) x (l / k).
Proof. intros D. apply (derive_ext (mult_real_fct (/ k) f)); [intros t; unfold mult_real_fct, Rdiv; ring|]. replace (l / k) with (/ k * l) by (unfold Rdiv; ring). apply derivable_pt_lim_scal, D. Qed.
Lemma sum_scal {A} k (f : A -> R) l : sum_list (map (fun s => k * f s) l) = k * sum_list (map f l).
Proof. induction l as [|a l IH]; [unfold sum_list; cbn; ring|]. cbn [map]. change (sum_list (?a :: ?l)) with (a + sum_list l). rewrite IH. ring. Qed.
(** The four derivatives of the sums *)
Lemma cauchy_d m l y : Forall (fun s => cs_x s <> y) l -> (m = 1 \/ m = 2)%nat ->
  derivable_pt_lim (fun t => fst (cauchy_sum m l (t, snd y))) (fst y) (INR m * fst (cauchy_sum (S m) l y)) /\
  derivable_pt_lim (fun t => snd (cauchy_sum m l (t, snd y))) (fst y) (INR m * snd (cauchy_sum (S m) l y)) /\
  derivable_pt_lim (fun t => fst (cauchy_sum m l (fst y, t))) (snd y) (- INR m * snd (cauchy_sum (S m) l y)) /\
  derivable_pt_lim (fun t => snd (cauchy_sum m l (fst y, t))) (snd y) (INR m * fst (cauchy_sum (S m) l y)).
Proof.
  intros A M. rewrite Forall_forall in A. pose proof PI_RGT_0. rewrite cauchy_sum_re, cauchy_sum_im.
  assert (G : forall (f : csample -> R -> R) (f' : csample -> R) x, (forall s, cs_x s <> y -> derivable_pt_lim (f s) x (f' s)) -> derivable_pt_lim (fun t => sum_list (map (fun s => f s t) l) / (2 * PI)) x (sum_list (map f' l) / (2 * PI))).
  { intros f f' x D. apply derive_div, sum_derive. intros s I. apply D, A, I. }
  repeat split.
  - eapply derive_ext; [intros t; symmetry; apply cauchy_sum_re|]. replace (INR m * _) with (sum_list (map (fun s => INR m * snd (cterm (S m) y s)) l) / (2 * PI)) by (rewrite sum_scal; field; lra). apply (G (fun s t => snd (cterm m (t, snd y) s))). intros s N. apply cterm_d; assumption.
  - eapply derive_ext; [intros t; symmetry; apply cauchy_sum_im|]. replace (INR m * _) with (- (sum_list (map (fun s => INR m * fst (cterm (S m) y s)) l) / (2 * PI))) by (rewrite sum_scal; field; lra). eapply derive_ext; [|apply derivable_pt_lim_opp, (G (fun s t => fst (cterm m (t, snd y) s))); intros s N; apply cterm_d; assumption]. intros t. unfold opp_fct. field. lra.
  - eapply derive_ext; [intros t; symmetry; apply cauchy_sum_re|]. replace (- INR m * _) with (sum_list (map (fun s => INR m * fst (cterm (S m) y s)) l) / (2 * PI)) by (rewrite sum_scal; field; lra). apply (G (fun s t => snd (cterm m (fst y, t) s))). intros s N. apply cterm_d; assumption.
  - eapply derive_ext; [intros t; symmetry; apply cauchy_sum_im|]. replace (INR m * _) with (- (sum_list (map (fun s => - INR m * snd (cterm (S m) y s)) l) / (2 * PI))) by (rewrite sum_scal; field; lra). eapply derive_ext; [|apply derivable_pt_lim_opp, (G (fun s t => fst (cterm m (fst y, t) s))); intros s N; apply cterm_d; assumption]. intros t. unfold opp_fct. field. lra.
Qed.
(** ... and of the logarithms *)
Lemma pdist_sq y x : pdist y x ^ 2 = norm_sq (psub_pt y x).
Proof. unfold pdist, norm_sq, psub_pt. cbn [fst snd]. rewrite pow2_sqrt by (apply Rplus_le_le_0_compat; apply Rle_0_sqr). ring. Qed.
Lemma ln_half z : 0 <= z -> ln (sqrt z) = 1 / 2 * ln z.
Proof.
  intros [P|<-]; [|assert (L : ln 0 = 0) by (unfold ln; destruct (Rlt_dec 0 0) as [r|]; [exfalso; lra|reflexivity]); rewrite sqrt_0, L; ring]. pose proof (sqrt_lt_R0 z P). rewrite <- (sqrt_sqrt z) at 2 by lra. rewrite ln_mult by assumption. lra.
Qed.
Lemma ln_pdist y x : ln (pdist y x) = 1 / 2 * ln (norm_sq (psub_pt y x)).
Proof. unfold pdist. rewrite ln_half by (apply Rplus_le_le_0_compat; apply Rle_0_sqr). unfold norm_sq, psub_pt. cbn [fst snd]. do 2 f_equal. ring. Qed.
Lemma pt_off (x y : pt) : x <> y -> 0 < norm_sq (psub_pt y x).
Proof.
  destruct x as [a b], y as [p q]. unfold norm_sq, psub_pt. cbn [fst snd]. intros N. pose proof (pow2_ge_0 (p - a)). pose proof (pow2_ge_0 (q - b)). destruct (Req_dec ((p - a) ^ 2 + (q - b) ^ 2) 0) as [Z|Z]; [|lra]. exfalso. apply N. apply f_equal2; nra.
Qed.
Lemma log_d a x y : x <> y ->
  derivable_pt_lim (fun t => a * ln (pdist (t, snd y) x)) (fst y) (a * (fst y - fst x) / pdist y x ^ 2) /\
  derivable_pt_lim (fun t => a * ln (pdist (fst y, t) x)) (snd y) (a * (snd y - snd x) / pdist y x ^ 2) /\
  derivable_pt_lim (fun t => a * (t - fst x) / pdist (t, snd y) x ^ 2) (fst y) (a * ((snd y - snd x) ^ 2 - (fst y - fst x) ^ 2) / pdist y x ^ 4) /\
  derivable_pt_lim (fun t => a * (t - snd x) / pdist (fst y, t) x ^ 2) (snd y) (- (a * ((snd y - snd x) ^ 2 - (fst y - fst x) ^ 2) / pdist y x ^ 4)).
Proof.
  intros N. apply pt_off in N. replace (pdist y x ^ 4) with ((pdist y x ^ 2) ^ 2) by ring. rewrite pdist_sq. repeat split.
  1,2: eapply derive_ext; [intros t; symmetry; rewrite (ln_pdist _ x); reflexivity|].
  3,4: eapply derive_ext; [intros t; symmetry; rewrite (pdist_sq _ x); reflexivity|].
  all: unfold norm_sq, psub_pt in *; cbn [fst snd] in *; apply is_derive_Reals; auto_derive; try (repeat split; lra); try (repeat split; try lra); try (field; lra).
Qed.

(** ** The whole function *)
Lemma total_d q xs lc l y : canonical q -> away xs l y ->
  derivable_pt_lim (fun t => total_value q xs lc l (t, snd y)) (fst y) (total_g1 (pdx RS q) xs lc l y) /\
  derivable_pt_lim (fun t => total_value q xs lc l (fst y, t)) (snd y) (total_g2 (pdy RS q) xs lc l y).
Proof.
  intros C (A & B). destruct (cauchy_d 1 l y A (or_introl eq_refl)) as (D1 & _ & D3 & _). destruct (C06_grad q C) as [G1 G2]. cbn [pgrad fst snd] in G1, G2. cbn [INR] in D1, D3. rewrite Rmult_1_l in D1. replace (- (1) * snd (cauchy_sum 2 l y)) with (- snd (cauchy_sum 2 l y)) in D3 by ring.
  assert (I : forall z, In z (combine xs lc) -> fst z <> y) by (intros [x a] I; apply in_combine_l in I; rewrite Forall_forall in B; apply B, I).
  split; unfold total_value, total_g1, total_g2; cbn [fst snd].
  - apply (derivable_pt_lim_plus (fun t => peval RS q t (snd y) + sum_list (map (fun z => snd z * ln (pdist (t, snd y) (fst z))) (combine xs lc))) (fun t => fst (cauchy_sum 1 l (t, snd y)))); [|exact D1].
    apply (derivable_pt_lim_plus (fun t => peval RS q t (snd y)) (fun t => sum_list (map (fun z => snd z * ln (pdist (t, snd y) (fst z))) (combine xs lc)))); [apply G1|].
    apply (sum_derive (fun z t => snd z * ln (pdist (t, snd y) (fst z)))). intros z Iz. apply log_d, I, Iz.
  - unfold Rminus. apply (derivable_pt_lim_plus (fun t => peval RS q (fst y) t + sum_list (map (fun z => snd z * ln (pdist (fst y, t) (fst z))) (combine xs lc))) (fun t => fst (cauchy_sum 1 l (fst y, t)))); [|exact D3].
    apply (derivable_pt_lim_plus (fun t => peval RS q (fst y) t) (fun t => sum_list (map (fun z => snd z * ln (pdist (fst y, t) (fst z))) (combine xs lc)))); [apply G2|].
    apply (sum_derive (fun z t => snd z * ln (pdist (fst y, t) (fst z)))). intros z Iz. apply log_d, I, Iz.
Qed.
Lemma total_dd q1 q2 xs lc l y : canonical q1 -> canonical q2 -> away xs l y -> exists a,
  derivable_pt_lim (fun t => total_g1 q1 xs lc l (t, snd y)) (fst y) (peval RS (pdx RS q1) (fst y) (snd y) + a) /\
  derivable_pt_lim (fun t => total_g2 q2 xs lc l (fst y, t)) (snd y) (peval RS (pdy RS q2) (fst y) (snd y) - a).
Proof.
  intros C1 C2 (A & B). destruct (cauchy_d 2 l y A (or_intror eq_refl)) as (D1 & _ & _ & D4). destruct (C06_grad q1 C1) as [G1 _]. destruct (C06_grad q2 C2) as [_ G2]. cbn [pgrad fst snd] in G1, G2.
  assert (I : forall z, In z (combine xs lc) -> fst z <> y) by (intros [x a] I; apply in_combine_l in I; rewrite Forall_forall in B; apply B, I).
  set (k := fun z : pt * R => snd z * ((snd y - snd (fst z)) ^ 2 - (fst y - fst (fst z)) ^ 2) / pdist y (fst z) ^ 4).
  exists (sum_list (map k (combine xs lc)) + INR 2 * fst (cauchy_sum 3 l y)).
  split; unfold total_g1, total_g2; cbn [fst snd].
  - rewrite <- Rplus_assoc. apply (derivable_pt_lim_plus (fun t => peval RS q1 t (snd y) + sum_list (map (fun z => snd z * (t - fst (fst z)) / pdist (t, snd y) (fst z) ^ 2) (combine xs lc))) (fun t => fst (cauchy_sum 2 l (t, snd y)))); [|exact D1].
    apply (derivable_pt_lim_plus (fun t => peval RS q1 t (snd y)) (fun t => sum_list (map (fun z => snd z * (t - fst (fst z)) / pdist (t, snd y) (fst z) ^ 2) (combine xs lc)))); [apply G1|].
    apply (sum_derive (fun z t => snd z * (t - fst (fst z)) / pdist (t, snd y) (fst z) ^ 2)). intros z Iz. apply log_d, I, Iz.
  - set (b := fst (cauchy_sum 3 l y)) in *. set (w := peval RS (pdy RS q2) (fst y) (snd y)). assert (E : w - (sum_list (map k (combine xs lc)) + INR 2 * b) = w + sum_list (map (fun z => -1 * k z) (combine xs lc)) + - (INR 2 * b)) by (rewrite sum_scal; ring). rewrite E.
    unfold Rminus. apply (derivable_pt_lim_plus (fun t => peval RS q2 (fst y) t + sum_list (map (fun z => snd z * (t - snd (fst z)) / pdist (fst y, t) (fst z) ^ 2) (combine xs lc))) (fun t => - snd (cauchy_sum 2 l (fst y, t)))); [|apply (derivable_pt_lim_opp (fun t => snd (cauchy_sum 2 l (fst y, t)))), D4].
    apply (derivable_pt_lim_plus (fun t => peval RS q2 (fst y) t) (fun t => sum_list (map (fun z => snd z * (t - snd (fst z)) / pdist (fst y, t) (fst z) ^ 2) (combine xs lc)))); [apply G2|].
    apply (sum_derive (fun z t => snd z * (t - snd (fst z)) / pdist (fst y, t) (fst z) ^ 2)). intros z Iz. destruct (log_d (snd z) (fst z) y (I z Iz)) as (_ & _ & _ & Dz). eapply derive_val; [|exact Dz]. unfold k. set (e := _ / _). ring.
Qed.

(** ** The model's sums *)
Lemma fold_sum {A} (g : A -> R) l a : fold_left (fun s z => s + g z) l a = a + sum_list (map g l).
Proof. revert a. induction l as [|x l IH]; intros a; [unfold sum_list; cbn; ring|]. cbn [fold_left map]. rewrite IH. change (sum_list (?a :: ?l)) with (a + sum_list l). ring. Qed.
Lemma at_value q xs lc l y : away xs l y -> at_pt (combine xs lc) l q log_val int_f y = total_value q xs lc l y.
Proof.
  intros (A & B). unfold at_pt, total_value. rewrite fold_sum, (cauchy_value l y A). do 3 f_equal. apply map_ext. intros z. unfold log_val. rewrite ln_pdist. ring.
Qed.
Lemma at_g1 q xs lc l y : away xs l y -> at_pt (combine xs lc) l q log_g1 int_g1 y = total_g1 q xs lc l y.
Proof. intros (A & B). unfold at_pt, total_g1. rewrite fold_sum, (cauchy_g1 l y A). do 3 f_equal. apply map_ext. intros z. unfold log_g1. rewrite pdist_sq. reflexivity. Qed.
Lemma at_g2 q xs lc l y : away xs l y -> at_pt (combine xs lc) l q log_g2 int_g2 y = total_g2 q xs lc l y.
Proof. intros (A & B). unfold at_pt, total_g2. rewrite fold_sum, (cauchy_g2 l y A). unfold Rminus. do 3 f_equal. apply map_ext. intros z. unfold log_g2. rewrite pdist_sq. reflexivity. Qed.

(** The number of edges is kept *)
Lemma param_nedges contains qd w H c H' c' : param_cell contains qd w H c = Ok (H', c') -> c_nedges c' = c_nedges c.
Proof.
  unfold param_cell. intros E. inv_as E Hk E1. destruct Hk as [H1 ks]. inv_as E c1 E2. inv_as E c2 E3. inv_as E c3 E4. inv_as E c4 E5. inv_as E c5 E6. apply Ok_inj in E. injection E as -> <-.
  unfold cell_num_pts in E2. inv_as E2 u2 X2. inv_as E2 n2 Y2. apply Ok_inj in E2. subst c1.
  unfold find_outer in E3. inv_as E3 u3 X3. cbv zeta in E3. inv_as E3 o3 Y3. inv_as E3 k0 Z3. inv_as E3 ko W3. apply Ok_inj in E3. subst c2.
  unfold cell_start_idx in E4. inv_as E4 u4 X4. inv_as E4 l4 Y4. destruct l4 as [l4 i4]. apply Ok_inj in E4. subst c3.
  unfold cell_closest in E5. inv_as E5 u5 X5. inv_as E5 n5 Y5. inv_as E5 l5 Z5. apply Ok_inj in E5. subst c4.
  destruct w; [|apply Ok_inj in E6; subst c'; reflexivity]. unfold interior_points in E6. destruct (c_mesh _) as [rows cols]. inv_as E6 b6 X6. destruct b6 as [[[x0 x1] y0] y1]. inv_as E6 xs6 Y6. inv_as E6 ys6 Z6. cbv zeta in E6. inv_as E6 i6 W6. inv_as E6 j6 V6. apply Ok_inj in E6. subst c'. reflexivity.
Qed.
Lemma ready_nedges contains H c ess : ready contains H c -> boundary_edges H c ess -> c_nedges c = List.length (concat ess).
Proof.
  intros (H0 & z & ids & mesh & rtol & atol & c0 & n & p & qd & w & H1 & B & Q & P) BE. rewrite (param_nedges _ _ _ _ _ _ _ P). destruct (C36_contours _ _ _ _ _ _ _ B) as (_ & Pe & -> & _). rewrite <- (Permutation_length Pe).
  destruct (param_cell_ok contains (fun _ _ => True) (fun _ _ _ _ _ _ => I) qd n p w H1 c0 H c Q (built_wf _ _ _ _ _ _ _ B) P) as (ess0 & ess' & X). pose proof (p_edges _ _ _ _ _ _ _ _ _ X) as PE. apply (Permutation_map fst) in PE. rewrite !map_map in PE. cbn [fst] in PE.
  assert (LC : forall l l' : list (list nat), Permutation l l' -> List.length (concat l) = List.length (concat l')) by (clear; induction 1; cbn [concat]; rewrite ?app_length; lia). change (map (fun x => k_edges x)) with (map k_edges) in PE. unfold cell_edges. rewrite <- (LC _ _ PE). clear -BE. unfold boundary_edges in BE. induction BE as [|k es ks ess R F IH]; [reflexivity|]. cbn [map concat]. rewrite !app_length, IH. f_equal. exact (Forall2_len _ _ _ R).
Qed.

Lemma ready_nonempty contains H c ess : ready contains H c -> boundary_edges H c ess -> concat ess <> [].
Proof.
  intros Rd BE. pose proof (ready_uniform _ _ _ _ Rd BE) as (_ & NE & _). destruct Rd as (H0 & z & ids & mesh & rtol & atol & c0 & n & p & qd & w & H1 & B & Q & P).
  destruct (param_cell_ok contains (fun _ _ => True) (fun _ _ _ _ _ _ => I) qd n p w H1 c0 H c Q (built_wf _ _ _ _ _ _ _ B) P) as (ess0 & ess' & X). destruct (p_outer _ _ _ _ _ _ _ _ _ X) as (c1 & c2 & ess1 & _ & _ & _ & _ & FO & EC). destruct (find_outer_swap _ _ _ _ FO) as (o & k0 & ko & K0 & Ko & ->). assert (L : c_comps c <> []). { rewrite EC. cbn [with_comps c_comps]. intros Z. pose proof (swap0_length _ _ _ _ K0 Ko) as L. rewrite Z in L. destruct (c_comps c1); discriminate. }
  unfold boundary_edges in BE. destruct BE as [|k es ks ess R F]; [congruence|]. inversion NE as [|? ? Ne]; subst. destruct es; [congruence|discriminate].
Qed.

Section Cell.
Context {H : heap} {c : cell} {ess : list (list edge)} {N : Z}.
Hypothesis F : cell_fresh H c ess.
Hypothesis NE : Forall (fun es => es <> []) ess.
Hypothesis U : Forall (Forall (fun e => e_npts e = N)) ess.
Local Notation es := (concat ess).
Local Notation smp := (contour_smp (concat ess)).

Lemma ones_of : repeat 1 (Z.to_nat (csize es)) = samples_of es (fun _ => 1).
Proof using F. pose proof (smp_len F) as L. rewrite <- L, Nat2Z.id. unfold samples_of. clear. induction smp as [|s l IH]; [reflexivity|]. cbn [map List.length repeat]. rewrite IH. reflexivity. Qed.
Lemma zeros_of : repeat 0 (Z.to_nat (csize es)) = samples_of es (fun _ => 0).
Proof using F. pose proof (smp_len F) as L. rewrite <- L, Nat2Z.id. unfold samples_of. clear. induction smp as [|s l IH]; [reflexivity|]. cbn [map List.length repeat]. rewrite IH. reflexivity. Qed.
Lemma weighted_uniform : es <> [] -> weighted_samples es = map (fun s => (s, 2 * PI * INR (List.length es) / IZR (csize es) * sw s)) smp.
Proof using F U.
  intros X. assert (U' : Forall (fun e => e_npts e = N) es) by (apply Forall_concat, U). rewrite (step_part U es X (all_well F) U'). unfold weighted_samples, contour_smp. clear X. revert U'. generalize es as l. induction l as [|e l IH]; intros U'; [reflexivity|]. inversion U'; subst. cbn [map concat]. rewrite map_app, IH by assumption. reflexivity.
Qed.
Lemma csamples_ok h p q : tr_vals (lh_psi h) = Some p -> tr_vals (lh_conj h) = Some q -> fitting es p -> fitting es q -> c_nedges c = List.length es -> es <> [] -> csamples h H c = Ok (cauchy_samples es p q).
Proof using F NE U.
  intros Ep Eq Lp Lq EN X. unfold csamples. rewrite Ep, Eq. cbn [attr bind]. rewrite (points_ok F). cbn [bind]. rewrite (npts_cell F). cbn [attr bind]. unfold cell_vectors, cell_weights. rewrite (npts_cell F). cbn [attr bind]. cbv zeta. rewrite ones_of, zeros_of. unfold dot_with_tangent. rewrite !(dot_ok F), (dx_ok F). cbn [bind]. rewrite !(proj2 (Z.eqb_eq _ _)) by assumption. cbn [andb].
  destruct (Z.eqb_spec (csize es) 0) as [Z|Z].
  { exfalso. destruct (cell_nonempty F) as [Y|Y]; [lia|contradiction]. }
  f_equal. unfold cauchy_samples. rewrite (weighted_uniform X), EN. unfold samples_of. generalize smp as l. intros l. generalize (combine p q) as z. rewrite (combine_map (fun s => fst (sx s))), (combine_map (fun s => 1 * fst (sT s) + 0 * snd (sT s))), combine_map.
  induction l as [|s l IH]; intros [|z zs]; try reflexivity. cbn [map combine]. rewrite IH. f_equal. destruct z as [u v]. cbn [fst snd]. f_equal; [destruct (sx s); reflexivity|destruct (sT s); cbn [fst snd]; apply f_equal2; ring|ring].
Qed.
End Cell.

(** ** The logarithms *)
Lemma skipn_nth {A} (l : list A) a x : nth_error l a = Some x -> skipn a l = x :: skipn (S a) l.
Proof. revert a. induction l as [|y l IH]; intros [|a] E; try discriminate; [injection E as ->; reflexivity|]. cbn [skipn]. rewrite (IH a E). reflexivity. Qed.
Lemma geti_inv {A} (l : list A) j x : geti l j = Ok x -> nth_error l j = Some x.
Proof. unfold geti. destruct (nth_error l j); [|discriminate]. intros E. apply Ok_inj in E. subst. reflexivity. Qed.
Lemma log_terms_inv c lc logs : c_holes c = (Z.of_nat (List.length (c_comps c)) - 1)%Z -> log_terms c lc = Ok logs -> exists xs, centers c xs /\ logs = combine xs lc.
Proof.
  unfold log_terms, holes, centers. intros -> E. destruct (c_comps c) as [|k0 ks]; [apply Ok_inj in E; subst; exists []; split; [constructor|reflexivity]|]. cbn [List.length tl] in *. replace (Z.to_nat _) with (List.length ks) in E by lia.
  assert (G : forall n a logs, (n + a = List.length ks)%nat -> map_res (fun k => do comp <- geti (k0 :: ks) (S k); do xi <- attr (k_int comp); do b <- geti lc k; Ok (coord xi, b)) (seq a n) = Ok logs ->
    exists xs, Forall2 (fun k p => exists v, k_int k = Some v /\ coord v = p) (skipn a ks) xs /\ logs = combine xs (skipn a lc)); [|exact (G (List.length ks) 0%nat logs ltac:(lia) E)].
  clear. induction n as [|n IH]; intros a logs L E.
  - apply Ok_inj in E. subst. rewrite skipn_all2 by lia. exists []. split; [constructor|reflexivity].
  - cbn [seq map_res] in E. inv_as E x Ex. inv_as Ex k Ek. inv_as Ex xi Ei. inv_as Ex b Eb. apply Ok_inj in Ex. subst x. inv_as E l El. apply Ok_inj in E. subst logs. destruct (IH (S a) l ltac:(lia) El) as (xs & Fx & ->). apply geti_inv in Ek. cbn [nth_error] in Ek. apply geti_inv in Eb.
    rewrite (skipn_nth ks a k Ek), (skipn_nth lc a b Eb). exists (coord xi :: xs). split; [|reflexivity]. constructor; [|exact Fx]. exists xi. destruct (k_int k); [|discriminate]. apply Ok_inj in Ei. subst. auto.
Qed.
Lemma log_terms_ok c lc xs : c_holes c = (Z.of_nat (List.length (c_comps c)) - 1)%Z -> centers c xs -> List.length lc = Z.to_nat (c_holes c) -> log_terms c lc = Ok (combine xs lc).
Proof.
  unfold log_terms, holes, centers. intros -> C. destruct (c_comps c) as [|k0 ks]; cbn [List.length tl] in *; [inversion C; reflexivity|]. replace (Z.to_nat _) with (List.length ks) by lia. intros Ll.
  assert (G : forall n a xs, (n + a = List.length ks)%nat -> Forall2 (fun k p => exists v, k_int k = Some v /\ coord v = p) (skipn a ks) xs -> map_res (fun k => do comp <- geti (k0 :: ks) (S k); do xi <- attr (k_int comp); do b <- geti lc k; Ok (coord xi, b)) (seq a n) = Ok (combine xs (skipn a lc))); [|exact (G (List.length ks) 0%nat xs ltac:(lia) C)].
  clear -Ll. induction n as [|n IH]; intros a xs L F.
  - rewrite skipn_all2 in F by lia. inversion F. reflexivity.
  - destruct (nth_error ks a) as [k|] eqn:Ek; [|apply nth_error_None in Ek; lia]. destruct (nth_error lc a) as [b|] eqn:Eb; [|apply nth_error_None in Eb; lia]. rewrite (skipn_nth ks a k Ek) in F. inversion F as [|? p ? xs' (v & Ev & <-) F']; subst. cbn [seq map_res]. rewrite (geti_nth (k0 :: ks) (S a) k) by exact Ek. cbn [bind]. rewrite Ev. cbn [attr bind]. rewrite (geti_nth _ _ _ Eb). cbn [bind].
    rewrite (IH (S a) xs' ltac:(lia) F'). cbn [bind]. rewrite (skipn_nth lc a b Eb). reflexivity.
Qed.

(** ** The interior values exist *)
Section Total.
Context {H : heap} {c : cell} {ess : list (list edge)} {N : Z}.
Hypothesis F : cell_fresh H c ess.
Hypothesis NE : Forall (fun es => es <> []) ess.
Hypothesis U : Forall (Forall (fun e => e_npts e = N)) ess.
Local Notation es := (concat ess).
Lemma mk_lpois_interior Ny f g i d xs ys : tame es (Z.to_nat (c_holes c)) Ny -> (exists v, boundary_data es g v) -> centers c xs -> c_int c = Some ys -> c_nedges c = List.length es -> es <> [] ->
  exists u, mk_lpois Ny H c f g i d = Ok u.
Proof using F NE U.
  intros T D Cx Ey EN NN. destruct (mk_lpois_total F Ny f g T D) as (u0 & E0). destruct (mk_lpois_inv F _ _ _ _ _ _ E0) as (P & t & v & h & E1 & E2 & Lv & Eh & EP & Et & Ev & _).
  destruct (mk_lharm_total F Ny v T Lv) as (h' & E2' & Ll). rewrite E2 in E2'. apply Ok_inj in E2'. subst h'. destruct (mk_lharm_good F Ny _ v None None _ (made_carries v None None Lv Logic.I Logic.I) E2) as (n' & w' & p & q & b & dd & _ & Gp & Gq & _).
  destruct (carries_len _ _ _ _ Gp) as (Lp & _). destruct (carries_len _ _ _ _ Gq) as (Lq & _). destruct Gp as (_ & Ep & _). destruct Gq as (_ & Eq & _).
  inv_as Ev a Ea. inv_as Ev b' Eb. unfold mk_lpois. rewrite E1. cbn [bind]. rewrite Et. cbn [bind]. rewrite Ea. cbn [bind]. rewrite Eb. cbn [bind]. rewrite Ev. cbn [bind]. rewrite (trace_arr F) by exact Lv. cbn [bind]. rewrite E2. cbn [bind]. destruct (orb i d); [|eauto].
  unfold interior_values. rewrite Ey. cbn [attr bind]. rewrite (log_terms_ok c _ xs (proj1 (proj2 F)) Cx Ll). cbn [bind]. rewrite (csamples_ok F NE U _ p q Ep Eq Lp Lq EN NN). cbn [bind]. eauto.
Qed.
End Total.
