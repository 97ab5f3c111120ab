(** Differential identities behind antilap.py. *)
From Coq Require Import List ZArith Reals Lia Lra Bool.
From Coquelicot Require Import Coquelicot.
From Verif Require Import PyBase PolyModel PolySpec BaryModel VertModel EdgeModel EdgeSpec ContourModel CellModel CellSpec TraceModel LocalModel LocalSpec LocalProofs5 FftModel FftSpec AntilapModel AntilapSpec.
Import List ListNotations.
Open Scope R_scope.

Lemma d_ext f g x d : (forall t, f t = g t) -> derivable_pt_lim g x d -> derivable_pt_lim f x d.
Proof. intros E D eps P. destruct (D eps P) as (del & X). exists del. intros h A B. rewrite !E. apply X; assumption. Qed.
Lemma d_val f x d d' : derivable_pt_lim f x d -> d = d' -> derivable_pt_lim f x d'.
Proof. intros D <-. exact D. Qed.
Lemma d_plus f g x a b : derivable_pt_lim f x a -> derivable_pt_lim g x b -> derivable_pt_lim (fun t => f t + g t) x (a + b).
Proof. apply derivable_pt_lim_plus. Qed.
Lemma d_minus f g x a b : derivable_pt_lim f x a -> derivable_pt_lim g x b -> derivable_pt_lim (fun t => f t - g t) x (a - b).
Proof. apply derivable_pt_lim_minus. Qed.
Lemma d_mult f g x a b : derivable_pt_lim f x a -> derivable_pt_lim g x b -> derivable_pt_lim (fun t => f t * g t) x (a * g x + f x * b).
Proof. apply derivable_pt_lim_mult. Qed.
Lemma d_scal k f x a : derivable_pt_lim f x a -> derivable_pt_lim (fun t => k * f t) x (k * a).
Proof. apply derivable_pt_lim_scal. Qed.
Lemma d_id x : derivable_pt_lim (fun t => t) x 1.
Proof. apply derivable_pt_lim_id. Qed.
Lemma d_const k x : derivable_pt_lim (fun _ => k) x 0.
Proof. apply derivable_pt_lim_const. Qed.

(** (x1 rho + x2 rho_hat)/4 and the gradient that the code uses *)
Definition four (r s : R -> R -> R) (x y : R) : R := 25 / 100 * (x * r x y + y * s x y).
Definition four1 (r u v : R -> R -> R) (x y : R) : R := 25 / 100 * (r x y + x * u x y + y * v x y).
Definition four2 (s u v : R -> R -> R) (x y : R) : R := 25 / 100 * (s x y + y * u x y - x * v x y).
Lemma four_lap U u v r s : conjugate U u v -> antiderivatives U u v r s -> laplacian U (four r s) (four1 r u v) (four2 s u v) u.
Proof.
  intros (p & q & Gu & Gv) (Gr & Gs). split.
  - intros x y I. destruct (Gr x y I) as [R1 R2]. destruct (Gs x y I) as [S1 S2]. unfold four, four1, four2. split.
    + eapply d_val; [apply d_scal, d_plus; [apply (d_mult (fun t => t)); [apply d_id|exact R1]|apply d_scal; exact S1]|]. cbv beta. ring.
    + eapply d_val; [apply d_scal, d_plus; [apply d_scal; exact R2|apply (d_mult (fun t => t)); [apply d_id|exact S2]]|]. cbv beta. ring.
  - intros x y I. destruct (Gr x y I) as [R1 R2]. destruct (Gs x y I) as [S1 S2]. destruct (Gu x y I) as [U1 U2]. destruct (Gv x y I) as [V1 V2]. unfold four1, four2. eexists _, _. split; [|split].
    + apply d_scal, d_plus; [apply d_plus; [exact R1|apply (d_mult (fun t => t)); [apply d_id|exact U1]]|apply d_scal; exact V1].
    + apply d_scal, d_minus; [apply d_plus; [exact S2|apply (d_mult (fun t => t)); [apply d_id|exact U2]]|apply d_scal; exact V2].
    + cbv beta. field.
Qed.

Definition off (xi : pt) (z : pt) : Prop := z <> xi.
Ltac lnfix x y xi := repeat match goal with |- context [ln ?e] => lazymatch e with ((x - fst xi) ^ 2 + (y - snd xi) ^ 2)%R => fail | _ => replace e with ((x - fst xi) ^ 2 + (y - snd xi) ^ 2) by ring end end.
Ltac opened N := apply not_eq_sym, pt_off in N; unfold m_val, m_x1, m_x2, lam_val, lam_x1, lam_x2, mu, mu_hat, log_y, norm_sq, psub_pt in *; cbn [fst snd] in *.
Ltac deriv := apply is_derive_Reals; auto_derive; [repeat split; lra|].
Lemma m_lap xi b c : laplacian (off xi) (fun x y => m_val xi (x, y) b c) (fun x y => m_x1 xi (x, y) b c) (fun x y => m_x2 xi (x, y) b c) (fun x y => b * mu xi (x, y) - c * mu_hat xi (x, y)).
Proof.
  split.
  { intros x y N. unfold off in N. opened N. split; deriv; lnfix x y xi; field; lra. }
  { intros x y N. unfold off in N. opened N. eexists _, _. split; [deriv; reflexivity|]. split; [deriv; reflexivity|]. lnfix x y xi. field. lra. }
Qed.
Lemma lam_lap xi : laplacian (off xi) (fun x y => lam_val xi (x, y)) (fun x y => lam_x1 xi (x, y)) (fun x y => lam_x2 xi (x, y)) (fun x y => log_y xi (x, y)).
Proof.
  split.
  { intros x y N. unfold off in N. opened N. split; deriv; lnfix x y xi; field; lra. }
  { intros x y N. unfold off in N. opened N. eexists _, _. split; [deriv; reflexivity|]. split; [deriv; reflexivity|]. lnfix x y xi. field. lra. }
Qed.
(** The rational terms are conjugate to each other *)
Lemma rat_conj xi b c : conjugate (off xi) (fun x y => b * mu xi (x, y) - c * mu_hat xi (x, y)) (fun x y => c * mu xi (x, y) + b * mu_hat xi (x, y)).
Proof.
  exists (fun x y => b * (((y - snd xi) ^ 2 - (x - fst xi) ^ 2) / norm_sq (psub_pt (x, y) xi) ^ 2) - c * (2 * (x - fst xi) * (y - snd xi) / norm_sq (psub_pt (x, y) xi) ^ 2)).
  exists (fun x y => - (b * (2 * (x - fst xi) * (y - snd xi) / norm_sq (psub_pt (x, y) xi) ^ 2) + c * (((y - snd xi) ^ 2 - (x - fst xi) ^ 2) / norm_sq (psub_pt (x, y) xi) ^ 2))).
  split; intros x y N; unfold off in N; opened N; split; deriv; field; lra.
Qed.

(** ** Sums *)
Lemma lap_add U f f1 f2 fl g g1 g2 gl : laplacian U f f1 f2 fl -> laplacian U g g1 g2 gl ->
  laplacian U (fun x y => f x y + g x y) (fun x y => f1 x y + g1 x y) (fun x y => f2 x y + g2 x y) (fun x y => fl x y + gl x y).
Proof.
  intros [A B] [C D]. split.
  - intros x y I. split; apply d_plus; (apply A || apply C); exact I.
  - intros x y I. destruct (B x y I) as (a & b & A1 & A2 & A3). destruct (D x y I) as (a' & b' & B1 & B2 & B3). exists (a + a'), (b + b'). split; [apply d_plus; assumption|]. split; [apply d_plus; assumption|]. lra.
Qed.
Lemma lap_scal U k f f1 f2 fl : laplacian U f f1 f2 fl -> laplacian U (fun x y => k * f x y) (fun x y => k * f1 x y) (fun x y => k * f2 x y) (fun x y => k * fl x y).
Proof.
  intros [A B]. split.
  - intros x y I. split; apply d_scal, A, I.
  - intros x y I. destruct (B x y I) as (a & b & A1 & A2 & A3). exists (k * a), (k * b). split; [apply d_scal; assumption|]. split; [apply d_scal; assumption|]. rewrite <- A3. ring.
Qed.
Lemma lap_sub (V U : pt -> Prop) f f1 f2 fl : (forall z, U z -> V z) -> laplacian V f f1 f2 fl -> laplacian U f f1 f2 fl.
Proof. intros S [A B]. split; intros x y I; [apply A|apply B]; apply S, I. Qed.
Lemma lap_ext U f f1 f2 fl g g1 g2 gl : laplacian U f f1 f2 fl -> (forall x y, g x y = f x y) -> (forall x y, g1 x y = f1 x y) -> (forall x y, g2 x y = f2 x y) -> (forall x y, U (x, y) -> gl x y = fl x y) -> laplacian U g g1 g2 gl.
Proof.
  intros [A B] E E1 E2 El. split.
  - intros x y I. destruct (A x y I) as [A1 A2]. split; (eapply d_ext; [intros t; apply E|]); rewrite ?E1, ?E2; assumption.
  - intros x y I. destruct (B x y I) as (a & b & B1 & B2 & B3). exists a, b. split; [eapply d_ext; [intros t; apply E1|exact B1]|]. split; [eapply d_ext; [intros t; apply E2|exact B2]|]. rewrite El by exact I. exact B3.
Qed.
Lemma lap_0 U : laplacian U (fun _ _ => 0) (fun _ _ => 0) (fun _ _ => 0) (fun _ _ => 0).
Proof. split; intros x y I; [split; apply d_const|]. exists 0, 0. split; [apply d_const|]. split; [apply d_const|]. ring. Qed.

(** A hole: centre, residues b and c, logarithmic coefficient a *)
Definition hole : Type := (pt * (R * R) * R)%type.
Definition hsum (f : pt -> R -> R -> R -> R) (hs : list hole) : R := sum_list (map (fun h => f (fst (fst h)) (fst (snd (fst h))) (snd (snd (fst h))) (snd h)) hs).
Definition h_val (z : pt) (hs : list hole) : R := hsum (fun xi b c a => m_val xi z b c + a * lam_val xi z) hs.
Definition h_x1 (z : pt) (hs : list hole) : R := hsum (fun xi b c a => m_x1 xi z b c + a * lam_x1 xi z) hs.
Definition h_x2 (z : pt) (hs : list hole) : R := hsum (fun xi b c a => m_x2 xi z b c + a * lam_x2 xi z) hs.
Definition h_lap (z : pt) (hs : list hole) : R := hsum (fun xi b c a => b * mu xi z - c * mu_hat xi z + a * log_y xi z) hs.
Lemma holes_lap (U : pt -> Prop) hs : (forall z, U z -> Forall (fun h : hole => z <> fst (fst h)) hs) -> laplacian U (fun x y => h_val (x, y) hs) (fun x y => h_x1 (x, y) hs) (fun x y => h_x2 (x, y) hs) (fun x y => h_lap (x, y) hs).
Proof.
  induction hs as [|[[xi [b c]] a] hs IH]; intros A; [apply lap_0|].
  assert (A' : forall z, U z -> off xi z) by (intros z I; specialize (A z I); inversion A; assumption). specialize (IH (fun z I => Forall_inv_tail (A z I))).
  exact (lap_add U _ _ _ _ _ _ _ _ (lap_add U _ _ _ _ _ _ _ _ (lap_sub (off xi) U _ _ _ _ A' (m_lap xi b c)) (lap_scal U a _ _ _ _ (lap_sub (off xi) U _ _ _ _ A' (lam_lap xi)))) IH).
Qed.
Lemma conj_add U u v u' v' : conjugate U u v -> conjugate U u' v' -> conjugate U (fun x y => u x y + u' x y) (fun x y => v x y + v' x y).
Proof.
  intros (p & q & A & B) (p' & q' & A' & B'). exists (fun x y => p x y + p' x y), (fun x y => q x y + q' x y). split; intros x y I.
  - split; apply d_plus; (apply A || apply A'); exact I.
  - split; [eapply d_val; [apply d_plus; [apply B, I|apply B', I]|ring]|apply d_plus; [apply B, I|apply B', I]].
Qed.
Lemma conj_scal U k u v : conjugate U u v -> conjugate U (fun x y => k * u x y) (fun x y => k * v x y).
Proof.
  intros (p & q & A & B). exists (fun x y => k * p x y), (fun x y => k * q x y). split; intros x y I.
  - split; apply d_scal; apply A; exact I.
  - split; [eapply d_val; [apply d_scal, B, I|ring]|apply d_scal; apply B, I].
Qed.
Lemma grad_ext U f f1 f2 g g1 g2 : gradient U f f1 f2 -> (forall x y, g x y = f x y) -> (forall x y, U (x, y) -> g1 x y = f1 x y) -> (forall x y, U (x, y) -> g2 x y = f2 x y) -> gradient U g g1 g2.
Proof. intros A E E1 E2 x y I. destruct (A x y I). rewrite E1, E2 by exact I. split; (eapply d_ext; [intros t; apply E|assumption]). Qed.
Lemma conj_ext U u v u' v' : conjugate U u v -> (forall x y, u' x y = u x y) -> (forall x y, v' x y = v x y) -> conjugate U u' v'.
Proof. intros (p & q & A & B) E F. exists p, q. split; [eapply grad_ext; [exact A|exact E|reflexivity|reflexivity]|eapply grad_ext; [exact B|exact F|reflexivity|reflexivity]]. Qed.
Lemma conj_sub (V U : pt -> Prop) u v : (forall z, U z -> V z) -> conjugate V u v -> conjugate U u v.
Proof. intros S (p & q & A & B). exists p, q. split; intros x y I; [apply A|apply B]; apply S, I. Qed.
Lemma conj_0 U : conjugate U (fun _ _ => 0) (fun _ _ => 0).
Proof. exists (fun _ _ => 0), (fun _ _ => 0). split; intros x y I; [split; apply d_const|split; [eapply d_val; [apply d_const|ring]|apply d_const]]. Qed.
Lemma rat_cons xi bc hs z : rat ((xi, bc) :: hs) z = fst bc * mu xi z - snd bc * mu_hat xi z + rat hs z.
Proof. unfold rat, np_sum. cbn [map fold_right fst snd]. ring. Qed.
Lemma rat_hat_cons xi bc hs z : rat_hat ((xi, bc) :: hs) z = snd bc * mu xi z + fst bc * mu_hat xi z + rat_hat hs z.
Proof. unfold rat_hat, np_sum. cbn [map fold_right fst snd]. ring. Qed.
Lemma rats_conj (U : pt -> Prop) hs : (forall z, U z -> Forall (fun h : pt * (R * R) => z <> fst h) hs) -> conjugate U (fun x y => rat hs (x, y)) (fun x y => rat_hat hs (x, y)).
Proof.
  induction hs as [|[xi [b c]] hs IH]; intros A; [eapply conj_ext; [apply conj_0|intros; unfold rat, np_sum; cbn; ring|intros; unfold rat_hat, np_sum; cbn; ring]|].
  assert (A' : forall z, U z -> off xi z) by (intros z I; specialize (A z I); inversion A; assumption). specialize (IH (fun z I => Forall_inv_tail (A z I))).
  eapply conj_ext; [exact (conj_add U _ _ _ _ (conj_sub (off xi) U _ _ A' (rat_conj xi b c)) IH)| |]; intros x y; [apply rat_cons|apply rat_hat_cons].
Qed.
Lemma h_lap_rat hs lc z : List.length hs = List.length lc -> h_lap z (combine hs lc) = rat hs z + sum_list (map (fun p => snd p * log_y (fst (fst p)) z) (combine hs lc)).
Proof.
  revert lc. induction hs as [|[xi [b c]] hs IH]; intros [|a lc] L; try discriminate; [unfold h_lap, hsum, rat, np_sum; cbn; ring|]. cbn [combine map]. unfold h_lap, hsum. cbn [map]. change (sum_list (?x :: ?l)) with (x + sum_list l). rewrite rat_cons. injection L as L. specialize (IH lc L). unfold h_lap, hsum in IH. change (fold_right Rplus 0) with sum_list. cbn [fst snd] in *. rewrite IH. ring.
Qed.
