(** Lemmas on the objects of local functions. *)
From Coq Require Import List ZArith Reals Lia Lra Bool.
From Verif Require Import PyBase PolyModel PolySpec PolyProofs PolyProofs2 PolyProofs4 BaryModel VertModel EdgeModel EdgeSpec EdgeProps4 ContourModel CellModel CellSpec CellProofs CellProps ContourProofs ContourProofs2 ContourProofs3 ContourProps CellProps3 TraceModel TraceSpec TraceProofs IntPolyModel IntPolyProofs LocalModel LocalSpec LocalProofs.
Import List ListNotations.
Open Scope R_scope.

Lemma zip_nth f a : forall b i x y, nth_error a i = Some x -> nth_error b i = Some y -> nth_error (zip f a b) i = Some (f x y).
Proof. unfold zip. induction a as [|x0 a IH]; intros [|y0 b] [|i] x y A B; try discriminate; cbn in *; [congruence|apply IH; assumption]. Qed.
Lemma zip_entry f a b : List.length a = List.length b -> entrywise2 f a b (zip f a b).
Proof. intros L. split; [congruence|]. split; [apply zip_len, L|]. intros i x y. apply zip_nth. Qed.
Lemma map_entry f a : entrywise f a (map f a).
Proof. split; [apply map_length|]. intros i x E. rewrite nth_error_map, E. reflexivity. Qed.
Lemma zip_opp a : forall b, List.length a = List.length b -> zip Rplus a (map (fun x => x * -1) b) = zip Rminus a b.
Proof. unfold zip. induction a as [|x a IH]; intros [|y b] L; try discriminate; [reflexivity|]. cbn. f_equal; [ring|]. apply IH. cbn in L. lia. Qed.
Lemma sum_zip_l f g a : forall b v, List.length a = List.length b -> (forall x y z, g (f x y) z = g x z + g y z) -> sum_list (zip_with g (zip f a b) v) = sum_list (zip_with g a v) + sum_list (zip_with g b v).
Proof.
  unfold zip, zip_with. induction a as [|x a IH]; intros [|y b] [|z v] L D; try discriminate; cbn; try ring. change (fold_right Rplus 0 ?l) with (sum_list l). cbn in L. rewrite D, IH by (lia || assumption). ring.
Qed.

Definition oz (f : R -> R -> R) (a b : option (list R)) : option (list R) := match a, b with Some a, Some b => Some (zip f a b) | _, _ => None end.
Tactic Notation "inv_as" ident(H) ident(a) ident(E) := apply bind_ok in H; destruct H as [a [E H]].

Section Cell.
Context {H : heap} {c : cell} {ess : list (list edge)} {N : Z}.
Hypothesis F : cell_fresh H c ess.
Local Notation es := (concat ess).
Local Notation carries := (@carries ess).

Lemma fit_len (u v : list R) : fitting es u -> fitting es v -> List.length u = List.length v.
Proof. unfold fitting. lia. Qed.
Lemma fit_zip f u v : fitting es u -> fitting es v -> fitting es (zip f u v).
Proof. intros A B. unfold fitting. rewrite zip_len by (apply fit_len; assumption). exact A. Qed.
Lemma fit_map f u : fitting es u -> fitting es (map f u).
Proof. unfold fitting. rewrite map_length. auto. Qed.

Lemma add_carries s o a b n m w x : carries s a n w -> carries o b m x -> exists t, tr_add s o = Ok t /\ carries t (zip Rplus a b) (ozip n m) (ozip w x).
Proof using F.
  intros C D. pose proof (carries_len _ _ _ _ C) as (L1 & L2 & L3). pose proof (carries_len _ _ _ _ D) as (M1 & M2 & M3). destruct C as (B & Ev & En & Ew). destruct D as (B' & Ev' & En' & Ew').
  rewrite (tr_add_closed es es s o a b) by (auto; apply (all_sampleable F)). eexists. split; [reflexivity|]. rewrite En, En', Ew, Ew'. apply made_carries; [apply fit_zip; assumption| |].
  - destruct n, m; cbn in *; auto. rewrite zip_len; [exact L2|]. lia.
  - destruct w, x; cbn in *; auto. rewrite zip_len; [exact L3|]. lia.
Qed.
Lemma map_carries f s a n w : carries s a n w -> exists t, tr_map f s = Ok t /\ carries t (map f a) (option_map (map f) n) (option_map (map f) w).
Proof using F.
  intros C. pose proof (carries_len _ _ _ _ C) as (L1 & L2 & L3). destruct C as (B & Ev & En & Ew). rewrite (tr_map_closed es f s a) by (auto; apply (all_sampleable F)). eexists. split; [reflexivity|]. rewrite En, Ew. apply made_carries; [apply fit_map; assumption| |].
  - apply sized_map, L2.
  - apply sized_map, L3.
Qed.
Lemma sub_carries s o a b n m w x : carries s a n w -> carries o b m x -> exists t, tr_sub s o = Ok t /\ carries t (zip Rminus a b) (oz Rminus n m) (oz Rminus w x).
Proof using F.
  intros C D. pose proof (carries_len _ _ _ _ C) as (L1 & L2 & L3). pose proof (carries_len _ _ _ _ D) as (M1 & M2 & M3). unfold tr_sub, tr_mul. destruct (map_carries (fun y => y * -1) _ _ _ _ D) as (t & -> & D'). cbn [bind]. destruct (add_carries _ _ _ _ _ _ _ _ C D') as (t' & -> & E). exists t'. split; [reflexivity|].
  rewrite zip_opp in E by (apply fit_len; assumption). replace (oz Rminus n m) with (ozip n (option_map (map (fun y => y * -1)) m)); [replace (oz Rminus w x) with (ozip w (option_map (map (fun y => y * -1)) x)); [exact E|]|].
  - destruct w, x; cbn in *; auto. rewrite zip_opp by lia. reflexivity.
  - destruct n, m; cbn in *; auto. rewrite zip_opp by lia. reflexivity.
Qed.

Lemma add_combines f s o t a b n m w x : carries s a n w -> carries o b m x -> carries t (zip f a b) (oz f n m) (oz f w x) -> combines2 f s o t.
Proof using.
  intros C D E. pose proof (carries_len _ _ _ _ C) as (L1 & L2 & L3). pose proof (carries_len _ _ _ _ D) as (M1 & M2 & M3). destruct C as (_ & Ev & En & Ew). destruct D as (_ & Ev' & En' & Ew'). destruct E as (_ & Fv & Fn & Fw).
  split; [|split].
  - exists a, b, (zip f a b). split; [exact Ev|]. split; [exact Ev'|]. split; [exact Fv|]. apply zip_entry, fit_len; assumption.
  - rewrite En, En', Fn. destruct n, m; cbn in *; auto. apply zip_entry. lia.
  - rewrite Ew, Ew', Fw. destruct w, x; cbn in *; auto. apply zip_entry. lia.
Qed.
Lemma map_combines f s t a n w : carries s a n w -> carries t (map f a) (option_map (map f) n) (option_map (map f) w) -> combines f s t.
Proof using.
  intros (_ & Ev & En & Ew) (_ & Fv & Fn & Fw). split; [|split].
  - exists a, (map f a). split; [exact Ev|]. split; [exact Fv|]. apply map_entry.
  - rewrite En, Fn. destruct n; cbn; auto. apply map_entry.
  - rewrite Ew, Fw. destruct w; cbn; auto. apply map_entry.
Qed.

(** ** Polynomials *)
Definition lp_good (p : lpoly) (v n w q m : list R) : Prop :=
  carries (lp_trace p) v (Some n) (Some w) /\ carries (lp_atrace p) q (Some m) None /\
  canonical (lp_form p) /\ canonical (lp_g1 p) /\ canonical (lp_g2 p) /\ canonical (lp_anti p).
Lemma mk_lpoly_ok p : canonical p -> exists P, mk_lpoly p H c = Ok P /\ lp_form P = p /\ lp_g1 P = pdx RS p /\ lp_g2 P = pdy RS p /\ lp_anti P = panti_laplacian RS p /\
  lp_good P (samples_of es (at_smp (peval RS p))) (samples_of es (weighted_deriv p sN)) (samples_of es (weighted_deriv p sT))
    (samples_of es (at_smp (peval RS (panti_laplacian RS p)))) (samples_of es (weighted_deriv (panti_laplacian RS p) sN)).
Proof using F.
  intros C. unfold mk_lpoly. rewrite (points_ok F). cbn [bind]. rewrite !on_points_ok, !(trace_arr F) by apply (samples_fit F). cbn [bind pgrad].
  change dot_with_normal with (dot_with sN). change dot_with_tangent with (dot_with sT). rewrite !(deriv_ok F). cbn [bind].
  destruct (set_wnd_ok F (made es (samples_of es (at_smp (peval RS p))) None None) _ _ _ (samples_of es (weighted_deriv p sN)) (made_carries _ None None (samples_fit F _) Logic.I Logic.I) (samples_fit F _)) as (t1 & -> & C1). cbn [bind].
  destruct (set_wtd_ok F t1 _ _ _ (samples_of es (weighted_deriv p sT)) C1 (samples_fit F _)) as (t2 & -> & C2). cbn [bind].
  destruct (set_wnd_ok F (made es (samples_of es (at_smp (peval RS (panti_laplacian RS p)))) None None) _ _ _ (samples_of es (weighted_deriv (panti_laplacian RS p) sN)) (made_carries _ None None (samples_fit F _) Logic.I Logic.I) (samples_fit F _)) as (t3 & -> & C3). cbn [bind].
  eexists. split; [reflexivity|]. cbn [lp_form lp_g1 lp_g2 lp_anti lp_trace lp_atrace]. repeat (split; [reflexivity|]). repeat split; cbn [lp_form lp_g1 lp_g2 lp_anti lp_trace lp_atrace]; try apply C2; try apply C3; auto using pdx_canonical, pdy_canonical, panti_canonical.
Qed.
Lemma lp_add_good a b v n w q m v' n' w' q' m' : lp_good a v n w q m -> lp_good b v' n' w' q' m' ->
  exists r, lp_add a b = Ok r /\ lp_good r (zip Rplus v v') (zip Rplus n n') (zip Rplus w w') (zip Rplus q q') (zip Rplus m m') /\ poly2 Rplus a b r.
Proof using F.
  intros (A1 & A2 & A3 & A4 & A5 & A6) (B1 & B2 & B3 & B4 & B5 & B6). unfold lp_add. destruct (add_carries _ _ _ _ _ _ _ _ A1 B1) as (t & -> & C1). cbn [bind]. destruct (add_carries _ _ _ _ _ _ _ _ A2 B2) as (s & -> & C2). cbn [bind]. eexists. split; [reflexivity|].
  split; [repeat split; cbn [lp_form lp_g1 lp_g2 lp_anti lp_trace lp_atrace]; try apply C1; try apply C2; apply padd_canonical|].
  split; [exact (add_combines Rplus _ _ _ _ _ _ _ _ _ A1 B1 C1)|]. split; [exact (add_combines Rplus _ _ _ _ _ _ _ _ _ A2 B2 C2)|]. repeat split; intros i j; cbn [lp_form lp_g1 lp_g2 lp_anti]; apply coef_padd; assumption.
Qed.
Lemma lp_sub_good a b v n w q m v' n' w' q' m' : lp_good a v n w q m -> lp_good b v' n' w' q' m' ->
  exists r, lp_sub a b = Ok r /\ lp_good r (zip Rminus v v') (zip Rminus n n') (zip Rminus w w') (zip Rminus q q') (zip Rminus m m') /\ poly2 Rminus a b r.
Proof using F.
  intros (A1 & A2 & A3 & A4 & A5 & A6) (B1 & B2 & B3 & B4 & B5 & B6). unfold lp_sub. destruct (sub_carries _ _ _ _ _ _ _ _ A1 B1) as (t & -> & C1). cbn [bind]. destruct (sub_carries _ _ _ _ _ _ _ _ A2 B2) as (s & -> & C2). cbn [bind]. eexists. split; [reflexivity|].
  split; [repeat split; cbn [lp_form lp_g1 lp_g2 lp_anti lp_trace lp_atrace]; try apply C1; try apply C2; apply padd_canonical|].
  split; [exact (add_combines Rminus _ _ _ _ _ _ _ _ _ A1 B1 C1)|]. split; [exact (add_combines Rminus _ _ _ _ _ _ _ _ _ A2 B2 C2)|]. repeat split; intros i j; cbn [lp_form lp_g1 lp_g2 lp_anti]; apply coef_psub; assumption.
Qed.
Lemma lp_mul_good a k v n w q m : lp_good a v n w q m -> let f := fun x => x * k in
  exists r, lp_mul a (SNum k) = Ok r /\ lp_good r (map f v) (map f n) (map f w) (map f q) (map f m) /\ poly1 f a r.
Proof using F.
  intros (A1 & A2 & A3 & A4 & A5 & A6) f. unfold lp_mul, tr_mul. fold f. destruct (map_carries f _ _ _ _ A1) as (t & -> & C1). cbn [bind]. destruct (map_carries f _ _ _ _ A2) as (s & -> & C2). cbn [bind]. eexists. split; [reflexivity|].
  split; [repeat split; cbn [lp_form lp_g1 lp_g2 lp_anti lp_trace lp_atrace]; try apply C1; try apply C2; apply pscale_canonical; assumption|].
  split; [exact (map_combines f _ _ _ _ _ A1 C1)|]. split; [exact (map_combines f _ _ _ _ _ A2 C2)|]. repeat split; intros i j; cbn [lp_form lp_g1 lp_g2 lp_anti]; apply coef_pscale; assumption.
Qed.
Lemma lp_div_good a k v n w q m : k <> 0 -> lp_good a v n w q m -> let f := fun x => x / k in
  exists r, lp_div a (SNum k) = Ok r /\ lp_good r (map f v) (map f n) (map f w) (map f q) (map f m) /\ poly1 f a r.
Proof using F.
  intros K (A1 & A2 & A3 & A4 & A5 & A6) f. unfold lp_div, tr_div, pdiv_scal. destruct (Req_EM_T k 0); [contradiction|]. cbn [bind]. fold f. destruct (map_carries f _ _ _ _ A1) as (t & -> & C1). cbn [bind]. destruct (map_carries f _ _ _ _ A2) as (s & -> & C2). cbn [bind]. eexists. split; [reflexivity|].
  split; [repeat split; cbn [lp_form lp_g1 lp_g2 lp_anti lp_trace lp_atrace]; try apply C1; try apply C2; apply pscale_canonical; assumption|].
  split; [exact (map_combines f _ _ _ _ _ A1 C1)|]. split; [exact (map_combines f _ _ _ _ _ A2 C2)|].
  assert (G : forall p, canonical p -> coefs1 f p (pscale RS p (sdiv RS (sone RS) k))) by (intros p Cp i j; rewrite coef_pscale by exact Cp; unfold f; cbn; f_equal; unfold Rdiv; ring).
  repeat split; cbn [lp_form lp_g1 lp_g2 lp_anti]; apply G; assumption.
Qed.

(** ** Harmonic functions *)
Definition lh_good (h : lharm) (v n w p q b d : list R) : Prop :=
  carries (lh_trace h) v (Some n) (Some w) /\ carries (lh_psi h) p None None /\ carries (lh_conj h) q None None /\ carries (lh_bi h) b (Some d) None.
Lemma mk_lharm_good S t v n w h : carries t v n w -> mk_lharm S H c t = Ok h -> exists n' w' p q b d, lh_good h v n' w' p q b d.
Proof using F.
  intros C E. unfold mk_lharm in E. pose proof C as (_ & Ev & _). rewrite Ev in E. cbn [attr bind] in E.
  inv_as E d1 E1. inv_as E t1 E2. apply (set_wtd_inv F _ _ _ _ _ _ C) in E2. destruct E2 as [L1 C1].
  inv_as E cl E3. destruct cl as [ct lc]. unfold harm_conj in E3. inv_as E3 cv E4. destruct cv as [cv lc']. inv_as E3 ct' E5. apply (trace_arr_inv F) in E5. destruct E5 as [L3 ->]. apply Ok_inj in E3. injection E3 as -> ->.
  inv_as E psi E6. unfold conjugable in E6. inv_as E6 k E7. inv_as E6 lam E8. inv_as E6 pv E9. apply (trace_arr_inv F) in E6. destruct E6 as [L4 ->]. cbn [tr_vals made attr bind] in E.
  inv_as E d2 E10. inv_as E t2 E11. apply (set_wnd_inv F _ _ _ _ _ _ C1) in E11. destruct E11 as [L5 C5].
  inv_as E bi E12. unfold biharm in E12. inv_as E12 bb E13. destruct bb as [bv bd]. inv_as E12 bt E14. apply (trace_arr_inv F) in E14. destruct E14 as [L6 ->]. apply (set_wnd_inv F _ bv None None _ _ (made_carries _ None None L6 Logic.I Logic.I)) in E12. destruct E12 as [L7 C7].
  apply Ok_inj in E. subst h. do 6 eexists. split; [exact C5|]. split; [apply made_carries; [exact L4|exact Logic.I|exact Logic.I]|]. split; [apply made_carries; [exact L3|exact Logic.I|exact Logic.I]|]. exact C7.
Qed.
Lemma log_nth f a : forall b j x, nth_error (zip f a b) j = Some x <-> exists y z, nth_error a j = Some y /\ nth_error b j = Some z /\ x = f y z.
Proof using. clear. unfold zip. induction a as [|y0 a IH]; intros [|z0 b] [|j] x; cbn; split; try discriminate; try (intros (y & z & A & B & _); discriminate); try (intros (y & z & A & B & ->); congruence); try (intros E; injection E as <-; eauto); try apply IH. Qed.
Lemma lh_add_good a b v n w p q s d v' n' w' p' q' s' d' : lh_good a v n w p q s d -> lh_good b v' n' w' p' q' s' d' ->
  exists r, lh_add a b = Ok r /\ lh_good r (zip Rplus v v') (zip Rplus n n') (zip Rplus w w') (zip Rplus p p') (zip Rplus q q') (zip Rplus s s') (zip Rplus d d') /\ harm2 Rplus a b r.
Proof using F.
  intros (A1 & A2 & A3 & A4) (B1 & B2 & B3 & B4). unfold lh_add. destruct (add_carries _ _ _ _ _ _ _ _ A1 B1) as (t1 & -> & C1). cbn [bind]. destruct (add_carries _ _ _ _ _ _ _ _ A2 B2) as (t2 & -> & C2). cbn [bind]. destruct (add_carries _ _ _ _ _ _ _ _ A3 B3) as (t3 & -> & C3). cbn [bind]. destruct (add_carries _ _ _ _ _ _ _ _ A4 B4) as (t4 & -> & C4). cbn [bind]. eexists. split; [reflexivity|].
  split; [repeat split; try apply C1; try apply C2; try apply C3; apply C4|]. split; [exact (add_combines Rplus _ _ _ _ _ _ _ _ _ A1 B1 C1)|]. split; [exact (add_combines Rplus _ _ _ _ _ _ _ _ _ A2 B2 C2)|]. split; [exact (add_combines Rplus _ _ _ _ _ _ _ _ _ A3 B3 C3)|]. split; [exact (add_combines Rplus _ _ _ _ _ _ _ _ _ A4 B4 C4)|]. apply log_nth.
Qed.
Lemma lh_mul_good a k v n w p q s d : lh_good a v n w p q s d -> let f := fun x => x * k in
  exists r, lh_mul a (SNum k) = Ok r /\ lh_good r (map f v) (map f n) (map f w) (map f p) (map f q) (map f s) (map f d) /\ harm1 f a r.
Proof using F.
  intros (A1 & A2 & A3 & A4) f. unfold lh_mul, tr_mul. fold f. destruct (map_carries f _ _ _ _ A1) as (t1 & -> & C1). cbn [bind]. destruct (map_carries f _ _ _ _ A2) as (t2 & -> & C2). cbn [bind]. destruct (map_carries f _ _ _ _ A3) as (t3 & -> & C3). cbn [bind]. destruct (map_carries f _ _ _ _ A4) as (t4 & -> & C4). cbn [bind]. eexists. split; [reflexivity|].
  split; [repeat split; try apply C1; try apply C2; try apply C3; apply C4|]. split; [exact (map_combines f _ _ _ _ _ A1 C1)|]. split; [exact (map_combines f _ _ _ _ _ A2 C2)|]. split; [exact (map_combines f _ _ _ _ _ A3 C3)|]. split; [exact (map_combines f _ _ _ _ _ A4 C4)|]. apply map_entry.
Qed.
Lemma lh_div_good a k v n w p q s d : k <> 0 -> lh_good a v n w p q s d -> let f := fun x => x / k in
  exists r, lh_div a (SNum k) = Ok r /\ lh_good r (map f v) (map f n) (map f w) (map f p) (map f q) (map f s) (map f d) /\ harm1 f a r.
Proof using F.
  intros K (A1 & A2 & A3 & A4) f. unfold lh_div, tr_div. destruct (Req_EM_T k 0); [contradiction|]. fold f. destruct (map_carries f _ _ _ _ A1) as (t1 & -> & C1). cbn [bind]. destruct (map_carries f _ _ _ _ A2) as (t2 & -> & C2). cbn [bind]. destruct (map_carries f _ _ _ _ A3) as (t3 & -> & C3). cbn [bind]. destruct (map_carries f _ _ _ _ A4) as (t4 & -> & C4). cbn [bind]. eexists. split; [reflexivity|].
  split; [repeat split; try apply C1; try apply C2; try apply C3; apply C4|]. split; [exact (map_combines f _ _ _ _ _ A1 C1)|]. split; [exact (map_combines f _ _ _ _ _ A2 C2)|]. split; [exact (map_combines f _ _ _ _ _ A3 C3)|]. split; [exact (map_combines f _ _ _ _ _ A4 C4)|]. apply map_entry.
Qed.

(** ** Local functions *)
Definition int_good (o : option (list R)) : Prop := match o with None => True | Some l => exists ys, c_int c = Some ys /\ List.length l = List.length ys end.
Definition u_good (u : lpois) : Prop :=
  (exists v n w q m, lp_good (u_poly u) v n w q m) /\ (exists v n w p q b d, lh_good (u_harm u) v n w p q b d) /\
  int_good (u_vals u) /\ int_good (u_g1 u) /\ int_good (u_g2 u).
Lemma opt_add_ok a b : int_good a -> int_good b -> exists r, opt_add a b = Ok r /\ int_good r /\ kept2 Rplus a b r.
Proof using.
  intros A B. destruct a as [a|], b as [b|]; cbn [opt_add]; try (exists None; repeat split; fail). destruct A as (ys & E & La). destruct B as (ys' & E' & Lb). rewrite E in E'. injection E' as <-. rewrite np_add_zip by congruence. cbn [bind]. eexists. split; [reflexivity|]. split; [exists ys; split; [exact E|rewrite zip_len by congruence; exact La]|]. apply zip_entry. congruence.
Qed.
Lemma u_add_good a b : u_good a -> u_good b -> exists r, u_add a b = Ok r /\ u_good r /\ poly2 Rplus (u_poly a) (u_poly b) (u_poly r) /\ harm2 Rplus (u_harm a) (u_harm b) (u_harm r) /\ inner2 Rplus a b r.
Proof using F.
  intros ((v & n & w & q & m & A1) & (hv & hn & hw & hp & hq & hb & hd & A2) & A3 & A4 & A5) ((v' & n' & w' & q' & m' & B1) & (hv' & hn' & hw' & hp' & hq' & hb' & hd' & B2) & B3 & B4 & B5).
  unfold u_add. destruct (lp_add_good _ _ _ _ _ _ _ _ _ _ _ _ A1 B1) as (p & -> & G1 & S1). cbn [bind]. destruct (lh_add_good _ _ _ _ _ _ _ _ _ _ _ _ _ _ _ _ A2 B2) as (h & -> & G2 & S2). cbn [bind].
  destruct (opt_add_ok _ _ A3 B3) as (r3 & -> & G3 & S3). destruct (opt_add_ok _ _ A4 B4) as (r4 & -> & G4 & S4). destruct (opt_add_ok _ _ A5 B5) as (r5 & -> & G5 & S5). cbn [bind]. eexists. split; [reflexivity|]. split; [split; [repeat eexists; apply G1|split; [repeat eexists; apply G2|cbn; auto]]|]. split; [exact S1|]. split; [exact S2|]. split; [exact S3|]. split; [exact S4|exact S5].
Qed.
Lemma int_map f o : int_good o -> int_good (option_map (map f) o) /\ kept f o (option_map (map f) o).
Proof using. destruct o as [l|]; cbn; [|auto]. intros (ys & E & L). split; [exists ys; rewrite map_length; auto|apply map_entry]. Qed.
Lemma u_mul_good a k : u_good a -> exists r, u_mul a (SNum k) = Ok r /\ u_good r /\ poly1 (fun x => x * k) (u_poly a) (u_poly r) /\ harm1 (fun x => x * k) (u_harm a) (u_harm r) /\ inner1 (fun x => x * k) a r.
Proof using F.
  intros ((v & n & w & q & m & A1) & (hv & hn & hw & hp & hq & hb & hd & A2) & A3 & A4 & A5). unfold u_mul.
  destruct (lp_mul_good _ k _ _ _ _ _ A1) as (p & -> & G1 & S1). cbn [bind]. destruct (lh_mul_good _ k _ _ _ _ _ _ _ A2) as (h & -> & G2 & S2). cbn [bind]. cbv zeta. eexists. split; [reflexivity|].
  destruct (int_map (fun x => x * k) _ A3). destruct (int_map (fun x => x * k) _ A4). destruct (int_map (fun x => x * k) _ A5). split; [split; [repeat eexists; apply G1|split; [repeat eexists; apply G2|cbn; auto]]|]. split; [exact S1|]. split; [exact S2|]. repeat split; assumption.
Qed.
End Cell.
