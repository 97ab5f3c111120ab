(** C53: local functions split into a polynomial and a harmonic part. *)
From Coq Require Import List ZArith Reals Lia Lra Bool QArith Qreals.
From Verif Require Import PyBase PolyModel PolySpec PolyProofs PolyProofs2 PolyProofs3 PolyProofs4 PolyTransfer PolyProps BaryModel VertModel EdgeModel EdgeSpec EdgeProps4 ContourModel CellModel CellSpec CellProofs CellProps ContourProofs ContourProofs2 ContourProofs3 ContourProps CellProps3 TraceModel TraceSpec TraceProofs IntPolyModel IntPolyProofs LocalModel LocalSpec LocalProofs LocalProofs2 LocalProofs3 LocalProofs4 Annulus DiscCell.
Import List ListNotations.
Open Scope R_scope.

(** The function has the given trace. *)
Theorem C53_trace contains S H c ess f g i d u : ready contains H c -> boundary_edges H c ess -> mk_lpois S H c f g i d = Ok u ->
  exists v, get_trace_values u = Ok v /\ boundary_data (concat ess) g v.
Proof. intros R B E. destruct (ready_uniform _ _ _ _ R B) as (F & _). exact (mk_lpois_trace F S f g i d u E). Qed.
Print Assumptions C53_trace.

(** It is built for all polynomials and all boundary data, whenever the solver answers ... *)
Theorem C53_total contains S H c ess f g : ready contains H c -> boundary_edges H c ess -> tame (concat ess) (Z.to_nat (c_holes c)) S -> (exists v, boundary_data (concat ess) g v) ->
  exists u, mk_lpois S H c f g false false = Ok u.
Proof. intros R B T D. destruct (ready_uniform _ _ _ _ R B) as (F & _). exact (mk_lpois_total F S f g T D). Qed.
Print Assumptions C53_total.
(** ... and numbers and arrays that are no boundary data are refused. *)
Theorem C53_refused contains S H c ess f v i d : ready contains H c -> boundary_edges H c ess -> ~ (exists w, boundary_data (concat ess) (TVal v) w) -> mk_lpois S H c f (TVal v) i d = Err ValueError.
Proof.
  intros R B N. destruct (ready_uniform _ _ _ _ R B) as (F & _). unfold mk_lpois. destruct (mk_lpoly_ok F (panti_laplacian RS f) (panti_canonical _)) as (P & -> & _). cbn [bind].
  assert (E : cell_trace H c v = Err ValueError); [|rewrite E; reflexivity]. destruct v as [k|l|].
  - exfalso. apply N. destruct (trace_scal F k) as (w & _ & L & K). exists w. split; assumption.
  - apply (trace_arr_bad F). intros L. apply N. exists l. split; [exact L|reflexivity].
  - apply (trace_other F).
Qed.
Print Assumptions C53_refused.

(** The polynomial part, its gradient and its boundary data *)
Theorem C53_polynomial contains S H c ess f g i d u : ready contains H c -> boundary_edges H c ess -> mk_lpois S H c f g i d = Ok u ->
  let p := lp_form (u_poly u) in p = panti_laplacian RS f /\
  is_dx (peval RS p) (peval RS (lp_g1 (u_poly u))) /\ is_dy (peval RS p) (peval RS (lp_g2 (u_poly u))) /\
  vals (lp_trace (u_poly u)) = samples_of (concat ess) (at_smp (peval RS p)) /\
  nd (lp_trace (u_poly u)) = samples_of (concat ess) (fun s => (at_smp (peval RS (lp_g1 (u_poly u))) s * fst (sN s) + at_smp (peval RS (lp_g2 (u_poly u))) s * snd (sN s)) * sw s).
Proof.
  intros R B E. destruct (ready_uniform _ _ _ _ R B) as (F & _). destruct (mk_lpois_inv F _ _ _ _ _ _ E) as (P & t & v & h & E1 & _ & _ & _ & <- & _). destruct (mk_lpoly_ok F (panti_laplacian RS f) (panti_canonical _)) as (P' & E1' & F0 & F1 & F2 & _ & G). rewrite E1 in E1'. apply Ok_inj in E1'. subst P'. cbv zeta. rewrite F0, F1, F2.
  split; [reflexivity|]. destruct (C06_grad (panti_laplacian RS f) (panti_canonical _)) as [D1 D2]. split; [exact D1|]. split; [exact D2|]. destruct G as ((_ & V & W & _) & _). unfold vals, nd. rewrite V, W. split; reflexivity.
Qed.
Print Assumptions C53_polynomial.

(** The polynomial part has Laplacian [f] when no quotient that anti_laplacian forms falls below the
    cutoff. *)
Theorem C53_laplacian_partial contains S H c ess f g i d u k : ready contains H c -> boundary_edges H c ess -> mk_lpois S H c f g i d = Ok u -> canonical f -> graded_grid k f ->
  (forall m : rmono, In m f -> let n := (mx (malpha m) + my (malpha m))%nat in tol <= k n * al_unit n) ->
  is_laplacian (peval RS (lp_form (u_poly u))) (peval RS f).
Proof.
  intros R B E C G K. destruct (C53_polynomial _ _ _ _ _ _ _ _ _ _ R B E) as (-> & _). destruct (panti_ok k f C G K) as [C' E']. set (q := panti_laplacian RS f) in *.
  exists (peval RS (pdx RS q)), (peval RS (pdy RS q)), (peval RS (pdx RS (pdx RS q))), (peval RS (pdy RS (pdy RS q))).
  destruct (C06_grad q C') as [D1 D2]. destruct (C06_grad (pdx RS q) (pdx_canonical _ C')) as [D3 _]. destruct (C06_grad (pdy RS q) (pdy_canonical _ C')) as [_ D4]. repeat (split; [assumption|]). intros x y. rewrite !peval_value, <- value_app. apply value_coef_ext. intros a b. rewrite coef_app.
  rewrite !coef_pdx, !coef_pdy by auto using pdx_canonical, pdy_canonical. rewrite <- (t_lap_al_table f a b), <- (t_lap_ext _ _ E' a b). unfold t_lap, t_dx, t_dy. rewrite !coef_pdx, !coef_pdy by assumption. reflexivity.
Qed.
Print Assumptions C53_laplacian_partial.

(** ** Arithmetic *)
(** Sums, differences and multiples of functions on one cell exist, are formed part by part, and
    their trace values are combined sample by sample. *)
Theorem C53_add contains S H c ess u v : ready contains H c -> boundary_edges H c ess -> locfun S H c u -> locfun S H c v ->
  (exists s, u_add u v = Ok s /\ poly2 Rplus (u_poly u) (u_poly v) (u_poly s) /\ harm2 Rplus (u_harm u) (u_harm v) (u_harm s) /\ inner2 Rplus u v s) /\
  (exists s, u_sub u v = Ok s /\ poly2 Rminus (u_poly u) (u_poly v) (u_poly s) /\ harm2 Rminus (u_harm u) (u_harm v) (u_harm s) /\ inner2 Rminus u v s).
Proof.
  intros R B A A'. destruct (ready_uniform _ _ _ _ R B) as (F & _). apply (locfun_good F) in A. apply (locfun_good F) in A'. split.
  - destruct (u_add_good F u v A A') as (s & E & _ & X). eauto.
  - destruct (u_sub_good F u v A A') as (s & E & _ & X). eauto.
Qed.
Print Assumptions C53_add.
Theorem C53_scale contains S H c ess u k : ready contains H c -> boundary_edges H c ess -> locfun S H c u ->
  (exists s, u_mul u (SNum k) = Ok s /\ poly1 (fun x => x * k) (u_poly u) (u_poly s) /\ harm1 (fun x => x * k) (u_harm u) (u_harm s) /\ inner1 (fun x => x * k) u s) /\
  (k <> 0 -> exists s, u_div u (SNum k) = Ok s /\ poly1 (fun x => x / k) (u_poly u) (u_poly s) /\ harm1 (fun x => x / k) (u_harm u) (u_harm s) /\ inner1 (fun x => x / k) u s) /\
  u_div u (SNum 0) = Err ValueError /\ u_mul u SBad = Err TypeError /\ u_div u SBad = Err TypeError.
Proof.
  intros R B A. destruct (ready_uniform _ _ _ _ R B) as (F & _). apply (locfun_good F) in A. split; [|split; [|split; [|split; reflexivity]]].
  - destruct (u_mul_good F u k A) as (s & E & _ & X). eauto.
  - intros K. destruct (u_div_good F u k K A) as (s & E & _ & X). eauto.
  - unfold u_div. destruct (Req_EM_T 0 0); [reflexivity|lra].
Qed.
Print Assumptions C53_scale.

Lemma zip_entry2 f g a b a' b' x y : (forall p q r s, g (f p q) (f r s) = f (g p r) (g q s)) -> entrywise2 f a b x -> entrywise2 f a' b' y -> List.length a = List.length a' -> zip g x y = zip f (zip g a a') (zip g b b').
Proof.
  intros C X Y L. pose proof X as (L1 & L2 & _). pose proof Y as (L3 & L4 & _). apply entry2_eq in X. apply entry2_eq in Y. subst x y. clear L2 L4. revert b a' b' L L1 L3. unfold zip. induction a as [|p a IH]; intros [|q b] [|r a'] [|s b'] L L1 L3; try discriminate; [reflexivity|]. cbn in *. f_equal; [apply C|]. apply IH; lia.
Qed.
Lemma zip_entry1 f a a' x y : (forall p q, f p + f q = f (p + q)) -> entrywise f a x -> entrywise f a' y -> zip Rplus x y = map f (zip Rplus a a').
Proof.
  intros C X Y. apply entry_eq in X. apply entry_eq in Y. subst x y. revert a'. unfold zip. induction a as [|p a IH]; intros [|q a']; try reflexivity. cbn. f_equal; [apply C|apply IH].
Qed.
(** The trace values of the results *)
Theorem C53_trace_values contains S H c ess u v x y : ready contains H c -> boundary_edges H c ess -> locfun S H c u -> locfun S H c v -> get_trace_values u = Ok x -> get_trace_values v = Ok y ->
  List.length x = List.length y /\
  (forall s z, u_add u v = Ok s -> get_trace_values s = Ok z -> entrywise2 Rplus x y z) /\ (forall s z, u_sub u v = Ok s -> get_trace_values s = Ok z -> entrywise2 Rminus x y z) /\
  (forall k s z, u_mul u (SNum k) = Ok s -> get_trace_values s = Ok z -> entrywise (fun t => t * k) x z) /\ (forall k s z, u_div u (SNum k) = Ok s -> get_trace_values s = Ok z -> entrywise (fun t => t / k) x z).
Proof.
  intros Rd B A A' Ex Ey. destruct (ready_uniform _ _ _ _ Rd B) as (F & _). apply (locfun_good F) in A. apply (locfun_good F) in A'.
  destruct (good_trace F u A) as (x' & Ex' & Lx & xh & xp & X1 & X2 & X3 & X4 & ->). rewrite Ex in Ex'. apply Ok_inj in Ex'. subst x. destruct (good_trace F v A') as (y' & Ey' & Ly & yh & yp & Y1 & Y2 & Y3 & Y4 & ->). rewrite Ey in Ey'. apply Ok_inj in Ey'. subst y.
  assert (G2 : forall (f : R -> R -> R) s z, (forall p q r s, f p q + f r s = f (p + r) (q + s)) -> @u_good c ess s -> poly2 f (u_poly u) (u_poly v) (u_poly s) -> harm2 f (u_harm u) (u_harm v) (u_harm s) -> get_trace_values s = Ok z -> entrywise2 f (zip Rplus xh xp) (zip Rplus yh yp) z).
  { intros f s z C Gs (P & _) (Q & _) Ez. destruct (good_trace F s Gs) as (z' & Ez' & Lz & zh & zp & Z1 & Z2 & Z3 & Z4 & ->). rewrite Ez in Ez'. apply Ok_inj in Ez'. subst z. destruct P as ((a & b & e & P1 & P2 & P3 & P4) & _). destruct Q as ((a' & b' & e' & Q1 & Q2 & Q3 & Q4) & _). assert (a = xp) by congruence. assert (b = yp) by congruence. assert (e = zp) by congruence. assert (a' = xh) by congruence. assert (b' = yh) by congruence. assert (e' = zh) by congruence. subst.
    rewrite (zip_entry2 f Rplus xh yh xp yp zh zp C Q4 P4) by (unfold fitting in *; lia). apply zip_entry. unfold fitting in *; lia. }
  assert (G1 : forall (f : R -> R) s z, (forall p q, f p + f q = f (p + q)) -> @u_good c ess s -> poly1 f (u_poly u) (u_poly s) -> harm1 f (u_harm u) (u_harm s) -> get_trace_values s = Ok z -> entrywise f (zip Rplus xh xp) z).
  { intros f s z C Gs (P & _) (Q & _) Ez. destruct (good_trace F s Gs) as (z' & Ez' & Lz & zh & zp & Z1 & Z2 & Z3 & Z4 & ->). rewrite Ez in Ez'. apply Ok_inj in Ez'. subst z. destruct P as ((a & e & P1 & P3 & P4) & _). destruct Q as ((a' & e' & Q1 & Q3 & Q4) & _). assert (a = xp) by congruence. assert (e = zp) by congruence. assert (a' = xh) by congruence. assert (e' = zh) by congruence. subst.
    rewrite (zip_entry1 f xh xp zh zp C Q4 P4). apply map_entry. }
  split; [unfold fitting in *; lia|]. split; [|split; [|split]].
  - intros s z E. destruct (u_add_good F u v A A') as (s' & E' & Gs & P & Q & _). rewrite E in E'. apply Ok_inj in E'. subst s'. apply (G2 Rplus); auto. intros; ring.
  - intros s z E. destruct (u_sub_good F u v A A') as (s' & E' & Gs & P & Q & _). rewrite E in E'. apply Ok_inj in E'. subst s'. apply (G2 Rminus); auto. intros; ring.
  - intros k s z E. destruct (u_mul_good F u k A) as (s' & E' & Gs & P & Q & _). rewrite E in E'. apply Ok_inj in E'. subst s'. apply (G1 (fun t => t * k)); auto. intros; ring.
  - intros k s z E. assert (K : k <> 0) by (intros ->; unfold u_div in E; destruct (Req_EM_T 0 0); [discriminate|lra]). destruct (u_div_good F u k K A) as (s' & E' & Gs & P & Q & _). rewrite E in E'. apply Ok_inj in E'. subst s'. apply (G1 (fun t => t / k)); auto. intros; unfold Rdiv; ring.
Qed.
Print Assumptions C53_trace_values.

(** ** Examples on the disc *)
(** A solver whose answers are zero: for boundary data of the polynomial itself this is right *)
Definition still : nyst := Nyst (fun v => Ok (map (fun _ => 0) v, [])) [] (fun v => Ok (map (fun _ => 0) v)) (fun v _ _ => Ok (map (fun _ => 0) v, map (fun _ => 0) v)).
Lemma still_tame es : tame es 0 still.
Proof.
  assert (M : forall v, fitting es v -> fitting es (map (fun _ => 0) v)) by (intros v L; unfold fitting; rewrite map_length; exact L).
  split; [|split; [|split]]; cbn [still ny_conj ny_wtd ny_anti ny_lam].
  - intros v L. eexists _, _. split; [reflexivity|]. auto.
  - intros v L. eexists. split; [reflexivity|]. auto.
  - intros v w lc L _ _. eexists _, _. split; [reflexivity|]. auto.
  - intros j J. lia.
Qed.
Lemma disc_size e : e_npts e = 9%Z -> csize [e] = 8%Z.
Proof. intros E. unfold csize, open_num. cbn. rewrite E. reflexivity. Qed.
Lemma disc_tame H c e : unit_disc H c e -> tame (concat [[e]]) (Z.to_nat (c_holes c)) still.
Proof. intros (_ & _ & _ & _ & ->). apply still_tame. Qed.
Lemma disc_const H c e k : unit_disc H c e -> exists v, boundary_data (concat [[e]]) (TVal (VScal k)) v.
Proof. intros (_ & _ & N & _). exists (repeat k 8). split; [unfold fitting; cbn [concat app]; rewrite repeat_length, disc_size by exact N; reflexivity|]. apply Forall_forall. intros x I. symmetry. eapply repeat_spec, I. Qed.

Example C53_example : exists H c e u v, unit_disc H c e /\ mk_lpois still H c [rmon 4 0 0] (TVal (VScal 3)) false false = Ok u /\ get_trace_values u = Ok v /\ v = repeat 3 8 /\
  is_laplacian (peval RS (lp_form (u_poly u))) (peval RS [rmon 4 0 0]) /\ exists s, u_sub u u = Ok s.
Proof.
  destruct unit_disc_exists as (H & c & e & D). pose proof D as (R & B & N & _). destruct (C53_total disc still H c [[e]] [rmon 4 0 0] (TVal (VScal 3)) R B (disc_tame _ _ _ D) (disc_const _ _ _ 3 D)) as (u & E). destruct (C53_trace disc _ _ _ _ _ _ _ _ _ R B E) as (v & V & L & K).
  exists H, c, e, u, v. split; [exact D|]. split; [exact E|]. split; [exact V|]. split; [|split].
  - unfold fitting in L. cbn [concat app] in L. rewrite disc_size in L by exact N. assert (L' : List.length v = 8%nat) by lia. rewrite <- L'. clear -K. induction K as [|x l -> K IH]; [reflexivity|]. cbn. f_equal. exact IH.
  - assert (C : canonical [rmon 4 0 0]) by (constructor; [cbn; rewrite Rabs_right by lra; unfold tol; lra|constructor|constructor]).
    apply (C53_laplacian_partial disc still H c [[e]] _ (TVal (VScal 3)) false false u (fun _ => 4)); try assumption.
    + intros m [<-|[]]. exists 1%Z. cbn. ring.
    + intros m [<-|[]]. unfold al_unit, tol. cbn. lra.
  - destruct (C53_add disc still H c [[e]] u u R B (lf_new _ _ _ _ _ _ _ _ E) (lf_new _ _ _ _ _ _ _ _ E)) as (_ & s & Es & _). eauto.
Qed.

Lemma laplacian_unique q g x y : canonical q -> is_laplacian (peval RS q) g -> g x y = peval RS (pdx RS (pdx RS q)) x y + peval RS (pdy RS (pdy RS q)) x y.
Proof.
  intros C (fx & fy & fxx & fyy & D1 & D2 & D3 & D4 & X). destruct (C06_grad q C) as [G1 G2]. destruct (C06_grad (pdx RS q) (pdx_canonical _ C)) as [G3 _]. destruct (C06_grad (pdy RS q) (pdy_canonical _ C)) as [_ G4]. cbn [pgrad fst snd] in *. rewrite X. f_equal.
  - refine (uniqueness_limite _ _ _ _ (D3 x y) _). eapply derivable_pt_lim_ext; [|exact (G3 x y)]. intros t. exact (uniqueness_limite _ _ _ _ (G1 t y) (D1 t y)).
  - refine (uniqueness_limite _ _ _ _ (D4 x y) _). eapply derivable_pt_lim_ext; [|exact (G4 x y)]. intros t. exact (uniqueness_limite _ _ _ _ (G2 x t) (D2 x t)).
Qed.
(** Without the condition on the coefficients the polynomial part need not have Laplacian [f]: for
    x^16 y^6 some terms of the anti-Laplacian are below the cutoff. *)
Theorem C53_laplacian_refuted : exists H c e f u, unit_disc H c e /\ canonical f /\ on_grid 1 f /\ mk_lpois still H c f (TVal (VScal 0)) false false = Ok u /\ ~ is_laplacian (peval RS (lp_form (u_poly u))) (peval RS f).
Proof.
  destruct unit_disc_exists as (H & c & e & D). pose proof D as (Rd & B & N & _). destruct (C53_total disc still H c [[e]] [rmon 1 16 6] (TVal (VScal 0)) Rd B (disc_tame _ _ _ D) (disc_const _ _ _ 0 D)) as (u & E).
  assert (C : canonical [rmon 1 16 6]) by (constructor; [cbn; rewrite Rabs_right by lra; unfold tol; lra|constructor|constructor]).
  exists H, c, e, [rmon 1 16 6], u. split; [exact D|]. split; [exact C|]. split; [intros m [<-|[]]; exists 1%Z; cbn; ring|]. split; [exact E|].
  destruct (C53_polynomial _ _ _ _ _ _ _ _ _ _ Rd B E) as (-> & _). intros L. pose proof (laplacian_unique _ _ 1 1 (panti_canonical [rmon 1 16 6]) L) as X1. clear -X1.
  replace [rmon 1 16 6] with (hp [Mono (S:=QS) (MI 16 6) 1%Q]) in X1 by (cbn; unfold hm, rmon, Q2R; cbn; repeat f_equal; lra).
  rewrite t_panti_laplacian, !t_pdx, !t_pdy in X1. assert (O1 : h 1%Q = 1) by (unfold h, Q2R; cbn; lra). assert (V : forall p, peval RS (hp p) 1 1 = h (peval QS p 1%Q 1%Q)) by (intros p; rewrite t_eval, O1; reflexivity). rewrite !V in X1. rewrite <- Q2R_plus in X1. apply eqR_Qeq in X1.
  assert (F : Qeq_bool (peval QS [Mono (S:=QS) (MI 16 6) 1%Q] 1%Q 1%Q) (peval QS (pdx QS (pdx QS (panti_laplacian QS [Mono (S:=QS) (MI 16 6) 1%Q]))) 1%Q 1%Q + peval QS (pdy QS (pdy QS (panti_laplacian QS [Mono (S:=QS) (MI 16 6) 1%Q]))) 1%Q 1%Q) = false) by (vm_cast_no_check (eq_refl false)).
  apply Qeq_bool_neq in F. exact (F X1).
Qed.
Print Assumptions C53_laplacian_refuted.
