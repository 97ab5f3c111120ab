(** The edge library: C22 (derivatives), C23 (endpoints), C24 (regularity). *)
From Coq Require Import List ZArith Reals Lia Lra String.
From Coquelicot Require Import Coquelicot.
From Verif Require Import PyBase BaryModel CurveModel CurveSpec.
Import ListNotations.
Open Scope R_scope.

(** ** C22 *)

(** scipy's splev with der=1 and der=2 returns derivatives of splev with der=0: assumed. *)
Definition spline_ok (c : curve) : Prop :=
  match c with Spline s s1 s2 => forall u, pt_derive s u (s1 u) /\ pt_derive s1 u (s2 u) | _ => True end.

Lemma derive_lin (f : R -> R) a u d : is_derive f (a * u) d -> is_derive (fun t => f (a * t)) u (a * d).
Proof.
  intros H. apply (is_derive_comp f (fun t => a * t) u d a); [exact H|]. auto_derive; [trivial|ring].
Qed.

(** DX and DDX succeed whenever X does, and are its first and second derivative everywhere. *)
Theorem C22_derivatives c o X : spline_ok c -> cX c o = Ok X ->
  exists DX DDX, cDX c o = Ok DX /\ cDDX c o = Ok DDX /\
    forall t, pt_derive X t (DX t) /\ pt_derive DX t (DDX t).
Proof.
  intros Hs H. pose proof PI_RGT_0 as HP. destruct c; cbn [cX cDX cDDX] in *.
  - injection H as <-. do 2 eexists. split; [reflexivity|]. split; [reflexivity|]. intros t. unfold pt_derive; cbn [fst snd].
    split; split; (auto_derive; [trivial|ring]).
  - destruct (kw o "a") as [a|]; [|discriminate]. cbn [bind] in *. injection H as <-. do 2 eexists. split; [reflexivity|]. split; [reflexivity|].
    intros t. unfold pt_derive; cbv zeta; cbn [fst snd]. split; split; (auto_derive; [trivial|]); cbn [pred INR]; field; lra.
  - injection H as <-. do 2 eexists. split; [reflexivity|]. split; [reflexivity|]. intros t. unfold pt_derive; cbn [fst snd].
    split; split; (auto_derive; [trivial|ring]).
  - destruct (arc_unpack o) as [[[[h r] t0] omega]|]; [|discriminate]. cbn [bind] in *. injection H as <-. do 2 eexists. split; [reflexivity|]. split; [reflexivity|].
    intros t. unfold pt_derive; cbv zeta; cbn [fst snd]. split; split; (auto_derive; [trivial|ring]).
  - destruct (deg_unpack o) as [omega|]; [|discriminate]. cbn [bind] in *. injection H as <-. do 2 eexists. split; [reflexivity|]. split; [reflexivity|].
    intros t. unfold pt_derive; cbn [fst snd]. split; split; (auto_derive; [trivial|ring]).
  - destruct (kw o "a") as [a|]; [|discriminate]. destruct (kw o "b") as [b|]; [|discriminate]. cbn [bind] in *. injection H as <-. do 2 eexists. split; [reflexivity|]. split; [reflexivity|].
    intros t. unfold pt_derive; cbn [fst snd]. split; split; (auto_derive; [trivial|ring]).
  - injection H as <-. do 2 eexists. split; [reflexivity|]. split; [reflexivity|]. intros t. unfold pt_derive; cbn [fst snd].
    split; split; (auto_derive; [trivial|field; lra]).
  - destruct (sine_unpack o) as [[a w]|]; [|discriminate]. cbn [bind] in *. injection H as <-. do 2 eexists. split; [reflexivity|]. split; [reflexivity|].
    intros t. unfold pt_derive; cbn [fst snd]. split; split; (auto_derive; [trivial|]); try change (w * t * / 2) with (w * t / 2); field; lra.
  - destruct (tear_unpack o) as [b|]; [|discriminate]. cbn [bind] in *. injection H as <-. do 2 eexists. split; [reflexivity|]. split; [reflexivity|].
    intros t. unfold pt_derive; cbn [fst snd]. split; split; (auto_derive; [trivial|]); try change (t * / 2) with (t / 2); field.
  - injection H as <-. do 2 eexists. split; [reflexivity|]. split; [reflexivity|]. intros t. unfold pt_derive in *; cbn [fst snd].
    cbn [spline_ok] in Hs. destruct (Hs (1 / 2 / PI * t)) as [[A B] [C D]].
    split; split.
    + apply (derive_lin (fun u => fst (s u))), A.
    + apply (derive_lin (fun u => snd (s u))), B.
    + replace (1 / 4 / PI / PI * fst (s2 (1 / 2 / PI * t))) with (1 / 2 / PI * (1 / 2 / PI * fst (s2 (1 / 2 / PI * t)))) by (field; lra).
      apply (is_derive_scal (fun x => fst (s1 (1 / 2 / PI * x)))). apply (derive_lin (fun u => fst (s1 u))), C.
    + replace (1 / 4 / PI / PI * snd (s2 (1 / 2 / PI * t))) with (1 / 2 / PI * (1 / 2 / PI * snd (s2 (1 / 2 / PI * t)))) by (field; lra).
      apply (is_derive_scal (fun x => snd (s1 (1 / 2 / PI * x)))). apply (derive_lin (fun u => snd (s1 u))), D.
Qed.
Print Assumptions C22_derivatives.

Example C22_example : exists X, cX Cartioid [("a"%string, 3)] = Ok X /\ X PI = (-1, 0).
Proof. eexists. split; [reflexivity|]. cbn [fst snd]. replace (1 - PI / PI) with 0 by (field; apply PI_neq0). rewrite cos_PI, sin_PI. f_equal; ring. Qed.
Example C22_example_spline : spline_ok (Spline (fun u => (u, u * u)) (fun u => (1, 2 * u)) (fun u => (0, 2))).
Proof. intros u. unfold pt_derive. cbn [fst snd]. split; split; (auto_derive; [trivial|ring]). Qed.

(** ** C23 *)

Lemma cos2PI : cos (2 * PI) = 1. Proof. apply cos_2PI. Qed.
Lemma sin2PI : sin (2 * PI) = 0. Proof. apply sin_2PI. Qed.

Lemma arc_facts h : let r := sqrt (1 / 4 + h ^ 2) in let t0 := asin (h / r) in
  0 < r /\ r * cos t0 = 1 / 2 /\ r * sin t0 = h /\ - PI / 2 < t0 < PI / 2.
Proof.
  intros r t0. assert (P : 0 < 1 / 4 + h ^ 2) by nra. assert (Hr : 0 < r) by (apply sqrt_lt_R0; exact P).
  assert (Q : r * r = 1 / 4 + h ^ 2) by (apply sqrt_sqrt; lra).
  assert (B : -1 < h / r < 1).
  { split; apply Rmult_lt_reg_r with r; try assumption; unfold Rdiv; rewrite Rmult_assoc, Rinv_l, Rmult_1_r by lra; nra. }
  split; [exact Hr|]. unfold t0. rewrite cos_asin, sin_asin by lra. split; [|split].
  - replace (1 - (h / r)²) with ((1 / (2 * r)) * (1 / (2 * r))).
    + rewrite sqrt_square by (apply Rlt_le, Rdiv_lt_0_compat; lra). field. lra.
    + unfold Rsqr. apply Rmult_eq_reg_r with (r * r); [|nra]. replace ((1 - h / r * (h / r)) * (r * r)) with (r * r - h * h) by (field; lra).
      replace (1 / (2 * r) * (1 / (2 * r)) * (r * r)) with (1 / 4) by (field; lra). rewrite Q. ring.
  - field. lra.
  - pose proof (asin_bound_lt (h / r) B). lra.
Qed.

(** Open curves run from (0,0) to (1,0): the line, the circular arc for every H, and the sine
    wave for every amplitude and integer frequency. *)
Theorem C23_open o :
  (exists X, cX Line o = Ok X /\ X 0 = (0, 0) /\ X (2 * PI) = (1, 0)) /\
  (forall X, cX CircularArc o = Ok X -> X 0 = (0, 0) /\ X (2 * PI) = (1, 0)) /\
  (forall X k, cX SineWave o = Ok X -> opt o "freq" = Some (IZR k) -> X 0 = (0, 0) /\ X (2 * PI) = (1, 0)).
Proof.
  pose proof PI_RGT_0 as HP. split; [|split].
  - eexists. split; [reflexivity|]. split; f_equal; field; lra.
  - intros X. cbn [cX]. unfold arc_unpack. destruct (kw o "H") as [h|]; [|discriminate]. cbn [bind]. intros H. injection H as <-.
    destruct (arc_facts h) as (Hr & C & S & B). set (r := sqrt _) in *. set (t0 := asin _) in *.
    replace (t0 + PI + (- (1 / 2) - t0 / PI) * 0) with (t0 + PI) by ring.
    replace (t0 + PI + (- (1 / 2) - t0 / PI) * (2 * PI)) with (- t0) by (field; lra).
    rewrite neg_cos, neg_sin, cos_neg, sin_neg. split; f_equal; lra.
  - intros X k. cbn [cX]. unfold sine_unpack. destruct (opt o "amp") as [a|]; [|discriminate]. destruct (opt o "freq") as [w|]; [|discriminate].
    cbn [bind]. intros H E. injection H as <-. injection E as ->. split; f_equal; try (field; lra).
    + replace (IZR k * 0 / 2) with 0 by field. rewrite sin_0. ring.
    + replace (IZR k * (2 * PI) / 2) with (IZR k * PI) by field. rewrite sin_eq_0_1 by (exists k; reflexivity). ring.
Qed.
Print Assumptions C23_open.

(** Non-integer frequencies are accepted and the sine wave then misses (1,0). *)
Theorem C23_sine_refuted : exists X, cX SineWave [("amp"%string, 1); ("freq"%string, 1 / 2)] = Ok X /\ X (2 * PI) = (1, 1).
Proof.
  pose proof PI_RGT_0. eexists. split; [reflexivity|]. cbn [fst snd]. f_equal; [field; lra|]. replace (1 / 2 * (2 * PI) / 2) with (PI / 2) by field. rewrite sin_PI2. ring.
Qed.

(** The arc by degrees is open too, but starts at (1,0) and ends at angle theta0. *)
Theorem C23_arc_deg o X : cX CircularArcDeg o = Ok X -> exists th, opt o "theta0" = Some th /\ 0 < th <= 360 /\
  X 0 = (1, 0) /\ X (2 * PI) = (cos (th * PI / 180), sin (th * PI / 180)) /\ (X (2 * PI) = X 0 <-> th = 360).
Proof.
  pose proof PI_RGT_0 as HP. cbn [cX]. unfold deg_unpack. destruct (opt o "theta0") as [th|]; [|discriminate].
  destruct (Rle_dec th 0); [discriminate|]. destruct (Rlt_dec 360 th); [discriminate|]. cbn [bind]. intros H. injection H as <-.
  exists th. split; [reflexivity|]. split; [lra|]. rewrite Rmult_0_r, cos_0, sin_0. split; [reflexivity|].
  replace (th / 360 * (2 * PI)) with (th * PI / 180) by field. split; [reflexivity|]. split.
  - intros E. injection E as E1 E2. destruct (Req_dec th 360) as [|N]; [assumption|exfalso].
    assert (A : 0 < th * PI / 180 < 2 * PI) by (assert (0 < th * PI) by nra; assert (th * PI < 360 * PI) by nra; lra).
    destruct (Rtotal_order (th * PI / 180) PI) as [L|[L|L]].
    + pose proof (sin_gt_0 (th * PI / 180) ltac:(lra) L). lra.
    + rewrite L, cos_PI in E1. lra.
    + pose proof (sin_lt_0 (th * PI / 180) L ltac:(lra)). lra.
  - intros ->. replace (360 * PI / 180) with (2 * PI) by field. rewrite cos_2PI, sin_2PI. reflexivity.
Qed.
Print Assumptions C23_arc_deg.

(** Circles: centre (0,0), start (r,0), and radius 1 when the option is absent; ellipses have
    the given half axes. *)
Theorem C23_round o :
  (exists X, cX Circle o = Ok X /\ forall t, speed2 (X t) = match opt o "radius" with Some r => r * r | None => 1 end /\
     X 0 = (match opt o "radius" with Some r => r | None => 1 end, 0)) /\
  (forall X a b, cX Ellipse o = Ok X -> opt o "a" = Some a -> opt o "b" = Some b ->
     X 0 = (a, 0) /\ X (PI / 2) = (0, b) /\ forall t, b * b * (fst (X t) * fst (X t)) + a * a * (snd (X t) * snd (X t)) = a * a * (b * b)).
Proof.
  assert (SC : forall x, sin x * sin x + cos x * cos x = 1) by (intros x; apply sin2_cos2). split.
  - eexists. split; [reflexivity|]. intros t. unfold speed2, circle_R. cbn [fst snd]. rewrite cos_0, sin_0. specialize (SC t). destruct (opt o "radius"); (split; [|f_equal; ring]).
    + replace (r * cos t * (r * cos t) + r * sin t * (r * sin t)) with (r * r * (sin t * sin t + cos t * cos t)) by ring. rewrite SC. ring.
    + lra.
  - intros X a b H Ea Eb. cbn [cX] in H. unfold kw in H. rewrite Ea, Eb in H. cbn [bind] in H. apply Ok_inj in H. subst X. rewrite cos_0, sin_0, cos_PI2, sin_PI2.
    split; [f_equal; ring|]. split; [f_equal; ring|]. intros t. cbn [fst snd]. specialize (SC t).
    replace (b * b * (a * cos t * (a * cos t)) + a * a * (b * sin t * (b * sin t))) with (a * a * (b * b) * (sin t * sin t + cos t * cos t)) by ring. rewrite SC. ring.
Qed.
Print Assumptions C23_round.

(** Closed curves return to their start. The circle, ellipse and bean close with their
    derivatives; teardrop and cartioid may have a corner at the start. *)
Theorem C23_closed c o X : In c [Circle; Ellipse; Bean; Teardrop; Cartioid] -> cX c o = Ok X -> X (2 * PI) = X 0.
Proof.
  pose proof PI_RGT_0 as HP. intros I. cbn in I. destruct I as [<-|[<-|[<-|[<-|[<-|[]]]]]]; cbn [cX]; intros H.
  - injection H as <-. rewrite cos_2PI, sin_2PI, cos_0, sin_0. reflexivity.
  - destruct (kw o "a") as [a|]; [|discriminate]. destruct (kw o "b") as [b|]; [|discriminate]. cbn [bind] in *. injection H as <-.
    rewrite cos_2PI, sin_2PI, cos_0, sin_0. reflexivity.
  - injection H as <-. replace (2 * (2 * PI)) with (0 + 2 * INR 2 * PI) by (cbn; ring). rewrite cos_period, Rmult_0_r, cos_2PI, sin_2PI, cos_0, sin_0. reflexivity.
  - destruct (tear_unpack o) as [b|]; [|discriminate]. cbn [bind] in *. injection H as <-.
    replace (2 * PI / 2) with PI by field. replace (0 / 2) with 0 by field. rewrite sin_PI, sin_2PI, sin_0. reflexivity.
  - destruct (kw o "a") as [a|]; [|discriminate]. cbn [bind] in *. injection H as <-. cbv zeta. rewrite cos_2PI, sin_2PI, cos_0, sin_0.
    replace (1 - 2 * PI / PI) with (-1) by (field; lra). replace (1 - 0 / PI) with 1 by (field; lra). f_equal; ring.
Qed.
Print Assumptions C23_closed.

Theorem C23_closed_smooth c o DX : In c [Circle; Ellipse; Bean] -> cDX c o = Ok DX -> DX (2 * PI) = DX 0.
Proof.
  pose proof PI_RGT_0 as HP. intros I. cbn in I. destruct I as [<-|[<-|[<-|[]]]]; cbn [cDX]; intros H.
  - injection H as <-. rewrite cos_2PI, sin_2PI, cos_0, sin_0. reflexivity.
  - destruct (kw o "a") as [a|]; [|discriminate]. destruct (kw o "b") as [b|]; [|discriminate]. cbn [bind] in *. injection H as <-.
    rewrite cos_2PI, sin_2PI, cos_0, sin_0. reflexivity.
  - injection H as <-. replace (2 * (2 * PI)) with (0 + 2 * INR 2 * PI) by (cbn; ring). rewrite sin_period, Rmult_0_r, cos_2PI, sin_2PI, cos_0, sin_0. reflexivity.
Qed.

(** The teardrop leaves and returns at the half angle pi/(2 alpha) on either side of its axis,
    so its interior angle at the corner is pi/alpha. *)
Theorem C23_teardrop_corner o DX : cDX Teardrop o = Ok DX -> exists alpha, 1 < alpha /\
  (opt o "alpha" = Some alpha \/ opt o "alpha" = None /\ alpha = 3 / 2) /\
  DX 0 = (1, - tan (PI / (2 * alpha))) /\ DX (2 * PI) = (-1, - tan (PI / (2 * alpha))).
Proof.
  cbn [cDX]. unfold tear_unpack. set (al := match opt o "alpha" with Some a => a | None => 3 / 2 end). destruct (Rle_dec al 1); [discriminate|].
  cbn [bind]. intros H. injection H as <-. exists al. split; [lra|]. split; [unfold al; destruct (opt o "alpha"); auto|].
  replace (1 / 2 * PI / al) with (PI / (2 * al)) by (field; lra). replace (2 * PI / 2) with PI by field. replace (0 / 2) with 0 by field.
  rewrite cos_0, cos_PI, cos_2PI. split; f_equal; ring.
Qed.

(** Inadmissible options are rejected, by all three functions alike. *)
Theorem C23_rejected o :
  (opt o "theta0" = None \/ (exists v, opt o "theta0" = Some v /\ (v <= 0 \/ 360 < v)) ->
     cX CircularArcDeg o = Err ValueError /\ cDX CircularArcDeg o = Err ValueError /\ cDDX CircularArcDeg o = Err ValueError) /\
  (opt o "amp" = None \/ opt o "freq" = None ->
     cX SineWave o = Err ValueError /\ cDX SineWave o = Err ValueError /\ cDDX SineWave o = Err ValueError) /\
  ((exists v, opt o "alpha" = Some v /\ v <= 1) ->
     cX Teardrop o = Err ValueError /\ cDX Teardrop o = Err ValueError /\ cDDX Teardrop o = Err ValueError) /\
  (opt o "a" = None -> cX Cartioid o = Err KeyError /\ cX Ellipse o = Err KeyError) /\
  (opt o "b" = None -> cX Ellipse o = Err KeyError) /\
  (opt o "H" = None -> cX CircularArc o = Err KeyError).
Proof.
  assert (D : opt o "theta0" = None \/ (exists v, opt o "theta0" = Some v /\ (v <= 0 \/ 360 < v)) -> deg_unpack o = Err ValueError).
  { unfold deg_unpack. intros [->|(v & -> & H)]; [reflexivity|]. destruct (Rle_dec v 0); [reflexivity|]. destruct (Rlt_dec 360 v); [reflexivity|lra]. }
  assert (S : opt o "amp" = None \/ opt o "freq" = None -> sine_unpack o = Err ValueError).
  { unfold sine_unpack. intros [->| ->]; [reflexivity|]. destruct (opt o "amp"); reflexivity. }
  assert (T : (exists v, opt o "alpha" = Some v /\ v <= 1) -> tear_unpack o = Err ValueError).
  { unfold tear_unpack. intros (v & -> & H). destruct (Rle_dec v 1); [reflexivity|lra]. }
  cbn [cX cDX cDDX]. unfold arc_unpack, kw. split; [|split; [|split; [|split; [|split]]]].
  - intros H. rewrite (D H). repeat split.
  - intros H. rewrite (S H). repeat split.
  - intros H. rewrite (T H). repeat split.
  - intros ->. split; reflexivity.
  - intros ->. destruct (opt o "a"); reflexivity.
  - intros ->. reflexivity.
Qed.
Print Assumptions C23_rejected.

(** ** C24 *)

(** When the speed can vanish: never for line, circular arcs, bean, teardrop, cartioid and sine
    wave; for circle and ellipse exactly when a radius is zero. *)
Theorem C24_regular c o DX t : In c [Line; CircularArc; CircularArcDeg; Bean; Teardrop; Cartioid; SineWave] -> 0 <= t <= 2 * PI ->
  cDX c o = Ok DX -> 0 < speed2 (DX t).
Proof.
  pose proof PI_RGT_0 as HP. assert (SC : forall x, sin x * sin x + cos x * cos x = 1) by (intros x; apply sin2_cos2).
  intros I Ht. cbn in I. unfold speed2. destruct I as [<-|[<-|[<-|[<-|[<-|[<-|[<-|[]]]]]]]]; cbn [cDX]; intros H.
  - injection H as <-. cbn [fst snd]. assert (0 < 1 / (2 * PI)) by (apply Rdiv_lt_0_compat; lra). nra.
  - unfold arc_unpack in H. destruct (kw o "H") as [h|]; [|discriminate]. cbn [bind] in H. injection H as <-. cbv zeta; cbn [fst snd].
    destruct (arc_facts h) as (Hr & C & S & B). set (r := sqrt _) in *. set (t0 := asin _) in *. set (om := - (1 / 2) - t0 / PI). set (th := t0 + PI + om * t).
    assert (Om : om < 0).
    { unfold om. assert (- (1 / 2) < t0 / PI); [|lra]. apply Rmult_lt_reg_r with PI; [exact HP|]. replace (t0 / PI * PI) with t0 by (field; lra). lra. }
    replace (- om * r * sin th * (- om * r * sin th) + om * r * cos th * (om * r * cos th)) with ((om * r) * (om * r) * (sin th * sin th + cos th * cos th)) by ring.
    rewrite SC. assert (om * r < 0) by nra. nra.
  - unfold deg_unpack in H. destruct (opt o "theta0") as [v|]; [|discriminate]. destruct (Rle_dec v 0); [discriminate|]. destruct (Rlt_dec 360 v); [discriminate|].
    cbn [bind] in H. injection H as <-. cbn [fst snd]. set (w := v / 360). assert (0 < w) by (unfold w; lra).
    replace (- w * sin (w * t) * (- w * sin (w * t)) + w * cos (w * t) * (w * cos (w * t))) with (w * w * (sin (w * t) * sin (w * t) + cos (w * t) * cos (w * t))) by ring.
    rewrite SC. nra.
  - injection H as <-. cbn [fst snd]. rewrite sin_2a. specialize (SC t). set (s := sin t) in *. set (k := cos t) in *. clearbody s k.
    destruct (Req_dec k 0) as [->|N]; [|assert (0 < k * k) by nra; pose proof (Rle_0_sqr (- s - 2 * (65 / 100) * (2 * s * k))) as Q; unfold Rsqr in Q; lra].
    replace ((- s - 2 * (65 / 100) * (2 * s * 0)) * (- s - 2 * (65 / 100) * (2 * s * 0)) + 3 / 2 * 0 * (3 / 2 * 0)) with (s * s + 0 * 0) by ring. rewrite SC. lra.
  - unfold tear_unpack in H. set (al := match opt o "alpha" with Some a => a | None => 3 / 2 end) in *. destruct (Rle_dec al 1); [discriminate|].
    cbn [bind] in H. injection H as <-. cbn [fst snd]. set (b := tan _).
    assert (Hb : 0 < b).
    { apply tan_gt_0; [apply Rdiv_lt_0_compat; lra|]. apply Rmult_lt_reg_r with al; [lra|]. replace (1 / 2 * PI / al * al) with (1 / 2 * PI) by (field; lra). nra. }
    replace (cos t) with (2 * (cos (t / 2) * cos (t / 2)) - 1).
    + set (k := cos (t / 2)). clearbody k b. destruct (Req_dec k 0) as [->|N]; [nra|]. assert (0 < k * k) by nra.
      pose proof (Rle_0_sqr (- b * (2 * (k * k) - 1))) as Q. unfold Rsqr in Q. lra.
    + replace t with (2 * (t / 2)) at 3 by field. rewrite cos_2a_cos. ring.
  - destruct (kw o "a") as [a|]; [|discriminate]. cbn [bind] in H. apply Ok_inj in H. subst DX. cbv zeta; cbn [fst snd].
    set (u := 1 - t / PI). set (r := 1 + a * u ^ 8). set (dr := - (8 * a / PI) * u ^ 7).
    replace ((dr * cos t - r * sin t) * (dr * cos t - r * sin t) + (dr * sin t + r * cos t) * (dr * sin t + r * cos t)) with ((dr * dr + r * r) * (sin t * sin t + cos t * cos t)) by ring.
    rewrite SC, Rmult_1_r. destruct (Req_dec r 0) as [Er|Nr]; [|assert (0 < r * r) by nra; nra].
    assert (Nd : dr <> 0).
    { unfold dr. intros E. assert (K : a * u ^ 7 = 0). { apply Rmult_eq_reg_l with (- (8 / PI)); [|assert (0 < 8 / PI) by (apply Rdiv_lt_0_compat; lra); lra]. rewrite Rmult_0_r, <- E. field. lra. }
      unfold r in Er. replace (a * u ^ 8) with (a * u ^ 7 * u) in Er by ring. rewrite K in Er. lra. }
    assert (0 < dr * dr) by nra. nra.
  - destruct (sine_unpack o) as [[a w]|]; [|discriminate]. cbn [bind] in H. injection H as <-. cbn [fst snd].
    assert (0 < 1 / (2 * PI)) by (apply Rdiv_lt_0_compat; lra). pose proof (Rle_0_sqr (1 / 2 * a * w * cos (w * t / 2))) as Q. unfold Rsqr in Q. nra.
Qed.
Print Assumptions C24_regular.

Theorem C24_circle_ellipse o :
  (forall DX, cDX Circle o = Ok DX -> forall t, speed2 (DX t) = circle_R o * circle_R o) /\
  (forall DX a b, cDX Ellipse o = Ok DX -> opt o "a" = Some a -> opt o "b" = Some b ->
     ((forall t, 0 <= t <= 2 * PI -> 0 < speed2 (DX t)) <-> a <> 0 /\ b <> 0)).
Proof.
  pose proof PI_RGT_0 as HP. assert (SC : forall x, sin x * sin x + cos x * cos x = 1) by (intros x; apply sin2_cos2). unfold speed2. split.
  - intros DX H t. injection H as <-. cbn [fst snd].
    replace (- circle_R o * sin t * (- circle_R o * sin t) + circle_R o * cos t * (circle_R o * cos t)) with (circle_R o * circle_R o * (sin t * sin t + cos t * cos t)) by ring. rewrite SC. ring.
  - intros DX a b H Ea Eb. cbn [cDX] in H. unfold kw in H. rewrite Ea, Eb in H. cbn [bind] in H. injection H as <-. cbn [fst snd]. split.
    + intros P. split; intros ->.
      * specialize (P (PI / 2) ltac:(lra)). rewrite cos_PI2 in P. lra.
      * specialize (P 0 ltac:(lra)). rewrite sin_0 in P. lra.
    + intros [Na Nb] t _. specialize (SC t). assert (A : 0 < a * a) by nra. assert (B : 0 < b * b) by nra.
      replace (- a * sin t * (- a * sin t) + b * cos t * (b * cos t)) with (a * a * (sin t * sin t) + b * b * (cos t * cos t)) by ring.
      destruct (Req_dec (sin t) 0) as [E|N].
      * rewrite E in *. nra.
      * assert (0 < sin t * sin t) by nra. pose proof (Rle_0_sqr (cos t)) as Q. unfold Rsqr in Q. nra.
Qed.
Print Assumptions C24_circle_ellipse.

(** A circle of radius zero is accepted; its speed is zero everywhere, so the unit tangent
    computed by Edge.parameterize is 0/0. *)
Theorem C24_refuted : exists DX, cDX Circle [("radius"%string, 0)] = Ok DX /\ forall t, DX t = (0, 0).
Proof. eexists. split; [reflexivity|]. intros t. cbn. f_equal; ring. Qed.

Example C24_example : exists DX, cDX Cartioid [("a"%string, -1)] = Ok DX /\ 0 < speed2 (DX 0).
Proof. eexists. split; [reflexivity|]. eapply (C24_regular Cartioid [("a"%string, -1)]); [cbn; tauto|pose proof PI_RGT_0; lra|reflexivity]. Qed.
