(** Microfacet distributions: normalisation and sampling (for Props_Microfacet.v). *)
From Coq Require Import Reals Lra Lia Bool List.
From Coquelicot Require Import Coquelicot.
From Verif Require Import Base M_Geometry S_Geometry M_Reflection S_Reflection S_Microfacet P_LobeSampling.
Import ListNotations.
Open Scope R_scope.

(** ** Powers with real exponents, extended by 0 *)
Definition pow0 (k c : R) : R := if Rle_dec c 0 then 0 else Rpower c k.
Lemma pow0_pos k c : 0 < c -> pow0 k c = Rpower c k.
Proof. intros H. unfold pow0. destruct (Rle_dec c 0); [lra|reflexivity]. Qed.
Lemma pow0_neg k c : c <= 0 -> pow0 k c = 0.
Proof. intros H. unfold pow0. destruct (Rle_dec c 0); [reflexivity|lra]. Qed.
Lemma Rpower_small k eps c : 0 < k -> 0 < eps -> 0 < c < Rpower eps (/ k) -> 0 < Rpower c k < eps.
Proof.
  intros Hk He [Hc1 Hc2]. split; [apply exp_pos|].
  replace eps with (Rpower (Rpower eps (/ k)) k) by (rewrite Rpower_mult, Rinv_l by lra; now apply Rpower_1).
  unfold Rpower at 1 2. apply exp_increasing. apply Rmult_lt_compat_l; [auto|]. now apply ln_increasing.
Qed.
Lemma pow0_small k eps : 0 < k -> 0 < eps -> exists d, 0 < d /\ forall c, Rabs c < d -> Rabs (pow0 k c) < eps.
Proof.
  intros Hk He. exists (Rpower eps (/ k)). split; [apply exp_pos|]. intros c Hc. destruct (Rle_dec c 0).
  - rewrite pow0_neg by auto. now rewrite Rabs_R0.
  - rewrite pow0_pos by lra. rewrite Rabs_pos_eq in Hc by lra.
    destruct (Rpower_small k eps c Hk He); [lra|]. rewrite Rabs_pos_eq; lra.
Qed.
Lemma Rpower_derive k c : 0 < c -> is_derive (fun c => Rpower c k) c (k * Rpower c (k - 1)).
Proof.
  intros H. apply is_derive_Reals. now apply derivable_pt_lim_power.
Qed.
Lemma pow0_cont k c : 0 < k -> continuous (pow0 k) c.
Proof.
  intros Hk. destruct (Rlt_dec 0 c) as [H|H]; [|destruct (Rlt_dec c 0) as [H'|H']].
  - apply (continuous_ext_loc _ (fun c => Rpower c k)).
    + assert (Hc : 0 < c) by lra. exists (mkposreal c Hc). intros y Hy. rewrite pow0_pos; [reflexivity|].
      change (Rabs (y - c) < c) in Hy. apply Rabs_def2 in Hy. lra.
    + apply (ex_derive_continuous (fun c => Rpower c k)). eexists. now apply Rpower_derive.
  - apply (continuous_ext_loc _ (fun c => 0)).
    + assert (Hc : 0 < - c) by lra. exists (mkposreal (-c) Hc). intros y Hy. rewrite pow0_neg; [reflexivity|].
      change (Rabs (y - c) < - c) in Hy. apply Rabs_def2 in Hy. lra.
    + apply continuous_const.
  - assert (c = 0) by lra. subst c. intros P [eps He]. rewrite pow0_neg in He by lra.
    destruct (pow0_small k eps Hk (cond_pos eps)) as (d & Hd & D). exists (mkposreal d Hd). intros y Hy.
    apply He. change (Rabs (pow0 k y - 0) < eps). rewrite Rminus_0_r. apply D.
    change (Rabs (y - 0) < d) in Hy. now rewrite Rminus_0_r in Hy.
Qed.
Lemma pow0_derive k c : 0 < k -> is_derive (pow0 (k + 1)) c ((k + 1) * pow0 k c).
Proof.
  intros Hk. destruct (Rlt_dec 0 c) as [H|H]; [|destruct (Rlt_dec c 0) as [H'|H']].
  - apply (is_derive_ext_loc (fun c => Rpower c (k + 1))).
    + assert (Hc : 0 < c) by lra. exists (mkposreal c Hc). intros y Hy. rewrite pow0_pos; [reflexivity|].
      change (Rabs (y - c) < c) in Hy. apply Rabs_def2 in Hy. lra.
    + rewrite pow0_pos by auto. evar_last; [now apply Rpower_derive|]. replace (k + 1 - 1) with k by lra. reflexivity.
  - apply (is_derive_ext_loc (fun c => 0)).
    + assert (Hc : 0 < - c) by lra. exists (mkposreal (-c) Hc). intros y Hy. rewrite pow0_neg; [reflexivity|].
      change (Rabs (y - c) < - c) in Hy. apply Rabs_def2 in Hy. lra.
    + rewrite pow0_neg by lra. rewrite Rmult_0_r. apply @is_derive_const.
  - assert (c = 0) by lra. subst c. rewrite (pow0_neg k) by lra. rewrite Rmult_0_r. apply is_derive_Reals.
    intros eps He. destruct (pow0_small k eps Hk He) as (d & Hd & D). exists (mkposreal d Hd). intros h Hh Hhd.
    cbn in Hhd. rewrite Rplus_0_l, (pow0_neg _ 0) by lra. rewrite !Rminus_0_r. specialize (D h Hhd).
    destruct (Rle_dec h 0).
    + rewrite pow0_neg by auto. unfold Rdiv. rewrite Rmult_0_l, Rabs_R0. auto.
    + rewrite pow0_pos in * by lra. rewrite Rpower_plus, Rpower_1 by lra.
      replace (Rpower h k * h / h) with (Rpower h k) by (field; lra). auto.
Qed.
(** The polar integral of a power of the cosine. *)
Lemma cos_power_int K e : -1 < e ->
  is_RInt (fun th => K * pow0 (e + 1) (cos th) * sin th) 0 (PI / 2) (K / (e + 2)).
Proof.
  intros He.
  assert (D : forall th, is_derive (fun th => - (K / (e + 2)) * pow0 (e + 2) (cos th)) th
                (K * pow0 (e + 1) (cos th) * sin th)).
  { intros th. evar_last.
    - apply is_derive_scal. apply (is_derive_comp (pow0 (e + 2)) cos).
      + replace (e + 2) with (e + 1 + 1) by lra. apply pow0_derive. lra.
      + apply is_derive_cos.
    - cbn. unfold scal; cbn; unfold mult; cbn. field. lra. }
  replace (K / (e + 2)) with
    (minus (- (K / (e + 2)) * pow0 (e + 2) (cos (PI / 2))) (- (K / (e + 2)) * pow0 (e + 2) (cos 0))).
  2:{ rewrite cos_PI2, cos_0, pow0_neg by lra. rewrite pow0_pos by lra.
      replace (Rpower 1 (e + 2)) with 1 by (unfold Rpower; now rewrite ln_1, Rmult_0_r, exp_0).
      unfold minus, plus, opp; cbn. field. lra. }
  apply (is_RInt_derive (fun th => - (K / (e + 2)) * pow0 (e + 2) (cos th))).
  - intros x _. apply D.
  - intros x _. apply (continuous_mult (fun th => K * pow0 (e + 1) (cos th)) sin).
    + apply (continuous_mult (fun _ => K) (fun th => pow0 (e + 1) (cos th))); [apply continuous_const|].
      apply (continuous_comp cos (pow0 (e + 1))); [apply continuous_cos|]. apply pow0_cont. lra.
    + apply continuous_sin.
Qed.

(** ** Azimuth *)
(** The azimuthal distribution with weights a, b on the axes: derivative sqrt(a b) / (2 PI (a cos^2 + b sin^2)). *)
Definition azim (k p : R) : R :=
  (p + atan ((k - 1) * (sin p * cos p) / (cos p * cos p + k * (sin p * sin p)))) / (2 * PI).
Lemma sc1 p : sin p * sin p + cos p * cos p = 1.
Proof. pose proof (sin2_cos2 p) as H. unfold Rsqr in H. exact H. Qed.
Lemma weights_pos a b p : 0 < a -> 0 < b -> 0 < a * (cos p * cos p) + b * (sin p * sin p).
Proof.
  intros Ha Hb. pose proof (sc1 p). pose proof (Rle_0_sqr (sin p)). pose proof (Rle_0_sqr (cos p)). unfold Rsqr in *.
  destruct (Rle_dec (1/2) (cos p * cos p)); nra.
Qed.
Lemma azim_derive k p : 0 < k ->
  is_derive (azim k) p (k / (cos p * cos p + k * k * (sin p * sin p)) / (2 * PI)).
Proof.
  intros Hk. pose proof PI_RGT_0 as HPI. pose proof (weights_pos 1 k p ltac:(lra) Hk) as W.
  pose proof (weights_pos 1 (k * k) p ltac:(lra) ltac:(nra)) as W2. pose proof (sc1 p) as S1.
  rewrite Rmult_1_l in W, W2.
  unfold azim. auto_derive.
  - lra.
  - set (s := sin p) in *. set (c := cos p) in *.
    assert (Q : (c * c + k * (s * s)) * (c * c + k * (s * s)) + (k - 1) * (k - 1) * (s * c) * (s * c)
                = c * c + k * k * (s * s)).
    { replace (c * c + k * k * (s * s)) with ((c * c + k * k * (s * s)) * (s * s + c * c)) by (rewrite S1; lra). ring. }
    assert (Hz : 1 + ((k - 1) * (s * c) / (c * c + k * (s * s))) * ((k - 1) * (s * c) / (c * c + k * (s * s)))
                 = (c * c + k * k * (s * s)) / ((c * c + k * (s * s)) * (c * c + k * (s * s)))).
    { rewrite <- Q. field. lra. }
    unfold Rsqr in *.
    assert (N : (k - 1) * (c * c - s * s) * (c * c + k * (s * s)) - (k - 1) * (s * c) * (2 * (k - 1) * (s * c))
                = (k - (c * c + k * k * (s * s)))).
    { replace k with (k * (s * s + c * c)) at 6 by (rewrite S1; lra).
      assert (c * c = 1 - s * s) by lra.
      replace ((k - 1) * (s * c) * (2 * (k - 1) * (s * c))) with (2 * (k - 1) * (k - 1) * (s * s) * (c * c)) by ring.
      rewrite H. ring. }
    set (DD := c * c + k * (s * s)) in *. set (M := c * c + k * k * (s * s)) in *.
    replace (1 + (k - 1) * (s * c) * / DD * ((k - 1) * (s * c) * / DD * 1)) with (M / (DD * DD))
      by (rewrite <- Hz; unfold Rdiv; ring).
    replace ((k - 1) * (1 * c * c + s * (1 * - s)) * / DD +
       (k - 1) * (s * c) * (- (1 * - s * c + c * (1 * - s) + k * (1 * c * s + s * (1 * c))) * / (DD * DD)))
      with (((k - 1) * (c * c - s * s) * DD - (k - 1) * (s * c) * (2 * (k - 1) * (s * c))) / (DD * DD))
      by (field; lra).
    rewrite N. field. lra.
Qed.
Lemma azim_0 k : azim k 0 = 0.
Proof. unfold azim. rewrite sin_0. unfold Rdiv. rewrite !Rmult_0_l, Rmult_0_r, Rmult_0_l, atan_0. ring. Qed.
Lemma azim_2PI k : azim k (2 * PI) = 1.
Proof.
  unfold azim. rewrite sin_2PI. unfold Rdiv. rewrite !Rmult_0_l, Rmult_0_r, Rmult_0_l, atan_0. field.
  apply PI_neq0.
Qed.
Lemma azim_refl k p : azim k (PI - p) = 1 / 2 - azim k p.
Proof.
  unfold azim. rewrite Rtrigo_facts.sin_pi_minus, Rtrigo_facts.cos_pi_minus.
  replace ((k - 1) * (sin p * - cos p) / (- cos p * - cos p + k * (sin p * sin p)))
    with (- ((k - 1) * (sin p * cos p) / (cos p * cos p + k * (sin p * sin p)))).
  2:{ replace (- cos p * - cos p) with (cos p * cos p) by ring. unfold Rdiv. ring. }
  rewrite atan_opp. field. apply PI_neq0.
Qed.
Lemma azim_shift k p : azim k (p + PI) = azim k p + 1 / 2.
Proof.
  unfold azim. rewrite neg_sin, neg_cos.
  replace (- sin p * - cos p) with (sin p * cos p) by ring.
  replace (- cos p * - cos p) with (cos p * cos p) by ring. replace (- sin p * - sin p) with (sin p * sin p) by ring.
  field. apply PI_neq0.
Qed.
Lemma azim_turn k p : azim k (2 * PI - p) = 1 - azim k p.
Proof.
  replace (2 * PI - p) with (PI - p + PI) by ring. rewrite azim_shift, azim_refl. lra.
Qed.
(** In the first quadrant, the distribution is the familiar arc tangent. *)
Lemma azim_quad k p : 0 < k -> 0 <= p < PI / 2 -> azim k p = atan (k * tan p) / (2 * PI).
Proof.
  intros Hk Hp. pose proof PI_RGT_0 as HPI.
  set (h := fun p => azim k p - atan (k * tan p) / (2 * PI)).
  assert (D : forall q, 0 <= q <= p -> is_derive h q 0).
  { intros q Hq. pose proof (cos_gt_0 q ltac:(lra) ltac:(lra)) as Cq. pose proof (sc1 q) as S1.
    pose proof (weights_pos 1 (k * k) q ltac:(lra) ltac:(nra)) as W2. rewrite Rmult_1_l in W2.
    unfold h. evar_last.
    - apply @is_derive_minus; [now apply azim_derive|]. unfold tan. auto_derive; [lra|reflexivity].
    - unfold minus, plus, opp; cbn. set (s := sin q) in *. set (c := cos q) in *.
      replace (1 + k * (s * / c) * (k * (s * / c) * 1)) with ((c * c + k * k * (s * s)) / (c * c)) by (field; lra).
      replace (1 * c * / c + s * (- (1 * - s) * / (c * c))) with ((s * s + c * c) / (c * c)) by (field; lra).
      rewrite S1. field. repeat split; lra. }
  assert (h p = h 0).
  { destruct (Req_dec p 0) as [->|Hn]; [reflexivity|].
    destruct (MVT_gen h 0 p (fun _ => 0)) as (x & _ & E).
    - intros x Hx. rewrite Rmin_left, Rmax_right in Hx by lra. apply D. lra.
    - intros x Hx. rewrite Rmin_left, Rmax_right in Hx by lra. apply continuity_pt_filterlim.
      apply (ex_derive_continuous h). eexists. apply D. lra.
    - lra. }
  unfold h in H. rewrite azim_0, tan_0, Rmult_0_r, atan_0 in H. lra.
Qed.
Lemma azim_int a b : 0 < a -> 0 < b ->
  is_RInt (fun p => sqrt (a * b) / (2 * PI) / (a * (cos p * cos p) + b * (sin p * sin p))) 0 (2 * PI) 1.
Proof.
  intros Ha Hb. pose proof PI_RGT_0 as HPI. set (k := sqrt (b / a)).
  assert (Hk : 0 < k) by (apply sqrt_lt_R0; now apply Rdiv_lt_0_compat).
  assert (Hkk : k * k = b / a) by (apply sqrt_sqrt; apply Rlt_le; now apply Rdiv_lt_0_compat).
  assert (Hs : sqrt (a * b) = a * k).
  { replace (a * b) with ((a * k) * (a * k)); [rewrite sqrt_square; nra|].
    replace (a * k * (a * k)) with (a * a * (k * k)) by ring. rewrite Hkk. field. lra. }
  apply (is_RInt_ext (fun p => k / (cos p * cos p + k * k * (sin p * sin p)) / (2 * PI))).
  { intros p _. rewrite Hs, Hkk. pose proof (weights_pos a b p Ha Hb).
    match goal with |- @eq _ ?x ?y => change (@eq R x y) end. field.
    repeat split; lra. }
  replace 1 with (minus (azim k (2 * PI)) (azim k 0)).
  2:{ rewrite azim_0, azim_2PI. unfold minus, plus, opp; cbn. ring. }
  apply (is_RInt_derive (azim k)).
  - intros x _. now apply azim_derive.
  - intros x _. pose proof (weights_pos 1 (k * k) x ltac:(lra) ltac:(nra)) as W2. rewrite Rmult_1_l in W2.
    apply (ex_derive_continuous (fun p => k / (cos p * cos p + k * k * (sin p * sin p)) / (2 * PI))).
    auto_derive. lra.
Qed.

(** ** Normalisation *)
Lemma power_cos c e : 0 < c -> np_power (Rabs c) e * c = pow0 (e + 1) c.
Proof.
  intros H. rewrite Rabs_pos_eq by lra. unfold np_power. rewrite (proj2 (Reqb_false c 0)) by lra.
  rewrite pow0_pos by auto. rewrite Rpower_plus, Rpower_1 by auto. reflexivity.
Qed.
Lemma quad_trig th : 0 < th < PI / 2 -> 0 < cos th /\ 0 < sin th.
Proof. intros H. split; [apply cos_gt_0|apply sin_gt_0]; lra. Qed.
Definition expo (ex ey p : R) : R := ex * (cos p * cos p) + ey * (sin p * sin p).
Lemma expo_shift ex ey p k : expo ex ey p + k = (ex + k) * (cos p * cos p) + (ey + k) * (sin p * sin p).
Proof. unfold expo. pose proof (sc1 p). replace k with (k * (sin p * sin p + cos p * cos p)) at 1 by (rewrite H; ring). ring. Qed.
Lemma expo_gt ex ey p k : 0 < ex + k -> 0 < ey + k -> 0 < expo ex ey p + k.
Proof. intros. rewrite expo_shift. now apply weights_pos. Qed.
Lemma D_normalised d : dist_ok d -> hemisphere_integral (fun w => mdist_D d w * vz w) 1.
Proof.
  intros H. pose proof PI_RGT_0 as HPI. destruct d as [e|ex ey]; cbn [dist_ok] in H.
  - exists (fun _ => (e + 2) * (1 / (2 * PI)) / (e + 2)). split.
    + intros ph. eapply is_RInt_ext; [|apply cos_power_int; exact H]. intros th Hth.
      rewrite Rmin_left, Rmax_right in Hth by lra. destruct (quad_trig th Hth) as [C _].
      unfold mdist_D, polar, abs_cos_theta; cbn [vz]. rewrite <- power_cos by auto.
      match goal with |- @eq _ ?x ?y => change (@eq R x y) end. ring.
    + evar_last; [apply @is_RInt_const|]. unfold scal; cbn; unfold mult; cbn. field. lra.
  - destruct H as [Hx Hy]. exists (fun p => sqrt ((ex + 2) * (ey + 2)) * (1 / (2 * PI)) / (expo ex ey p + 2)). split.
    + intros ph. pose proof (expo_gt ex ey ph 1 ltac:(lra) ltac:(lra)) as G1.
      eapply is_RInt_ext; [|apply (cos_power_int _ (expo ex ey ph)); lra].
      intros th Hth. rewrite Rmin_left, Rmax_right in Hth by lra. destruct (quad_trig th Hth) as [C Sn].
      unfold mdist_D, polar, abs_cos_theta; cbn [vx vy vz]. rewrite <- power_cos by auto.
      rewrite (Rabs_pos_eq (cos th)) by lra. pose proof (sc1 th) as S1.
      replace (1 - cos th * cos th) with (sin th * sin th) by lra.
      rewrite (proj2 (Reqb_false (sin th * sin th) 0)) by nra.
      replace ((ex * (sin th * cos ph) * (sin th * cos ph) + ey * (sin th * sin ph) * (sin th * sin ph)) / (sin th * sin th))
        with (expo ex ey ph) by (unfold expo; field; lra).
      match goal with |- @eq _ ?x ?y => change (@eq R x y) end. ring.
    + apply (is_RInt_ext (fun p => sqrt ((ex + 2) * (ey + 2)) / (2 * PI) /
          ((ex + 2) * (cos p * cos p) + (ey + 2) * (sin p * sin p)))); [|apply azim_int; lra].
      intros p _. rewrite expo_shift.
      match goal with |- @eq _ ?x ?y => change (@eq R x y) end. unfold Rdiv. ring.
Qed.

(** ** Sampling *)
Lemma power_inv u e : 0 < u < 1 -> 0 < e -> 0 < Rpower u (1 / e) < 1 /\ Rpower (Rpower u (1 / e)) e = u.
Proof.
  intros Hu He. split.
  - split; [apply exp_pos|].
    assert (ln u < 0) by (rewrite <- ln_1; apply ln_increasing; lra).
    assert (0 < 1 / e) by (apply Rdiv_lt_0_compat; lra).
    assert (L : exp (1 / e * ln u) < exp 0) by (apply exp_increasing; nra). rewrite exp_0 in L. exact L.
  - rewrite Rpower_mult. replace (1 / e * e) with 1 by (field; lra). apply Rpower_1. lra.
Qed.
Lemma np_power_pos x e : 0 < x -> np_power x e = Rpower x e.
Proof. intros. unfold np_power. now rewrite (proj2 (Reqb_false x 0)) by lra. Qed.
Lemma cumulative_power k : 0 < k -> cumulative01 (fun c => k * Rpower c (k - 1)) (fun c => Rpower c k).
Proof.
  intros Hk. split; [|split].
  - unfold Rpower. now rewrite ln_1, Rmult_0_r, exp_0.
  - intros eps He. exists (Rpower eps (/ k)). split; [apply exp_pos|]. intros x Hx.
    destruct (Rpower_small k eps x Hk He Hx). rewrite Rabs_pos_eq; lra.
  - intros x Hx. now apply Rpower_derive.
Qed.
Lemma half_at_height ct phi : 0 < ct < 1 ->
  spherical_direction (sqrt (pmax 0 (1 - ct * ct))) ct phi = at_height ct phi.
Proof.
  intros H. unfold pmax. replace (Rltb 0 (1 - ct * ct)) with true by (symmetry; apply Rltb_true; nra).
  reflexivity.
Qed.

Lemma tan_pos p : 0 <= p < PI / 2 -> 0 <= tan p.
Proof.
  intros H. destruct (Req_dec p 0) as [->|]; [rewrite tan_0; lra|]. apply Rlt_le, tan_gt_0; lra.
Qed.
Lemma atan_quad x : 0 <= x -> 0 <= atan x < PI / 2.
Proof.
  intros H. pose proof (atan_bound x). split; [|lra]. destruct (Req_dec x 0) as [->|]; [rewrite atan_0; lra|].
  rewrite <- atan_0. apply Rlt_le, atan_increasing. lra.
Qed.
(** The azimuth drawn in the first quadrant. *)
Definition kq (ex ey : R) : R := sqrt ((ey + 1) / (ex + 1)).
Lemma kq_pos ex ey : -1 < ex -> -1 < ey -> 0 < kq ex ey.
Proof. intros. apply sqrt_lt_R0. apply Rdiv_lt_0_compat; lra. Qed.
Lemma first_quad_spec ex ey u1 u2 : -1 < ex -> -1 < ey -> 0 <= u1 < 1 -> 0 < u2 < 1 ->
  exists ph c, first_quad ex ey u1 u2 = (ph, c) /\ 0 <= ph < PI / 2 /\ 0 < c < 1 /\ azim (kq ex ey) ph = u1 / 4 /\
    Rpower c (expo ex ey ph + 1) = u2.
Proof.
  intros Hx Hy Hu1 Hu2. pose proof PI_RGT_0 as HPI. pose proof (kq_pos ex ey Hx Hy) as Hk.
  assert (P : exists ph, (if Reqb ex ey then PI * u1 * (1 / 2) else
             atan (sqrt ((ex + 1) / (ey + 1)) * tan (PI * u1 * (1 / 2)))) = ph /\ 0 <= ph < PI / 2 /\
             azim (kq ex ey) ph = u1 / 4).
  { assert (T : 0 <= PI * u1 * (1/2) < PI / 2) by nra.
    eexists. split; [reflexivity|]. destruct (Reqb ex ey) eqn:E.
    - apply Reqb_true in E. subst ey. split; [exact T|]. unfold kq. replace ((ex + 1) / (ex + 1)) with 1 by (field; lra).
      rewrite sqrt_1. unfold azim. replace (1 - 1) with 0 by lra. unfold Rdiv. rewrite !Rmult_0_l, atan_0. field. lra.
    - assert (R1 : 0 <= sqrt ((ex + 1) / (ey + 1)) * tan (PI * u1 * (1 / 2))).
      { apply Rmult_le_pos; [apply sqrt_pos|]. now apply tan_pos. }
      split; [now apply atan_quad|]. rewrite azim_quad by (auto; now apply atan_quad). rewrite tan_atan.
      rewrite <- Rmult_assoc. unfold kq. rewrite <- sqrt_mult by (apply Rlt_le, Rdiv_lt_0_compat; lra).
      replace ((ey + 1) / (ex + 1) * ((ex + 1) / (ey + 1))) with 1 by (field; lra). rewrite sqrt_1, Rmult_1_l.
      rewrite atan_tan by lra. field. lra. }
  destruct P as (ph & E & Q & A). unfold first_quad. rewrite E. exists ph. eexists. split; [reflexivity|].
  split; [exact Q|].
  replace (ex * cos ph * cos ph + ey * sin ph * sin ph + 1) with (expo ex ey ph + 1) by (unfold expo; ring).
  rewrite np_power_pos by lra.
  destruct (power_inv u2 (expo ex ey ph + 1) Hu2 (expo_gt ex ey ph 1 ltac:(lra) ltac:(lra))) as [B1 B2]. auto.
Qed.
Lemma sq_height c : 0 < c < 1 -> sqrt (1 - c * c) * sqrt (1 - c * c) = 1 - c * c.
Proof. intros. apply sqrt_sqrt. nra. Qed.
Lemma flip_side wo c ph wh : 0 < c < 1 ->
  wh = (if Rleb (vz wo * vz (at_height c ph)) 0 then vscale (-1) (at_height c ph) else at_height c ph) ->
  (wh = at_height c ph \/ wh = vneg (at_height c ph)) /\ 0 <= vz wo * vz wh /\ Rabs (vz wh) = c /\
  vx wh * vx wh = (1 - c * c) * (cos ph * cos ph) /\ vy wh * vy wh = (1 - c * c) * (sin ph * sin ph).
Proof.
  intros Hc ->. pose proof (sq_height c Hc) as S2. destruct (Rleb _ 0) eqn:B.
  - apply Rleb_true in B. split; [right; apply V3_eq; cbn; ring|].
    unfold vscale, vmap, at_height in *; cbn [vx vy vz] in *. split; [nra|]. split.
    + replace (-1 * c) with (- c) by ring. rewrite Rabs_Ropp. apply Rabs_pos_eq. lra.
    + set (s := sqrt (1 - c * c)) in *; split; rewrite <- S2; ring.
  - apply Rleb_false in B. split; [left; reflexivity|]. split; [lra|]. unfold at_height; cbn [vx vy vz].
    split; [apply Rabs_pos_eq; lra|]. set (s := sqrt (1 - c * c)) in *; split; rewrite <- S2; ring.
Qed.
(** The half vector drawn. *)
Lemma aniso_half ex ey wo u1 u2 : -1 < ex -> -1 < ey -> 0 < u1 < 1 -> 0 < u2 < 1 -> u1 <> 1 / 4 -> u1 <> 3 / 4 ->
  exists ph c, fst (mdist_half (Aniso ex ey) wo u1 u2) =
    (if Rleb (vz wo * vz (at_height c ph)) 0 then vscale (-1) (at_height c ph) else at_height c ph) /\
    0 <= ph <= 2 * PI /\ 0 < c < 1 /\ azim (kq ex ey) ph = u1 /\ Rpower c (expo ex ey ph + 1) = u2.
Proof.
  intros Hx Hy Hu1 Hu2 N1 N3. pose proof PI_RGT_0 as HPI. unfold mdist_half.
  assert (T : forall p q, cos q * cos q = cos p * cos p -> sin q * sin q = sin p * sin p -> expo ex ey q = expo ex ey p).
  { intros p q E1 E2. unfold expo. now rewrite E1, E2. }
  destruct (Rltb u1 (1/4)) eqn:B1; [apply Rltb_true in B1|apply Rltb_false in B1; destruct (Rltb u1 (1/2)) eqn:B2;
    [apply Rltb_true in B2|apply Rltb_false in B2; destruct (Rltb u1 (3/4)) eqn:B3; [apply Rltb_true in B3|apply Rltb_false in B3]]].
  - destruct (first_quad_spec ex ey (4 * u1) u2) as (ph & c & E & Hp & Hc & A & P); try lra. rewrite E.
    exists ph, c. cbn [fst]. rewrite half_at_height by auto. split; [reflexivity|]. repeat split; try lra.
  - destruct (first_quad_spec ex ey (4 * (1/2 - u1)) u2) as (ph & c & E & Hp & Hc & A & P); try lra. rewrite E.
    exists (PI - ph), c. cbn [fst]. rewrite half_at_height by auto. split; [reflexivity|]. repeat split; try lra.
    + rewrite azim_refl. lra.
    + rewrite (T ph); auto; rewrite ?Rtrigo_facts.sin_pi_minus, ?Rtrigo_facts.cos_pi_minus; ring.
  - destruct (first_quad_spec ex ey (4 * (u1 - 1/2)) u2) as (ph & c & E & Hp & Hc & A & P); try lra. rewrite E.
    exists (ph + PI), c. cbn [fst]. rewrite half_at_height by auto. split; [reflexivity|]. repeat split; try lra.
    + rewrite azim_shift. lra.
    + rewrite (T ph); auto; rewrite ?neg_sin, ?neg_cos; ring.
  - destruct (first_quad_spec ex ey (4 * (1 - u1)) u2) as (ph & c & E & Hp & Hc & A & P); try lra. rewrite E.
    exists (2 * PI - ph), c. cbn [fst]. rewrite half_at_height by auto. split; [reflexivity|]. repeat split; try lra.
    + rewrite azim_turn. lra.
    + replace (2 * PI - ph) with (PI - ph + PI) by ring.
      rewrite (T ph); auto; rewrite ?neg_sin, ?neg_cos, ?Rtrigo_facts.sin_pi_minus, ?Rtrigo_facts.cos_pi_minus; ring.
Qed.
Lemma reflect_about_eq wo wh : reflect_about wo wh = vsub (vscale (2 * vdot wo wh) wh) wo.
Proof. unfold reflect_about. apply V3_eq; cbn; ring. Qed.
Lemma if_pos (P : R) (x y : R) : (if Rleb P 0 then y else x) = (if Rlt_dec 0 P then x else y).
Proof.
  destruct (Rleb P 0) eqn:B; [apply Rleb_true in B|apply Rleb_false in B]; destruct (Rlt_dec 0 P); try reflexivity; lra.
Qed.
Lemma blinn_draws e : -1 < e ->
  draws_half_vectors (fun c _ => (e + 1) / (2 * PI) * Rpower c e) (fun wo ua up => mdist_sample (Blinn e) wo up ua).
Proof.
  intros He. pose proof PI_RGT_0 as HPI.
  exists (fun _ => 1 / (2 * PI)), (fun p => p / (2 * PI)), (fun _ c => (e + 1) * Rpower c (e + 1 - 1)), (fun _ c => Rpower c (e + 1)).
  split; [|split; [|split]].
  - split; [unfold Rdiv; ring|]. split; [field; lra|]. intros x. auto_derive; [trivial|]. field. lra.
  - intros _. apply cumulative_power. lra.
  - intros ph c Hc. replace (e + 1 - 1) with e by lra. field. lra.
  - intros wo ua up Ha Hp _ _.
    destruct (power_inv up (e + 1) Hp ltac:(lra)) as [B1 B2]. set (c := Rpower up (1 / (e + 1))) in *.
    unfold mdist_sample, mdist_half. rewrite np_power_pos by lra. fold c. rewrite half_at_height by auto.
    replace (ua * 2 * PI) with (ua * (2 * PI)) by ring.
    destruct (flip_side wo c (ua * (2 * PI)) _ B1 eq_refl) as (F1 & F2 & _).
    set (wh := if Rleb _ 0 then _ else _) in *.
    exists (ua * (2 * PI)), c, wh. split; [nra|]. split; [exact B1|]. split; [field; lra|]. split; [exact B2|].
    split; [exact F1|]. split; [exact F2|]. rewrite reflect_about_eq. f_equal. rewrite if_pos.
    destruct (Rlt_dec 0 (vdot wo wh)); [|reflexivity]. rewrite np_power_pos by lra. field. lra.
Qed.
Lemma aniso_draws ex ey : -1 < ex -> -1 < ey ->
  draws_half_vectors (fun c ph => sqrt ((ex + 1) * (ey + 1)) / (2 * PI) * Rpower c (ex * (cos ph)² + ey * (sin ph)²))
    (mdist_sample (Aniso ex ey)).
Proof.
  intros Hx Hy. pose proof PI_RGT_0 as HPI. pose proof (kq_pos ex ey Hx Hy) as Hk. set (k := kq ex ey) in *.
  exists (fun p => k / (cos p * cos p + k * k * (sin p * sin p)) / (2 * PI)), (azim k),
    (fun ph c => (expo ex ey ph + 1) * Rpower c (expo ex ey ph + 1 - 1)), (fun ph c => Rpower c (expo ex ey ph + 1)).
  assert (Hkk : k * k = (ey + 1) / (ex + 1)) by (apply sqrt_sqrt; apply Rlt_le; apply Rdiv_lt_0_compat; lra).
  assert (Hs : sqrt ((ex + 1) * (ey + 1)) = (ex + 1) * k).
  { replace ((ex + 1) * (ey + 1)) with (((ex + 1) * k) * ((ex + 1) * k)); [rewrite sqrt_square; nra|].
    replace ((ex + 1) * k * ((ex + 1) * k)) with ((ex + 1) * (ex + 1) * (k * k)) by ring. rewrite Hkk. field. lra. }
  split; [|split; [|split]].
  - split; [apply azim_0|]. split; [apply azim_2PI|]. intros x. now apply azim_derive.
  - intros ph. apply cumulative_power. apply expo_gt; lra.
  - intros ph c Hc. replace (expo ex ey ph + 1 - 1) with (expo ex ey ph) by lra. unfold Rsqr. fold (expo ex ey ph).
    rewrite Hs, Hkk, expo_shift. pose proof (weights_pos (ex + 1) (ey + 1) ph ltac:(lra) ltac:(lra)) as W.
    field. repeat split; try lra.
  - intros wo u1 u2 H1 H2 N1 N3.
    destruct (aniso_half ex ey wo u1 u2 Hx Hy H1 H2 N1 N3) as (ph & c & E & Hp & Hc & A & P).
    unfold mdist_sample. destruct (mdist_half (Aniso ex ey) wo u1 u2) as [wh ct]. cbn [fst] in E.
    destruct (flip_side wo c ph wh Hc E) as (F1 & F2 & F3 & F4 & F5).
    exists ph, c, wh. split; [exact Hp|]. split; [exact Hc|]. split; [exact A|]. split; [exact P|]. split; [exact F1|].
    split; [exact F2|]. rewrite reflect_about_eq. unfold abs_cos_theta. rewrite F3.
    replace (Rltb 0 (1 - c * c)) with true by (symmetry; apply Rltb_true; nra). cbn [andb].
    destruct (Rltb 0 (vdot wo wh)) eqn:B; [apply Rltb_true in B|apply Rltb_false in B];
      (destruct (Rlt_dec 0 (vdot wo wh)); [|]); try lra; try reflexivity.
    f_equal. f_equal. rewrite np_power_pos by lra.
    replace ((ex * vx wh * vx wh + ey * vy wh * vy wh) / (1 - c * c)) with (ex * (cos ph)² + ey * (sin ph)²); [field; lra|].
    rewrite !Rmult_assoc, F4, F5. unfold Rsqr. field. nra.
Qed.

(** ** Fresnel blend *)
Lemma schlick_facts rs : schlick rs 1 = rs /\ schlick rs 0 = spec 1 /\
  forall a b, spec_le rs (mkV 1 1 1) -> 0 <= a <= b -> b <= 1 -> spec_le rs (schlick rs b) /\
    spec_le (schlick rs b) (schlick rs a) /\ spec_le (schlick rs a) (mkV 1 1 1).
Proof.
  split; [apply V3_eq; cbn; ring|]. split; [apply V3_eq; cbn; ring|]. intros a b (L1 & L2 & L3) Ha Hb. cbn in L1, L2, L3.
  assert (P : forall x y, 0 <= x <= y -> x ^ 5 <= y ^ 5) by (intros; now apply pow_incr).
  pose proof (P (1 - b) (1 - a) ltac:(lra)) as P1. pose proof (P 0 (1 - b) ltac:(lra)) as P0.
  pose proof (P (1 - a) 1 ltac:(lra)) as P2. rewrite pow1 in P2. rewrite pow_i in P0 by lia.
  unfold spec_le, schlick, spec; cbn [vadd vsub vscale vmap vmap2 vx vy vz]. repeat split; nra.
Qed.
Lemma poly_int K :
  is_RInt (fun th => K * (1 - (1 - 1 / 2 * cos th) ^ 5) * cos th * sin th) 0 (PI / 2) (K * (23 / 56)).
Proof.
  pose proof PI_RGT_0 as HPI.
  set (G := fun c => c ^ 2 / 2 + 4 * ((1 - 1 / 2 * c) ^ 6 / 6 - (1 - 1 / 2 * c) ^ 7 / 7)).
  replace (K * (23 / 56)) with (minus (- K * G (cos (PI / 2))) (- K * G (cos 0))).
  2:{ rewrite cos_PI2, cos_0. unfold G, minus, plus, opp; cbn. field. }
  apply (is_RInt_derive (fun th => - K * G (cos th))).
  - intros x _. unfold G. auto_derive; [trivial|]. set (c := cos x). set (s := sin x). field.
  - intros x _. apply (ex_derive_continuous (fun th => K * (1 - (1 - 1 / 2 * cos th) ^ 5) * cos th * sin th)).
    auto_derive. trivial.
Qed.
Lemma blend_albedo K : hemisphere_integral (fun wi => K * (1 - (1 - 1 / 2 * abs_cos_theta wi) ^ 5) * vz wi)
  (K * (23 * PI / 28)).
Proof.
  pose proof PI_RGT_0 as HPI. exists (fun _ => K * (23 / 56)). split.
  - intros ph. apply (is_RInt_ext (fun th => K * (1 - (1 - 1 / 2 * cos th) ^ 5) * cos th * sin th)); [|apply poly_int].
    intros th Hth. rewrite Rmin_left, Rmax_right in Hth by lra. destruct (quad_trig th Hth) as [C _].
    unfold abs_cos_theta, polar; cbn [vz]. now rewrite Rabs_pos_eq by lra.
  - evar_last; [apply @is_RInt_const|]. unfold scal; cbn; unfold mult; cbn. field.
Qed.
