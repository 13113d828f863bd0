(** Proofs about the Monte Carlo model. *)
From Coq Require Import Reals Lra Lia List Bool ZArith Psatz.
From Verif Require Import Base M_Geometry S_Geometry P_Geometry M_Transform M_MonteCarlo S_MonteCarlo.
Import ListNotations.
Open Scope R_scope.

(** ** heuristics *)
Lemma frac_01 a b : 0 <= a -> 0 <= b -> 0 < a + b -> 0 <= a / (a + b) <= 1.
Proof.
  intros A B C. split.
  - apply Rmult_le_pos; auto. left; now apply Rinv_0_lt_compat.
  - apply Rmult_le_reg_r with (a + b); auto. unfold Rdiv. rewrite Rmult_assoc, Rinv_l; lra.
Qed.
Lemma frac_sum a b : 0 < a + b -> a / (a + b) + b / (b + a) = 1.
Proof. intros. field. lra. Qed.

Lemma heuristics_main nf ng f g : 0 <= f -> 0 <= g -> 0 < INR nf * f + INR ng * g ->
  0 <= balance_heuristic nf f ng g <= 1 /\ 0 <= power_heuristic nf f ng g <= 1 /\
  balance_heuristic nf f ng g + balance_heuristic ng g nf f = 1 /\
  power_heuristic nf f ng g + power_heuristic ng g nf f = 1.
Proof.
  intros F G P. unfold balance_heuristic, power_heuristic.
  assert (A : 0 <= INR nf * f) by (apply Rmult_le_pos; auto using pos_INR).
  assert (B : 0 <= INR ng * g) by (apply Rmult_le_pos; auto using pos_INR).
  set (a := INR nf * f) in *. set (b := INR ng * g) in *.
  assert (0 < a * a + b * b) by (pose proof (Rle_0_sqr (a - b)) as Q; unfold Rsqr in Q; assert (0 < (a + b) * (a + b)) by (apply Rmult_lt_0_compat; lra); lra).
  split; [now apply frac_01|]. split; [apply frac_01; auto; nra|].
  split; now apply frac_sum.
Qed.

(** ** directions *)
Lemma cs1 t : cos t * cos t + sin t * sin t = 1.
Proof. pose proof (sin2_cos2 t) as H. unfold Rsqr in H. lra. Qed.
Lemma sqrt_pmax_sq x : 0 <= x -> sqrt (pmax 0 x) * sqrt (pmax 0 x) = x.
Proof.
  intros H. rewrite sqrt_sqrt.
  - unfold pmax. Rcase; lra.
  - unfold pmax. Rcase; lra.
Qed.
Lemma polar_unit r c z phi : r * r + z * z = 1 -> c = phi -> unit (mkV (r * cos phi) (r * sin c) z).
Proof. intros H ->. unfold unit; cbn. pose proof (cs1 phi). nra. Qed.
Lemma unit_eq a b c r : a*a + b*b = r -> r + c*c = 1 -> unit (mkV a b c).
Proof. unfold unit; cbn; intros; lra. Qed.

Lemma hemisphere_unit u1 u2 : 0 <= u1 <= 1 ->
  unit (uniform_sample_hemisphere u1 u2) /\ vz (uniform_sample_hemisphere u1 u2) = u1.
Proof.
  intros H. split; [|reflexivity]. unfold uniform_sample_hemisphere. apply polar_unit; auto.
  rewrite sqrt_pmax_sq; nra.
Qed.
Lemma sphere_unit u1 u2 : 0 <= u1 <= 1 ->
  unit (uniform_sample_sphere u1 u2) /\ vz (uniform_sample_sphere u1 u2) = 1 - 2 * u1.
Proof.
  intros H. split; [|reflexivity]. unfold uniform_sample_sphere. apply polar_unit; auto.
  rewrite sqrt_pmax_sq; nra.
Qed.
Lemma disk_radius u1 u2 : 0 <= u1 ->
  let '(x, y) := uniform_sample_disk u1 u2 in x * x + y * y = u1.
Proof.
  intros H. unfold uniform_sample_disk. pose proof (cs1 (2 * PI * u2)). pose proof (sqrt_sqrt u1 H).
  set (s := sqrt u1) in *. nra.
Qed.
Lemma triangle_bary u1 u2 : 0 <= u1 <= 1 -> 0 <= u2 <= 1 ->
  let '(b1, b2) := uniform_sample_triangle u1 u2 in 0 <= b1 /\ 0 <= b2 /\ b1 + b2 <= 1 /\
    (1 - b1) * (1 - b1) = u1 /\ b2 = u2 * (1 - b1).
Proof.
  intros H H2. unfold uniform_sample_triangle. pose proof (sqrt_sqrt u1 (proj1 H)).
  pose proof (sqrt_pos u1). assert (sqrt u1 <= 1) by (rewrite <- sqrt_1; apply sqrt_le_1_alt; lra).
  set (s := sqrt u1) in *. repeat split; nra.
Qed.

Lemma concentric_r sx sy : ~ (sx = 0 /\ sy = 0) ->
  fst (concentric_polar sx sy) = Rmax (Rabs sx) (Rabs sy).
Proof.
  intros H. unfold concentric_polar.
  destruct (Rltb (- sy) sx) eqn:A; destruct (Rltb sy sx) eqn:B; Rb; cbn [fst].
  - rewrite (Rabs_pos_eq sx) by lra. symmetry. apply Rmax_left. apply Rabs_le. lra.
  - rewrite (Rabs_pos_eq sy) by lra. symmetry. apply Rmax_right. apply Rabs_le. lra.
  - rewrite (Rabs_left1 sy) by lra. symmetry. apply Rmax_right. apply Rabs_le. lra.
  - rewrite (Rabs_left1 sx) by lra. symmetry. apply Rmax_left. apply Rabs_le. lra.
Qed.
Lemma concentric_main u1 u2 :
  let '(x, y) := concentric_sample_disk u1 u2 in
  let r := Rmax (Rabs (2 * u1 - 1)) (Rabs (2 * u2 - 1)) in x * x + y * y = r * r.
Proof.
  unfold concentric_sample_disk.
  destruct (Reqb (2 * u1 - 1) 0 && Reqb (2 * u2 - 1) 0) eqn:C.
  - apply andb_true_iff in C as [C1 C2]. Rb. rewrite C1, C2, Rabs_R0, Rmax_left by lra. ring.
  - assert (N : ~ (2 * u1 - 1 = 0 /\ 2 * u2 - 1 = 0)).
    { intros [A B]. rewrite A, B in C. unfold Reqb in C. destruct (Req_EM_T 0 0); cbn in C; congruence. }
    pose proof (concentric_r _ _ N) as E. destruct (concentric_polar _ _) as [r th]. cbn [fst] in E.
    rewrite <- E. pose proof (cs1 th). nra.
Qed.

Lemma cosine_main u1 u2 : 0 <= u1 <= 1 ->
  let v := cosine_sample_hemisphere u1 u2 in unit v /\ vz v = Rabs (1 - 2 * u1).
Proof.
  intros H. pose proof (sphere_unit u1 u2 H) as [U Z]. unfold cosine_sample_hemisphere.
  set (v := uniform_sample_sphere u1 u2) in *. clearbody v. unfold unit in *. cbn.
  assert (E : 1 - vx v * vx v - vy v * vy v = vz v * vz v) by lra.
  rewrite E. split.
  - rewrite sqrt_pmax_sq; nra.
  - rewrite Z. unfold pmax. destruct (Rltb 0 _) eqn:C; Rb.
    + apply sqrt_Rsqr_abs.
    + assert ((1 - 2 * u1) = 0) by nra. rewrite H0, Rabs_R0. apply sqrt_0.
Qed.
Lemma cosine_law c u1 u2 : 0 <= u1 <= 1 -> 0 <= c <= 1 ->
  (vz (cosine_sample_hemisphere u1 u2) <= c <-> (1 - c) / 2 <= u1 <= (1 + c) / 2).
Proof.
  intros H Hc. rewrite (proj2 (cosine_main u1 u2 H)). split.
  - intros A. apply Rabs_le_inv in A || (assert (- c <= 1 - 2 * u1 <= c) by (now apply Rabs_def2b || (split; [pose proof (Rle_abs (-(1 - 2*u1))) as Q; rewrite Rabs_Ropp in Q|pose proof (Rle_abs (1 - 2*u1)) as Q]; lra))). lra.
  - intros A. apply Rabs_le. lra.
Qed.

Lemma frame_comb x y z a b c : frame x y z -> a * a + b * b + c * c = 1 ->
  let v := vadd (vadd (vscale a x) (vscale b y)) (vscale c z) in unit v /\ vdot v z = c.
Proof.
  intros (A&B&C&D&E&F) H. unfold unit, orth, vdot, vadd, vscale, vmap2, vmap in *; cbn in *.
  destruct x as [x1 x2 x3], y as [y1 y2 y3], z as [z1 z2 z3]; cbn in *. split.
  - replace ((a * x1 + b * y1 + c * z1) * (a * x1 + b * y1 + c * z1) +
    (a * x2 + b * y2 + c * z2) * (a * x2 + b * y2 + c * z2) +
    (a * x3 + b * y3 + c * z3) * (a * x3 + b * y3 + c * z3))
    with (a*a*(x1*x1+x2*x2+x3*x3) + b*b*(y1*y1+y2*y2+y3*y3) + c*c*(z1*z1+z2*z2+z3*z3)
      + 2*a*b*(x1*y1+x2*y2+x3*y3) + 2*a*c*(x1*z1+x2*z2+x3*z3) + 2*b*c*(y1*z1+y2*z2+y3*z3)) by ring.
    rewrite A, B, C, D, E, F. lra.
  - replace ((a * x1 + b * y1 + c * z1) * z1 + (a * x2 + b * y2 + c * z2) * z2 + (a * x3 + b * y3 + c * z3) * z3)
    with (c*(z1*z1+z2*z2+z3*z3) + a*(x1*z1+x2*z2+x3*z3) + b*(y1*z1+y2*z2+y3*z3)) by ring.
    rewrite C, E, F. lra.
Qed.
Lemma cone_main u1 u2 ctm x y z : 0 <= u1 <= 1 -> -1 <= ctm <= 1 -> frame x y z ->
  let v := uniform_sample_cone u1 u2 ctm x y z in
  unit v /\ vdot v z = (1 - u1) * ctm + u1 /\ ctm <= vdot v z <= 1.
Proof.
  intros H Hc F. cbn zeta. unfold uniform_sample_cone. set (ct := lerp u1 ctm 1).
  assert (Ect : ct = (1 - u1) * ctm + u1) by (unfold ct, lerp; ring).
  assert (R : ctm <= ct <= 1) by nra.
  assert (Q : sqrt (1 - ct * ct) * sqrt (1 - ct * ct) = 1 - ct * ct) by (apply sqrt_sqrt; nra).
  set (st := sqrt (1 - ct * ct)) in *. set (p := u2 * 2 * PI). pose proof (cs1 p).
  destruct (frame_comb x y z (cos p * st) (sin p * st) ct F) as [U D]; [nra|].
  cbn zeta in U, D. rewrite D. split; [exact U|]. split; [exact Ect|exact R].
Qed.

Lemma hg_cos_range g u1 : -1 < g < 1 -> 0 <= u1 <= 1 -> -1 <= hg_cos g u1 <= 1.
Proof.
  intros Hg Hu. unfold hg_cos. destruct (Rltb (Rabs g) EPS) eqn:C; [lra|]. Rb.
  assert (G0 : g <> 0) by (intros ->; rewrite Rabs_R0 in C; pose proof EPS_pos; lra).
  set (d := 1 - g + 2 * g * u1).
  assert (D : 1 - Rabs g <= d <= 1 + Rabs g).
  { unfold d, Rabs. destruct (Rcase_abs g); nra. }
  assert (A : 0 <= Rabs g < 1) by (split; [apply Rabs_pos|apply Rabs_def1; lra]).
  set (s := (1 - g * g) / d).
  assert (gg : g * g = Rabs g * Rabs g) by (unfold Rabs; destruct Rcase_abs; ring).
  assert (S : 1 - Rabs g <= s <= 1 + Rabs g).
  { unfold s. split; apply Rmult_le_reg_r with d; try lra; unfold Rdiv; rewrite Rmult_assoc, Rinv_l by lra; nra. }
  assert (S2 : (1 - Rabs g) * (1 - Rabs g) <= s * s <= (1 + Rabs g) * (1 + Rabs g)) by nra.
  assert (X : - Rabs (2 * g) <= 1 + g * g - s * s <= Rabs (2 * g)).
  { rewrite Rabs_mult, (Rabs_pos_eq 2) by lra. nra. }
  destruct (Rlt_dec 0 g).
  - rewrite Rabs_pos_eq in X by lra.
    split; apply Rmult_le_reg_r with (2 * g); try lra; unfold Rdiv; rewrite Rmult_assoc, Rinv_l by lra; lra.
  - rewrite Rabs_left in X by lra.
    split; apply Rmult_le_reg_r with (- (2 * g)); try lra; unfold Rdiv;
      replace ((1 + g * g - s * s) * / (2 * g) * - (2 * g)) with (- (1 + g * g - s * s)) by (field; lra); lra.
Qed.
Lemma coord_frame w : unit w -> let '(_, a, b) := coordinate_system w in frame a b w.
Proof.
  intros U. pose proof (coordinate_system_ortho w U) as H. destruct (coordinate_system w) as [[x a] b].
  destruct H as (->&A&B&C&D&E). unfold frame, orth in *. repeat split; auto; lra.
Qed.
Lemma hg_main w g u1 u2 : unit w -> -1 < g < 1 -> 0 <= u1 <= 1 ->
  let v := sample_hg w g u1 u2 in unit v /\ vdot v w = hg_cos g u1 /\ -1 <= hg_cos g u1 <= 1.
Proof.
  intros U Hg Hu. cbn zeta. pose proof (hg_cos_range g u1 Hg Hu) as R.
  unfold sample_hg. pose proof (coord_frame w U) as F. destruct (coordinate_system w) as [[x a] b].
  set (ct := hg_cos g u1) in *. unfold spherical_direction_basis.
  set (p := 2 * PI * u2). set (st := sqrt _).
  assert (Q : st * st = 1 - ct * ct) by (unfold st; apply sqrt_pmax_sq; nra).
  assert (VS : forall k l (v : vec), vscale k (vscale l v) = vscale (k * l) v).
  { intros. unfold vscale, vmap; cbn. apply V3_eq; cbn; ring. }
  rewrite !VS. pose proof (cs1 p).
  destruct (frame_comb a b w (cos p * st) (sin p * st) ct F) as [A B]; [nra|]. auto.
Qed.
(** inverse-CDF law of the sampled cosine, for |g| >= EPS *)
Lemma hg_law g u1 : -1 < g < 1 -> EPS <= Rabs g -> 0 <= u1 <= 1 ->
  let c := hg_cos g u1 in
  0 < 1 + g * g - 2 * g * c /\
  (1 - g * g) / (2 * g) * (/ sqrt (1 + g * g - 2 * g * c) - / (1 + g)) = u1.
Proof.
  intros Hg He Hu. cbn zeta. unfold hg_cos.
  assert (Rltb (Rabs g) EPS = false) as -> by (apply Rltb_false; auto).
  assert (G0 : g <> 0) by (intros ->; rewrite Rabs_R0 in He; pose proof EPS_pos; lra).
  set (d := 1 - g + 2 * g * u1). assert (D : 0 < d) by (unfold d; nra).
  set (s := (1 - g * g) / d).
  assert (S : 0 < s) by (unfold s; apply Rdiv_lt_0_compat; nra).
  replace (1 + g * g - 2 * g * ((1 + g * g - s * s) / (2 * g))) with (s * s) by (field; lra).
  split; [nra|]. rewrite sqrt_square by lra. unfold s.
  replace (1 - g * g) with ((1 - g) * (1 + g)) by ring.
  replace (u1) with ((d - (1 - g)) / (2 * g)) by (unfold d; field; lra).
  field. repeat split; lra.
Qed.

Lemma rejection_main rng : forall fuel k x y n, rejection_loop rng k fuel = Some (x, y, n) ->
  x * x + y * y <= 1 /\ exists j, (k <= j)%nat /\ n = S (S j) /\ x = 1 - 2 * rng j /\ y = 1 - 2 * rng (S j).
Proof.
  induction fuel as [|f IH]; intros k x y n; cbn [rejection_loop]; [discriminate|].
  destruct (Rltb 1 _) eqn:C.
  - intros H. apply IH in H. destruct H as (A&j&B&H). split; auto. exists j. split; [lia|auto].
  - intros H. injection H as <- <- <-. Rb. split; auto. exists k. auto.
Qed.
Lemma rejection_accepts rng : forall m k, 
  (let x := 1 - 2 * rng (k + 2 * m)%nat in let y := 1 - 2 * rng (S (k + 2 * m))%nat in x * x + y * y <= 1) ->
  forall fuel, (m < fuel)%nat -> exists r, rejection_loop rng k fuel = Some r.
Proof.
  induction m as [|m IH]; intros k H [|fuel] Hf; try lia; cbn [rejection_loop]; cbn zeta in *.
  - rewrite Nat.mul_0_r, Nat.add_0_r in H. destruct (Rltb 1 _) eqn:C; Rb; [lra|eauto].
  - destruct (Rltb 1 _) eqn:C; Rb; [|eauto].
    apply IH; [|lia]. replace (S (S k) + 2 * m)%nat with (k + 2 * S m)%nat by lia. exact H.
Qed.

(** ** assembled statements *)
Lemma domains_main (u1 u2 : R) : 0 <= u1 <= 1 -> 0 <= u2 <= 1 ->
  unit (uniform_sample_sphere u1 u2) /\
  unit (uniform_sample_hemisphere u1 u2) /\ 0 <= vz (uniform_sample_hemisphere u1 u2) /\
  (let '(x, y) := uniform_sample_disk u1 u2 in x * x + y * y <= 1) /\
  (let '(x, y) := concentric_sample_disk u1 u2 in x * x + y * y <= 1) /\
  (let '(b1, b2) := uniform_sample_triangle u1 u2 in 0 <= b1 /\ 0 <= b2 /\ b1 + b2 <= 1) /\
  (forall ct_max x y z, -1 <= ct_max <= 1 -> frame x y z ->
     let v := uniform_sample_cone u1 u2 ct_max x y z in unit v /\ ct_max <= vdot v z <= 1) /\
  (forall w g, unit w -> -1 < g < 1 -> unit (sample_hg w g u1 u2)).
Proof.
  intros H1 H2.
  split; [now apply sphere_unit|]. split; [now apply hemisphere_unit|].
  split; [rewrite (proj2 (hemisphere_unit u1 u2 H1)); lra|].
  split. { pose proof (disk_radius u1 u2 (proj1 H1)) as D. destruct (uniform_sample_disk u1 u2). lra. }
  split.
  { pose proof (concentric_main u1 u2) as D. destruct (concentric_sample_disk u1 u2) as [x y]. cbn zeta in D. rewrite D.
    assert (0 <= Rmax (Rabs (2 * u1 - 1)) (Rabs (2 * u2 - 1)) <= 1).
    { split; [eapply Rle_trans; [apply Rabs_pos|apply Rmax_l]|]. apply Rmax_lub; apply Rabs_le; lra. }
    nra. }
  split.
  { pose proof (triangle_bary u1 u2 H1 H2) as D. destruct (uniform_sample_triangle u1 u2). tauto. }
  split.
  { intros c x y z Hc F. destruct (cone_main u1 u2 c x y z H1 Hc F) as (A&B&C). auto. }
  intros w g U G. now apply hg_main.
Qed.
Lemma rejection_both (rng : nat -> R) :
  (forall fuel x y n, rejection_sample_disk rng fuel = Some (x, y, n) -> x * x + y * y <= 1) /\
  (forall m, (let x := 1 - 2 * rng (2 * m)%nat in let y := 1 - 2 * rng (S (2 * m))%nat in x * x + y * y <= 1) ->
     exists r, rejection_sample_disk rng (S m) = Some r).
Proof.
  split.
  - intros fuel x y n H. now apply rejection_main in H.
  - intros m H. apply (rejection_accepts rng m 0); [exact H|lia].
Qed.
Lemma cosine_domain u1 u2 : 0 <= u1 <= 1 ->
  unit (cosine_sample_hemisphere u1 u2) /\ 0 <= vz (cosine_sample_hemisphere u1 u2).
Proof. intros H. destruct (cosine_main u1 u2 H) as [A B]. split; auto. rewrite B. apply Rabs_pos. Qed.
Lemma cosine_law_bad c u1 u2 : 0 <= u1 <= 1 -> 0 < c < 1 ->
  (vz (cosine_sample_hemisphere u1 u2) <= c <-> (1 - c) / 2 <= u1 <= (1 + c) / 2) /\
  (1 + c) / 2 - (1 - c) / 2 <> c * c.
Proof. intros H Hc. split; [apply cosine_law; lra|]. intros E. nra. Qed.
Lemma laws_main (u1 u2 : R) : 0 <= u1 <= 1 -> 0 <= u2 <= 1 ->
  (1 + vz (uniform_sample_sphere u1 u2)) / 2 = 1 - u1 /\
  vz (uniform_sample_hemisphere u1 u2) = u1 /\
  (let '(x, y) := uniform_sample_disk u1 u2 in x * x + y * y = u1) /\
  (forall c, 0 <= c -> let '(x, y) := concentric_sample_disk u1 u2 in
     x * x + y * y <= c * c <-> Rabs (2 * u1 - 1) <= c /\ Rabs (2 * u2 - 1) <= c) /\
  (let '(b1, b2) := uniform_sample_triangle u1 u2 in (1 - b1) * (1 - b1) = u1 /\ b2 = u2 * (1 - b1)) /\
  (forall ct_max x y z, -1 <= ct_max <= 1 -> frame x y z ->
     vdot (uniform_sample_cone u1 u2 ct_max x y z) z = ct_max + u1 * (1 - ct_max)) /\
  (forall w g, unit w -> -1 < g < 1 -> EPS <= Rabs g ->
     let c := vdot (sample_hg w g u1 u2) w in
     -1 <= c <= 1 /\ (1 - g * g) / (2 * g) * (/ sqrt (1 + g * g - 2 * g * c) - / (1 + g)) = u1) /\
  (forall w g, unit w -> Rabs g < EPS -> (1 + vdot (sample_hg w g u1 u2) w) / 2 = 1 - u1).
Proof.
  intros H1 H2.
  split; [rewrite (proj2 (sphere_unit u1 u2 H1)); lra|]. split; [reflexivity|].
  split; [exact (disk_radius u1 u2 (proj1 H1))|].
  split.
  { intros c Hc. pose proof (concentric_main u1 u2) as D. destruct (concentric_sample_disk u1 u2) as [x y].
    cbn zeta in D. rewrite D. set (a := Rabs (2 * u1 - 1)). set (b := Rabs (2 * u2 - 1)).
    assert (0 <= a) by apply Rabs_pos. pose proof (Rmax_l a b). pose proof (Rmax_r a b). split.
    - intros L. assert (Rmax a b <= c) by nra. lra.
    - intros [A B]. assert (Rmax a b <= c) by now apply Rmax_lub. nra. }
  split.
  { pose proof (triangle_bary u1 u2 H1 H2) as D. destruct (uniform_sample_triangle u1 u2). tauto. }
  split.
  { intros c x y z Hc F. destruct (cone_main u1 u2 c x y z H1 Hc F) as (_&B&_). rewrite B. ring. }
  split.
  { intros w g U G E. cbn zeta. destruct (hg_main w g u1 u2 U G H1) as (_&B&C). rewrite B. split; auto.
    now apply hg_law. }
  intros w g U G. assert (-1 < g < 1).
  { apply Rabs_def2 in G. unfold EPS in G. lra. }
  destruct (hg_main w g u1 u2 U H H1) as (_&B&_). rewrite B. unfold hg_cos.
  replace (Rltb (Rabs g) EPS) with true by (symmetry; now apply Rltb_true). lra.
Qed.
