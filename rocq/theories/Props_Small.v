(** Property theorems C277 (equality and identity of transforms), C278 (measured scattering data) and the density of
    the Henyey-Greenstein sampler (C63). *)
From Coq Require Import Reals Lra Lia String List Bool.
From Coquelicot Require Import Coquelicot.
From Verif Require Import Base M_Geometry S_Geometry P_Geometry M_Transform S_Transform P_Transform P_Transform2 P_Transform2 P_Inverse P_Animated M_MonteCarlo S_MonteCarlo M_Spectrum M_Volume M_Small Props_MonteCarlo.
Import ListNotations.
Local Open Scope R_scope.

(** C277: two transforms compare equal exactly if their matrices agree; then they act alike on points, vectors, rays
    and boxes, and - if each holds a true inverse - on normals, and their inverses compare equal too *)
Theorem C277_equality (t u : transform) :
  (t_eq t u = true <-> tm t = tm u) /\ (t_ne t u = true <-> tm t <> tm u) /\ t_eq t t = true /\ t_eq t u = t_eq u t /\
  t_copy t = t /\
  (t_eq t u = true ->
    (forall p, t_point t p = t_point u p) /\ (forall v, t_vector t v = t_vector u v) /\ (forall r, t_ray t r = t_ray u r) /\
    (forall lo hi, t_bbox t lo hi = t_bbox u lo hi) /\
    (mmul (tm t) (tinv t) = I4 -> mmul (tinv u) (tm u) = I4 ->
      (forall n, t_normal t n = t_normal u n) /\ t_eq (t_inverse t) (t_inverse u) = true)).
Proof.
  assert (EQ : forall a b, M4_eqb a b = true <-> a = b) by (intros; apply M4_eqb_true).
  assert (SY : forall a b, M4_eqb a b = M4_eqb b a).
  { intros a b. destruct (M4_eqb a b) eqn:Q1, (M4_eqb b a) eqn:Q2; auto; exfalso.
    - apply EQ in Q1. subst. assert (M4_eqb b b = true) by now apply EQ. congruence.
    - apply EQ in Q2. subst. assert (M4_eqb a a = true) by now apply EQ. congruence. }
  unfold t_eq, t_ne. split; [apply EQ|]. split.
  { rewrite negb_true_iff. destruct (M4_eqb (tm t) (tm u)) eqn:Q.
    - apply EQ in Q. split; [discriminate|tauto].
    - split; [|auto]. intros _ H. apply EQ in H. congruence. }
  split; [now apply EQ|]. split; [apply SY|]. split; [now destruct t|].
  intros H. apply EQ in H. unfold t_point, t_vector, t_ray, t_bbox, t_normal, t_inverse.
  unfold t_point, t_vector. rewrite H. repeat (split; [reflexivity|]). intros I1 I2.
  assert (tinv t = tinv u) as ->.
  { rewrite <- (mmul_I_l (tinv t)), <- I2, mmul_assoc, I1. apply mmul_I_r. }
  split; [reflexivity|]. cbn [tm tinv]. now apply EQ.
Qed.
Print Assumptions C277_equality.
(** transforms made from a matrix hold a true inverse, so equal ones are the same in every respect *)
Theorem C277_same (m n : M4) (t u : transform) : t_of_matrix m = Ok t -> t_of_matrix n = Ok u -> t_eq t u = true -> t = u.
Proof.
  intros A B H. unfold t_eq in H. apply M4_eqb_true in H. destruct (of_matrix_inverse _ _ A) as (A1&_&_), (of_matrix_inverse _ _ B) as (B1&_&_).
  assert (m = n) as -> by congruence. congruence.
Qed.
Print Assumptions C277_same.
(** is_identity: for affine transforms, true exactly if every point stays where it is; then vectors, rays and (with a
    true inverse) normals stay too *)
Theorem C277_identity (t : transform) : affine (tm t) ->
  (is_identity t = true <-> forall p, t_point t p = p) /\
  (is_identity t = true -> (forall v, t_vector t v = v) /\ (mmul (tm t) (tinv t) = I4 -> forall n, t_normal t n = n)).
Proof.
  intros AF. unfold is_identity. rewrite M4_eqb_true. split; [split|].
  - intros H [x y z]. unfold t_point. rewrite H. cbn [row0 row1 row2 row3 I4 dot4 q0 q1 q2 q3 vx vy vz]. cbv zeta. unfold dot4. cbn [q0 q1 q2 q3].
    replace (0 * x + 0 * y + 0 * z + 1 * 1) with 1 by ring. rewrite P_Transform2.ne_unity_1. apply V3_eq; cbn; ring.
  - intros H. unfold affine in AF. unfold t_point in H. rewrite AF in H. cbv zeta in H. unfold dot4 in H. cbn [q0 q1 q2 q3] in H.
    assert (W : forall p : vec, 0 * vx p + 0 * vy p + 0 * vz p + 1 * 1 = 1) by (intros; ring).
    pose proof (H vzero) as H0. pose proof (H (mkV 1 0 0)) as H1. pose proof (H (mkV 0 1 0)) as H2. pose proof (H (mkV 0 0 1)) as H3.
    rewrite W, P_Transform2.ne_unity_1 in H0, H1, H2, H3. unfold vzero in H0. cbn [vx vy vz] in *.
    injection H0; intros. injection H1; intros. injection H2; intros. injection H3; intros.
    apply M4_ext; [apply V4_ext; cbn; lra ..|exact AF].
  - intros H. split.
    + intros [x y z]. unfold t_vector. rewrite H. unfold dot4. apply V3_eq; cbn; ring.
    + intros IN [x y z]. assert (tinv t = I4) as E by (rewrite H in IN; now rewrite mmul_I_l in IN).
      unfold t_normal. rewrite E. unfold dot4. apply V3_eq; cbn; ring.
Qed.
Print Assumptions C277_identity.
(** a transform made through the API composed with its inverse, in either order, is the identity *)
Theorem C277_inverse (t : transform) : built t -> is_identity (t_mul t (t_inverse t)) = true /\ is_identity (t_mul (t_inverse t) t) = true.
Proof.
  intros B. unfold is_identity. rewrite !M4_eqb_true. cbn [t_mul t_inverse tm tinv]. pose proof (built_valid t B) as A. unfold tvalid in A. tauto.
Qed.
Print Assumptions C277_inverse.
Example C277_ex : affine (tm (t_translate (mkV 1 2 3))) /\ is_identity (t_translate (mkV 1 2 3)) = false /\ t_eq (t_translate vzero) t_identity = true.
Proof.
  split; [reflexivity|]. split.
  - destruct (is_identity _) eqn:Q; [|reflexivity]. apply M4_eqb_true in Q. apply (f_equal (fun m => q3 (row0 m))) in Q. cbn in Q. lra.
  - apply M4_eqb_true. unfold t_translate, vzero, t_identity, I4. cbn. reflexivity.
Qed.

(** C278: measured scattering data *)
Definition nonneg3 (v : vec) : Prop := 0 <= vx v /\ 0 <= vy v /\ 0 <= vz v.
(** every name of the table gives two non-negative spectra, every other name gives None twice *)
Theorem C278_lookup_partial (name : string) :
  (In name (map fst measured_suf_sc) -> exists a b, get_volume_scattering name = (Some a, Some b) /\ nonneg3 a /\ nonneg3 b /\
     In (name, (a, b)) measured_suf_sc) /\
  (~ In name (map fst measured_suf_sc) -> get_volume_scattering name = (None, None)).
Proof.
  assert (AS : forall A (l : list (string * A)), (In name (map fst l) -> exists x, assoc name l = Some x /\ In (name, x) l) /\
     (~ In name (map fst l) -> assoc name l = None)).
  { intros A l. induction l as [|[k a] l [IH1 IH2]]; cbn [map fst In assoc]; [split; [tauto|auto]|].
    destruct (String.eqb_spec name k) as [->|N].
    - split; [intros _; exists a; auto|tauto].
    - split; [intros [E|H]; [congruence|]|intros H; apply IH2; tauto]. destruct (IH1 H) as (x & A1 & A2). exists x. auto. }
  destruct (AS _ measured_suf_sc) as [A B]. split.
  - intros H. destruct (A H) as ([a b] & E & IN). exists a, b. unfold get_volume_scattering. rewrite E. split; [reflexivity|].
    assert (ALL : List.Forall (fun x => nonneg3 (fst (snd x)) /\ nonneg3 (snd (snd x))) measured_suf_sc).
    { unfold measured_suf_sc. repeat (constructor; [unfold nonneg3; cbn [fst snd vx vy vz]; lra|]). constructor. }
    rewrite List.Forall_forall in ALL. destruct (ALL _ IN) as [A1 A2]. auto.
  - intros H. unfold get_volume_scattering. now rewrite (B H).
Qed.
Print Assumptions C278_lookup_partial.
(** the documented order is [sigma_a, sigma'_s].  The published coefficients of marble (Jensen et al. 2001, table 1, from
    which the table was taken through pbrt): absorption (0.0021, 0.0041, 0.0071), reduced scattering (2.19, 2.62, 3.00) *)
Definition marble_sigma_a : vec := mkV (21 / 10000) (41 / 10000) (71 / 10000).
Definition marble_sigma_prime_s : vec := mkV (219 / 100) (262 / 100) 3.
Theorem C278_order_refuted : get_volume_scattering "Marble" <> (Some marble_sigma_a, Some marble_sigma_prime_s) /\
  get_volume_scattering "Marble" = (Some marble_sigma_prime_s, Some marble_sigma_a).
Proof.
  assert (E : get_volume_scattering "Marble" = (Some marble_sigma_prime_s, Some marble_sigma_a)).
  { unfold get_volume_scattering. cbn [assoc measured_suf_sc String.eqb Ascii.eqb Bool.eqb]. unfold rgb_from_rgb, marble_sigma_a, marble_sigma_prime_s.
    f_equal; apply f_equal; apply V3_eq; cbn [vx vy vz]; lra. }
  split; [|exact E]. rewrite E. unfold marble_sigma_prime_s, marble_sigma_a. intros H. injection H. lra.
Qed.
Print Assumptions C278_order_refuted.

(** C63: the Henyey-Greenstein sampler has the density hg_pdf: the variates sent to the zone of directions whose cosine
    to [w] lies in [a, b] form an interval whose length is the integral of the density over that zone (2 pi times the
    integral over the cosine) *)
Definition hgD (g c : R) : R := 1 + g * g - 2 * g * c.
Definition hgF (g c : R) : R := (1 - g * g) / (2 * g) * (/ sqrt (hgD g c) - / (1 + g)).
Lemma hgD_pos g c : -1 < g < 1 -> -1 <= c <= 1 -> 0 < hgD g c.
Proof. intros G C. unfold hgD. destruct (Rle_lt_dec 0 g); nra. Qed.
Lemma hgF_mono g x y : -1 < g < 1 -> g <> 0 -> -1 <= x <= 1 -> -1 <= y <= 1 -> x < y -> hgF g x < hgF g y.
Proof.
  intros G G0 X Y L. pose proof (hgD_pos g x G X) as DX. pose proof (hgD_pos g y G Y) as DY. unfold hgF.
  pose proof (sqrt_lt_R0 _ DX) as SX. pose proof (sqrt_lt_R0 _ DY) as SY.
  assert (K : 0 < 1 - g * g) by nra.
  destruct (Rdichotomy _ _ G0) as [N|P].
  - assert (DL : hgD g x < hgD g y) by (unfold hgD; nra). apply sqrt_lt_1 in DL; [|lra|lra].
    assert (/ sqrt (hgD g y) < / sqrt (hgD g x)) by (apply Rinv_lt_contravar; nra).
    assert ((1 - g * g) / (2 * g) < 0).
    { unfold Rdiv. assert (/ (2 * g) < 0) by (apply Rinv_lt_0_compat; lra). nra. }
    nra.
  - assert (DL : hgD g y < hgD g x) by (unfold hgD; nra). apply sqrt_lt_1 in DL; [|lra|lra].
    assert (/ sqrt (hgD g x) < / sqrt (hgD g y)) by (apply Rinv_lt_contravar; nra).
    assert (0 < (1 - g * g) / (2 * g)).
    { apply Rdiv_lt_0_compat; lra. }
    nra.
Qed.
Lemma hg_integral g a b w (dir : R -> vec) : -1 < g < 1 -> g <> 0 -> -1 <= a <= b -> b <= 1 -> (forall c, vdot w (dir c) = c) ->
  is_RInt (fun c => 2 * PI * hg_pdf w (dir c) g) a b (hgF g b - hgF g a).
Proof.
  intros G G0 A B D.
  assert (IN : forall c, Rmin a b <= c <= Rmax a b -> 0 < hgD g c).
  { intros c. rewrite Rmin_left, Rmax_right by lra. intros H. apply hgD_pos; lra. }
  apply (is_RInt_ext (fun c => (1 - g * g) / 2 / (hgD g c * sqrt (hgD g c)))).
  { intros c Hc. assert (P : 0 < hgD g c) by (apply IN; lra).
    unfold hg_pdf, phase_hg. rewrite D. cbv zeta. fold (hgD g c).
    replace (Rpower (hgD g c) (3 / 2)) with (hgD g c * sqrt (hgD g c)).
    - pose proof PI_RGT_0. pose proof (sqrt_lt_R0 _ P). match goal with |- ?a = ?b => change (@eq R a b) end. field. lra.
    - replace (3 / 2) with (1 + / 2) by lra. rewrite Rpower_plus, Rpower_1, Rpower_sqrt by exact P. reflexivity. }
  apply (is_RInt_derive (hgF g)).
  - intros c Hc. specialize (IN c Hc). unfold hgF, hgD in *. pose proof (sqrt_lt_R0 _ IN) as SQ.
    auto_derive; change (1 + g * g + - (2 * g * c)) with (1 + g * g - 2 * g * c); [split; [lra|]; split; [lra|exact Logic.I]|].
    assert (SS : sqrt (1 + g * g - 2 * g * c) * sqrt (1 + g * g - 2 * g * c) = 1 + g * g - 2 * g * c) by (apply sqrt_sqrt; lra).
    set (s := sqrt (1 + g * g - 2 * g * c)) in *.
    rewrite <- SS. field. lra.
  - intros c Hc. specialize (IN c Hc). unfold hgD in *. pose proof (sqrt_lt_R0 _ IN).
    apply (ex_derive_continuous (fun c => (1 - g * g) / 2 / ((1 + g * g - 2 * g * c) * sqrt (1 + g * g - 2 * g * c)))).
    auto_derive; change (1 + g * g + - (2 * g * c)) with (1 + g * g - 2 * g * c). repeat split; try lra. apply Rgt_not_eq. apply Rmult_lt_0_compat; lra.
Qed.
Theorem C63_hg_density (w : vec) (g a b : R) (dir : R -> vec) : unit w -> -1 < g < 1 -> EPS <= Rabs g -> -1 <= a <= b -> b <= 1 ->
  (forall c, vdot w (dir c) = c) ->
  exists lo hi, (forall u1 u2, 0 <= u1 <= 1 -> 0 <= u2 <= 1 ->
      (a <= vdot (sample_hg w g u1 u2) w <= b <-> lo <= u1 <= hi)) /\
    is_RInt (fun c => 2 * PI * hg_pdf w (dir c) g) a b (hi - lo).
Proof.
  intros U G GE A B D.
  assert (G0 : g <> 0) by (intros ->; rewrite Rabs_R0 in GE; unfold EPS in GE; lra).
  exists (hgF g a), (hgF g b). split; [|now apply hg_integral].
  intros u1 u2 H1 H2. destruct (C63_sampling_laws u1 u2 H1 H2) as (_&_&_&_&_&_&HG&_).
  destruct (HG w g U G GE) as [C E]. cbv zeta in E. set (c := vdot (sample_hg w g u1 u2) w) in *.
  clearbody c. change (hgF g c = u1) in E. rewrite <- E.
  assert (M : forall x y, -1 <= x <= 1 -> -1 <= y <= 1 -> (x <= y <-> hgF g x <= hgF g y)).
  { intros x y X Y. split; intros Q.
    - destruct Q as [Q|Q]; [left; now apply hgF_mono|subst; lra].
    - destruct (Rle_lt_dec x y) as [|L]; [assumption|]. apply (hgF_mono g) in L; auto. lra. }
  rewrite <- (M a c), <- (M c b) by lra. tauto.
Qed.
Print Assumptions C63_hg_density.
Example C63_hg_ex : unit (mkV 0 0 1) /\ EPS <= Rabs (1 / 2) /\ forall c, vdot (mkV 0 0 1) (mkV (sqrt (1 - c * c)) 0 c) = c.
Proof.
  split; [unfold unit, vdot; cbn; ring|]. split; [rewrite Rabs_pos_eq by lra; unfold EPS; lra|]. intros c. unfold vdot. cbn. ring.
Qed.
