(** Property theorems C59, C60, C121-C130 (participating media).  Vocabulary: S_Volume.v, S_Geometry.v. *)
From Coq Require Import Reals Lra Lia List Bool ZArith.
From Coquelicot Require Import Coquelicot.
From Verif Require Import Base M_Geometry S_Geometry P_Geometry M_Transform S_Transform P_Transform P_Transform2
  M_Volume S_Volume P_Volume1 P_Volume2 P_Volume3 P_Volume4 P_Volume5.
Import ListNotations.
Open Scope R_scope.

(** C59: the isotropic, Rayleigh, Mie and Henyey-Greenstein phase functions are positive,
    symmetric and integrate to one over the sphere of directions. *)
Theorem C59_phase_positive (w wp : vec) (g : R) : unit w -> unit wp -> Rabs g < 1 ->
  0 < phase_isotropic w wp /\ 0 < phase_rayleigh w wp /\ 0 < phase_mie_hazy w wp /\
  0 < phase_mie_murky w wp /\ 0 < phase_hg w wp g.
Proof. apply phases_positive. Qed.
Print Assumptions C59_phase_positive.
Theorem C59_phase_symmetric (w wp : vec) (g : R) :
  phase_isotropic w wp = phase_isotropic wp w /\ phase_rayleigh w wp = phase_rayleigh wp w /\
  phase_mie_hazy w wp = phase_mie_hazy wp w /\ phase_mie_murky w wp = phase_mie_murky wp w /\
  phase_hg w wp g = phase_hg wp w g.
Proof. destruct (phases_symmetric w wp g) as (A & B & C & D & F & _). auto. Qed.
Print Assumptions C59_phase_symmetric.
Theorem C59_phase_normalised (x y w : vec) (g : R) : frame x y w -> Rabs g < 1 ->
  sphere_integral (phase_isotropic w) x y w 1 /\ sphere_integral (phase_rayleigh w) x y w 1 /\
  sphere_integral (phase_mie_hazy w) x y w 1 /\ sphere_integral (phase_mie_murky w) x y w 1 /\
  sphere_integral (fun wp => phase_hg w wp g) x y w 1.
Proof.
  intros F G. split; [now apply isotropic_normalised|]. split; [now apply rayleigh_normalised|].
  split; [now apply hazy_normalised|]. split; [now apply murky_normalised|]. now apply hg_normalised.
Qed.
Print Assumptions C59_phase_normalised.
(** larger cosines are likelier for g > 0: Henyey-Greenstein scatters about [w] *)
Theorem C59_hg_forward (w a b : vec) (g : R) : unit w -> unit a -> unit b -> 0 < g < 1 ->
  vdot w a < vdot w b -> phase_hg w a g < phase_hg w b g.
Proof.
  intros Uw Ua Ub G H. pose proof (dot_unit_range w a Uw Ua) as D1. pose proof (dot_unit_range w b Uw Ub) as D2.
  assert (Ag : Rabs g < 1) by (rewrite Rabs_pos_eq; lra).
  pose proof (hg_base_pos g _ Ag D1) as P1. pose proof (hg_base_pos g _ Ag D2) as P2.
  unfold phase_hg; cbv zeta. pose proof PI_RGT_0.
  assert (X : 1 + g * g - 2 * g * vdot w b < 1 + g * g - 2 * g * vdot w a) by nra.
  set (p := 1 + g * g - 2 * g * vdot w a) in *. set (q := 1 + g * g - 2 * g * vdot w b) in *.
  assert (Y : Rpower q (3 / 2) < Rpower p (3 / 2)) by (apply Rlt_Rpower_l; lra).
  assert (Z0 : 0 < Rpower q (3 / 2)) by (unfold Rpower; apply exp_pos).
  unfold Rdiv. apply Rmult_lt_compat_r. { apply Rinv_0_lt_compat; lra. }
  apply Rmult_lt_compat_l. { nra. } apply Rinv_lt_contravar; auto. apply Rmult_lt_0_compat; lra.
Qed.
Print Assumptions C59_hg_forward.
Example C59_ex : frame (mkV 1 0 0) (mkV 0 1 0) (mkV 0 0 1) /\ Rabs (1 / 2) < 1.
Proof. split; [|rewrite Rabs_pos_eq; lra]. unfold frame, unit, orth; cbn. repeat split; ring. Qed.

(** C60: homogeneous media placed without a transform.  The optical thickness is extinction times
    the length of the part of the ray inside the box, splits at every point of the ray and is
    non-negative. *)
Theorem C60_homogeneous_tau (h : homog) (r : ray) (m : R) :
  h_v2w h = t_identity -> vle (h_lo h) (h_hi h) -> ray_face_ok (h_lo h) (h_hi h) r ->
  rmint r = Fin m -> notnan (rmaxt r) -> rd r <> vzero ->
  (exists x y, x <= y /\
     (forall t, (x <= t <= y <-> in_range (rmint r) (rmaxt r) t /\ h_inside h (ray_at r t) = true)) /\
     forall s o, h_tau h r s o = Some (vscale ((y - x) * vlength (rd r)) (vadd (h_a h) (h_s h)))) \/
  ((forall t, in_range (rmint r) (rmaxt r) t -> h_inside h (ray_at r t) = false) /\
   forall s o, h_tau h r s o = Some vzero).
Proof.
  intros Hi L F M N D.
  assert (K : forall p, h_inside h p = true <-> between (h_lo h) p (h_hi h)).
  { intros p. unfold h_inside, h_w2v. rewrite Hi, t_point_identity, inside_in, in_fbox. tauto. }
  destruct (h_tau_value h r m L F M N D) as [(x & y & Q1 & Q2 & Q3)|(Q1 & Q2)].
  - left. exists x, y. split; [auto|]. split; [|auto]. intros t. rewrite K. apply Q2.
  - right. split; [|auto]. intros t Ht. destruct (h_inside h (ray_at r t)) eqn:Q; auto.
    apply K in Q. destruct (Q1 t Ht Q).
Qed.
Print Assumptions C60_homogeneous_tau.
Theorem C60_tau_additive (h : homog) (r : ray) (m t : R) (s o : R) :
  vle (h_lo h) (h_hi h) -> ray_face_ok (h_lo h) (h_hi h) r ->
  rmint r = Fin m -> notnan (rmaxt r) -> rd r <> vzero -> in_range (rmint r) (rmaxt r) t ->
  exists v v1 v2, h_tau h r s o = Some v /\
    h_tau h (with_range r (rmint r) (Fin t)) s o = Some v1 /\
    h_tau h (with_range r (Fin t) (rmaxt r)) s o = Some v2 /\ v = vadd v1 v2.
Proof. apply h_tau_additive. Qed.
Print Assumptions C60_tau_additive.
Theorem C60_tau_nonneg (h : homog) (r : ray) (m : R) (s o : R) (v : vec) :
  vle (h_lo h) (h_hi h) -> ray_face_ok (h_lo h) (h_hi h) r ->
  rmint r = Fin m -> notnan (rmaxt r) -> rd r <> vzero -> nonneg3 (h_a h) -> nonneg3 (h_s h) ->
  h_tau h r s o = Some v -> nonneg3 v.
Proof. apply h_tau_nonneg. Qed.
Print Assumptions C60_tau_nonneg.
Definition ex_medium : homog :=
  mkHomog (mkV 1 2 3) (mkV 0 1 0) (1 / 2) vzero (mkV 0 0 0) (mkV 2 2 2) t_identity.
Definition ex_ray : ray := mkRay (mkV (-1) 1 1) (mkV 1 0 0) (mkV false false false) (Fin 0) PInf 0%Z 0.
Lemma in_ex_ray t : 0 <= t -> in_range (rmint ex_ray) (rmaxt ex_ray) t.
Proof. intros. unfold in_range, ex_ray, ele; cbn. split; auto. now apply Rleb_true. Qed.
Example C60_ex : vle (h_lo ex_medium) (h_hi ex_medium) /\ ray_face_ok (h_lo ex_medium) (h_hi ex_medium) ex_ray /\
  rmint ex_ray = Fin 0 /\ notnan (rmaxt ex_ray) /\ rd ex_ray <> vzero /\
  in_range (rmint ex_ray) (rmaxt ex_ray) 2 /\ nonneg3 (h_a ex_medium) /\ nonneg3 (h_s ex_medium).
Proof.
  assert (D : rd ex_ray <> vzero) by (intros H; injection H; lra).
  assert (I2 : in_range (rmint ex_ray) (rmaxt ex_ray) 2).
  { apply in_ex_ray; lra. }
  split. { unfold vle; cbn; lra. } split. { unfold ray_face_ok, slab_ok; cbn. repeat split; intros; discriminate. }
  split; [reflexivity|]. split. { unfold notnan; cbn; discriminate. } split; [exact D|]. split; [exact I2|].
  unfold nonneg3; cbn; lra.
Qed.

(** C121: the Schlick phase function depends on the directions and integrates to one.  False: the
    parenthesis is missing, so that the denominator cancels: the value is the same for all
    directions, the integral is 1 - k^2, and for g = 0.97 the value is negative. *)
Theorem C121_schlick_refuted (g : R) (x y w : vec) : 0 < Rabs g <= 9 / 10 -> frame x y w ->
  (forall a b, unit a -> unit b -> phase_schlick w a g = phase_schlick w b g) /\
  (exists v, v < 1 /\ sphere_integral (fun wp => phase_schlick w wp g) x y w v) /\
  phase_schlick w x (97 / 100) < 0.
Proof.
  intros [G0 G1] F. pose proof (schlick_k_range g G1) as K. destruct F as (Ux & Uy & Uw & Oxy & Oxw & Oyw).
  split; [|split].
  - intros a b Ua Ub. now rewrite !schlick_flat.
  - exists (1 - schlick_k g * schlick_k g). split.
    + assert (schlick_k g <> 0).
      { rewrite schlick_k_zero by lra. intros ->. rewrite Rabs_R0 in G0. lra. }
      assert (0 < schlick_k g * schlick_k g) by nra. lra.
    + apply schlick_total; auto. repeat split; auto.
  - apply schlick_negative; auto. unfold orth in Oxw. unfold vdot. lra.
Qed.
Print Assumptions C121_schlick_refuted.
(** what does hold: for |g| <= 0.9 it is positive and symmetric, and for g = 0 it is the isotropic one *)
Theorem C121_schlick_partial (w wp : vec) (g : R) : unit w -> unit wp -> Rabs g <= 9 / 10 ->
  0 < phase_schlick w wp g /\ phase_schlick w wp g = phase_schlick wp w g /\ phase_schlick w wp 0 = phase_isotropic w wp.
Proof.
  intros U V G. pose proof (schlick_k_range g G) as K. split; [|split].
  - rewrite schlick_flat by auto. pose proof PI_RGT_0. apply Rabs_def2 in K.
    apply Rdiv_lt_0_compat; [|lra]. nra.
  - apply (phases_symmetric w wp g).
  - unfold phase_schlick, phase_isotropic. cbv zeta. field. pose proof PI_RGT_0. lra.
Qed.
Print Assumptions C121_schlick_partial.
Example C121_ex : 0 < Rabs (1 / 2) <= 9 / 10. Proof. rewrite Rabs_pos_eq; lra. Qed.

(** C122: moving a medium moves the part of the ray that it attenuates.  False: the transformed ray
    is computed and ignored; the interval and the optical thickness do not depend on the transform. *)
Theorem C122_transform_ignored_refuted :
  (forall h t r s o, h_hit (mkHomog (h_a h) (h_s h) (h_g h) (h_le h) (h_lo h) (h_hi h) t) r = h_hit h r /\
     h_tau (mkHomog (h_a h) (h_s h) (h_g h) (h_le h) (h_lo h) (h_hi h) t) r s o = h_tau h r s o) /\
  exists h r m, built (h_v2w h) /\ vle (h_lo h) (h_hi h) /\ ray_face_ok (h_lo h) (h_hi h) r /\
    rmint r = Fin m /\ notnan (rmaxt r) /\ rd r <> vzero /\
    (forall t, h_inside h (ray_at r t) = false) /\
    forall s o, exists v, h_tau h r s o = Some v /\ v <> vzero.
Proof.
  split. { intros; split; reflexivity. }
  set (h := mkHomog (mkV 1 2 3) (mkV 0 1 0) 0 vzero (mkV 0 0 0) (mkV 2 2 2) (t_translate (mkV 0 10 0))).
  exists h, ex_ray, 0.
  destruct C60_ex as (A & B & C & D & F & _).
  assert (Ins : forall p, h_inside h p = true -> 10 <= vy p).
  { intros p Hp. apply (h_inside_spec h p) in Hp; [|apply b_translate].
    destruct Hp as (q & Hq & <-).
    assert (T : t_point (h_v2w h) q = vadd q (mkV 0 10 0)).
    { change (h_v2w h) with (t_translate (mkV 0 10 0)). unfold t_point, t_translate, dot4; cbn.
      replace (ne_unity (0 * vx q + 0 * vy q + 0 * vz q + 1 * 1)) with false.
      - destruct q; unfold vadd, vmap2; cbn; f_equal; ring.
      - symmetry. unfold ne_unity. apply orb_false_iff. pose proof EPS_pos. split; apply Rltb_false; lra. }
    rewrite T. destruct Hq as [[_ [Hq _]] _]. unfold vadd, vmap2; cbn in *. lra. }
  split; [apply b_translate|]. split; [exact A|]. split; [exact B|]. split; [exact C|]. split; [exact D|].
  split; [exact F|]. split.
  - intros t. destruct (h_inside h (ray_at ex_ray t)) eqn:Q; auto. apply Ins in Q. unfold ray_at, ex_ray, vadd, vscale, vmap2, vmap in Q; cbn in Q. lra.
  - intros s o. destruct (h_tau_value h ex_ray 0 A B C D F) as [(x & y & Hxy & Q2 & Q3)|(Q1 & Q2)].
    + rewrite Q3. eexists; split; [reflexivity|].
      assert (X : x <= 1).
      { apply (Q2 1). split; [apply in_ex_ray; lra|]. unfold ex_ray, between, vle, ray_at, vadd, vscale, vmap2, vmap; cbn. repeat split; auto; lra. }
      assert (Y : 2 <= y).
      { apply (Q2 2). split; [apply in_ex_ray; lra|]. unfold ex_ray, between, vle, ray_at, vadd, vscale, vmap2, vmap; cbn. repeat split; auto; lra. }
      intros Hz. apply (f_equal (fun v : vec => vx v)) in Hz.
      pose proof (vlength_pos _ F) as Lp. assert (W : 0 < (y - x) * vlength (rd ex_ray)) by (apply Rmult_lt_0_compat; lra).
      revert Hz W. generalize ((y - x) * vlength (rd ex_ray)). intros k Hz W.
      unfold vscale, vadd, vmap, vmap2 in Hz; cbn in Hz. lra.
    + exfalso. apply (Q1 2). { apply in_ex_ray; lra. }
      unfold ex_ray, between, vle, ray_at, vadd, vscale, vmap2, vmap; cbn. repeat split; lra.
Qed.
Print Assumptions C122_transform_ignored_refuted.

(** C123: the coefficients of a homogeneous medium are the given ones exactly at the points of the
    placed box, zero elsewhere, and extinction is absorption plus scattering. *)
Theorem C123_coefficients (h : homog) (p v : vec) (time : R) : built (h_v2w h) ->
  ((exists q, between (h_lo h) q (h_hi h) /\ t_point (h_v2w h) q = p) ->
     h_sigma_a h p v time = h_a h /\ h_sigma_s h p v time = h_s h /\ h_lve h p v time = h_le h) /\
  ((forall q, between (h_lo h) q (h_hi h) -> t_point (h_v2w h) q <> p) ->
     h_sigma_a h p v time = vzero /\ h_sigma_s h p v time = vzero /\ h_lve h p v time = vzero) /\
  h_sigma_t h p v time = vadd (h_sigma_a h p v time) (h_sigma_s h p v time).
Proof.
  intros B. pose proof (h_inside_spec h p B) as K.
  unfold h_sigma_a, h_sigma_s, h_lve, h_sigma_t. destruct (h_inside h p) eqn:Q.
  - split; [auto|]. split.
    + intros H. destruct (proj1 K eq_refl) as (q & H1 & H2). destruct (H q H1 H2).
    + apply vadd_comm.
  - split; [|split; [auto|]].
    + intros H. apply K in H. discriminate.
    + unfold vadd, vmap2, vzero; cbn. f_equal; ring.
Qed.
Print Assumptions C123_coefficients.
(** the same split for density regions, at every point *)
Theorem C123_density_coefficients (d : density_region) (p v : vec) (time : R) (c : vec -> R) : channel c ->
  let rho := d_density d (t_point (t_inverse (d_v2w d)) p) in
  d_sigma_t d p v time = vadd (d_sigma_a d p v time) (d_sigma_s d p v time) /\
  c (d_sigma_a d p v time) = rho * c (d_a d) /\ c (d_sigma_s d p v time) = rho * c (d_s d) /\
  c (d_lve d p v time) = rho * c (d_le d).
Proof.
  intros Hc rho. unfold d_sigma_t, d_sigma_a, d_sigma_s, d_lve. rewrite !channel_scale by auto. split; auto.
  destruct (d_a d), (d_s d); unfold vadd, vscale, vmap2, vmap; cbn; f_equal; ring.
Qed.
Print Assumptions C123_density_coefficients.
Example C123_ex : built (h_v2w ex_medium) /\ exists q, between (h_lo ex_medium) q (h_hi ex_medium) /\ t_point (h_v2w ex_medium) q = mkV 1 1 1.
Proof.
  split; [apply b_id|]. exists (mkV 1 1 1). split. { unfold between, vle; cbn. repeat split; lra. }
  cbn [ex_medium h_v2w]. pose proof (t_point_identity (mkV 1 1 1)) as T. exact T.
Qed.

(** C124: the world bound contains the medium.  True when the linear part of the transform is
    non-negative, false for a half turn. *)
Theorem C124_world_bound_partial (h : homog) (p : vec) : built (h_v2w h) -> vle (h_lo h) (h_hi h) ->
  nonneg_linear (tm (h_v2w h)) -> h_inside h p = true -> between (fst (h_bound h)) p (snd (h_bound h)).
Proof. intros B L Nn H. apply h_bound_covers; auto. now apply h_inside_spec. Qed.
Print Assumptions C124_world_bound_partial.
Theorem C124_world_bound_refuted : exists h p, built (h_v2w h) /\ vle (h_lo h) (h_hi h) /\
  h_inside h p = true /\ ~ between (fst (h_bound h)) p (snd (h_bound h)).
Proof.
  set (h := mkHomog vzero vzero 0 vzero (mkV 0 0 0) (mkV 2 2 2) (t_scale (-1) 1 1)).
  assert (B : built (h_v2w h)) by (apply b_scale; lra).
  assert (T : forall q, t_point (t_scale (-1) 1 1) q = mkV (- vx q) (vy q) (vz q)).
  { intros q. unfold t_point, t_scale, dot4; cbn.
    replace (ne_unity (0 * vx q + 0 * vy q + 0 * vz q + 1 * 1)) with false.
    - f_equal; ring.
    - symmetry. unfold ne_unity. apply orb_false_iff. pose proof EPS_pos. split; apply Rltb_false; lra. }
  exists h, (mkV (-1) 1 1). split; [exact B|]. split. { unfold vle; cbn; lra. } split.
  - apply h_inside_spec; auto. exists (mkV 1 1 1). split. { unfold between, vle; cbn. repeat split; lra. }
    change (h_v2w h) with (t_scale (-1) 1 1). rewrite T. cbn. f_equal; ring.
  - unfold h_bound, h_w2v. rewrite t_inverse_inverse. change (h_v2w h) with (t_scale (-1) 1 1). unfold t_bbox. rewrite !T. cbn.
    intros [[H _] _]. cbn in H. lra.
Qed.
Print Assumptions C124_world_bound_refuted.
Example C124_ex : built (h_v2w ex_medium) /\ vle (h_lo ex_medium) (h_hi ex_medium) /\
  nonneg_linear (tm (h_v2w ex_medium)) /\ h_inside ex_medium (mkV 1 1 1) = true.
Proof.
  destruct C123_ex as [B Hx]. split; [exact B|]. split. { unfold vle; cbn; lra. } split.
  - cbn. intros r [-> |[-> | ->]]; cbn; lra.
  - now apply h_inside_spec.
Qed.

(** C125: ray marching.  Whenever the ray meets the region in a finite interval [a, b] and the step
    is positive the loop stops, returning step times the sum of the extinction at the samples
    a + (u + k) * step below b; the result is within one step of the exact value for a constant
    extinction, and converges to the integral of the extinction with an error bounded by a constant
    times the step.  For a step that is not positive, or an infinite interval, it never stops. *)
Theorem C125_marching (d : density_region) (r : ray) (step u a b : R) :
  rd r <> vzero -> 0 < step -> d_hit d (unit_ray r) = Some (Fin a, Fin b) ->
  exists n, (forall k, (k < n)%nat -> a + (u + INR k) * step < b) /\ b <= a + (u + INR n) * step /\
    forall fuel, (n < fuel)%nat -> exists v, d_tau fuel d r step u = Some v /\
      forall c, channel c -> c v = step * sumn (fun k => c (d_sigma_t d (along r (a + (u + INR k) * step))
                                                     (vneg (rd (unit_ray r))) (rtime r))) n.
Proof. apply d_tau_value. Qed.
Print Assumptions C125_marching.
Theorem C125_miss (d : density_region) (r : ray) (step u : R) (fuel : nat) :
  d_hit d (unit_ray r) = None \/ rd r = vzero -> d_tau fuel d r step u = Some vzero.
Proof. apply d_tau_miss. Qed.
Print Assumptions C125_miss.
Theorem C125_constant (d : density_region) (r : ray) (step u a b : R) (c : vec -> R) (e : R) :
  rd r <> vzero -> 0 < step -> 0 <= u <= 1 -> a <= b -> channel c -> 0 <= e ->
  d_hit d (unit_ray r) = Some (Fin a, Fin b) ->
  (forall t w time, a <= t <= b -> c (d_sigma_t d (along r t) w time) = e) ->
  exists n, forall fuel, (n < fuel)%nat ->
    exists v, d_tau fuel d r step u = Some v /\ Rabs (c v - e * (b - a)) <= e * step.
Proof. apply d_tau_constant. Qed.
Print Assumptions C125_constant.
Theorem C125_convergence (d : density_region) (r : ray) (a b : R) (c : vec -> R) (L M : R) :
  rd r <> vzero -> a <= b -> channel c -> d_hit d (unit_ray r) = Some (Fin a, Fin b) ->
  let f t := c (d_sigma_t d (along r t) (vneg (rd (unit_ray r))) (rtime r)) in
  (forall s t, a <= s <= b -> a <= t <= b -> Rabs (f s - f t) <= L * Rabs (s - t)) ->
  (forall t, a <= t <= b -> Rabs (f t) <= M) ->
  exists I, is_RInt f a b I /\
    forall step u, 0 < step -> 0 <= u <= 1 -> exists n, forall fuel, (n < fuel)%nat ->
      exists v, d_tau fuel d r step u = Some v /\ Rabs (c v - I) <= (L * (b - a) + 3 * M) * step.
Proof. apply d_tau_converges. Qed.
Print Assumptions C125_convergence.
Theorem C125_diverges (d : density_region) (r : ray) (step u a : R) (b : E) :
  rd r <> vzero -> d_hit d (unit_ray r) = Some (Fin a, b) ->
  (step <= 0 /\ (exists b', b = Fin b' /\ a + u * step < b')) \/ b = PInf ->
  forall fuel, d_tau fuel d r step u = None.
Proof. apply d_tau_diverges. Qed.
Print Assumptions C125_diverges.
Definition ex_region : density_region :=
  mkDensity (mkV 1 1 1) (mkV 1 2 3) 0 vzero t_identity (fun _ => 2) (fun _ => Some (Fin 0, Fin 3)).
Example C125_ex : rd ex_ray <> vzero /\ d_hit ex_region (unit_ray ex_ray) = Some (Fin 0, Fin 3) /\ channel vx /\
  (forall t w time, 0 <= t <= 3 -> vx (d_sigma_t ex_region (along ex_ray t) w time) = 4).
Proof.
  split. { intros H; injection H; lra. } split; [reflexivity|]. split; [left; reflexivity|].
  intros. unfold d_sigma_t, d_at, vscale, vadd, vmap, vmap2; cbn. ring.
Qed.

(** C126: the exponential medium.  The density is non-negative, zero outside the box, [a] at the
    lower corner and decays by exp(-b s) along the up vector; for a medium placed without a
    transform the marched optical thickness converges to the integral of the extinction over the
    part of the ray inside the box. *)
Theorem C126_density (x : expo) (p : vec) : 0 <= x_ca x -> vle (x_lo x) (x_hi x) ->
  0 <= x_density x p /\
  (~ between (x_lo x) p (x_hi x) -> x_density x p = 0) /\
  (between (x_lo x) p (x_hi x) -> x_density x (x_lo x) = x_ca x /\
     forall q s, between (x_lo x) q (x_hi x) -> x_up x <> vzero -> q = vadd p (vscale s (normalize (x_up x))) ->
       x_density x q = exp (- x_cb x * s) * x_density x p).
Proof. apply expo_density_facts. Qed.
Print Assumptions C126_density.
Theorem C126_convergence (x : expo) (r : ray) (m : R) (c : vec -> R) : x_v2w x = t_identity -> channel c ->
  vle (x_lo x) (x_hi x) -> ray_face_ok (x_lo x) (x_hi x) (unit_ray r) ->
  rmint r = Fin m -> notnan (rmaxt r) -> rd r <> vzero ->
  let d := x_region x in
  let f t := c (d_sigma_t d (along r t) (vneg (rd (unit_ray r))) (rtime r)) in
  (forall fuel step u, d_tau fuel d r step u = Some vzero) \/
  exists a b I K, a <= b /\
    (forall t, (a <= t <= b <-> in_range (rmint (unit_ray r)) (rmaxt (unit_ray r)) t /\ between (x_lo x) (along r t) (x_hi x))) /\
    is_RInt f a b I /\
    forall step u, 0 < step -> 0 <= u <= 1 -> exists n, forall fuel, (n < fuel)%nat ->
      exists v, d_tau fuel d r step u = Some v /\ Rabs (c v - I) <= K * step.
Proof. apply expo_converges. Qed.
Print Assumptions C126_convergence.
Definition ex_expo : expo :=
  mkExpo (mkV 1 1 1) (mkV 1 2 3) 0 vzero (mkV 0 0 0) (mkV 2 2 2) t_identity 1 2 (mkV 0 1 0).
Example C126_ex : x_v2w ex_expo = t_identity /\ channel vy /\ vle (x_lo ex_expo) (x_hi ex_expo) /\
  ray_face_ok (x_lo ex_expo) (x_hi ex_expo) (unit_ray ex_ray) /\ 0 <= x_ca ex_expo /\ between (x_lo ex_expo) (mkV 1 1 1) (x_hi ex_expo).
Proof.
  split; [reflexivity|]. split; [right; left; reflexivity|]. split. { unfold vle; cbn; lra. } split.
  - unfold ray_face_ok, slab_ok; cbn. repeat split; try discriminate.
  - unfold between, vle; cbn. repeat split; lra.
Qed.

(** C127: the phase function of a medium is Henyey-Greenstein with the medium's asymmetry.  False:
    the shutter time is passed instead, so the asymmetry is irrelevant, and for times above one the
    value is negative. *)
Theorem C127_medium_phase_refuted :
  (forall h g p wi wo time, h_phase (mkHomog (h_a h) (h_s h) g (h_le h) (h_lo h) (h_hi h) (h_v2w h)) p wi wo time
                            = h_phase h p wi wo time) /\
  (exists h p wi wo time, unit wi /\ unit wo /\ 0 < h_g h < 1 /\ h_inside h p = true /\
     h_phase h p wi wo time <> phase_hg wi wo (h_g h)) /\
  (exists h p wi wo time, unit wi /\ unit wo /\ 0 < h_g h < 1 /\ h_phase h p wi wo time < 0).
Proof.
  destruct C124_ex as (_ & _ & _ & In1).
  assert (Ux : unit (mkV 1 0 0)) by (unfold unit; cbn; ring).
  assert (Uy : unit (mkV 0 1 0)) by (unfold unit; cbn; ring).
  assert (G : 0 < h_g ex_medium < 1) by (cbn; lra). pose proof PI_RGT_0 as P.
  split; [intros; reflexivity|]. split.
  - exists ex_medium, (mkV 1 1 1), (mkV 1 0 0), (mkV 0 1 0), 2.
    split; [exact Ux|]. split; [exact Uy|]. split; [exact G|]. split; [exact In1|].
    unfold h_phase. rewrite In1; cbn [negb].
    destruct (phases_positive (mkV 1 0 0) (mkV 0 1 0) (h_g ex_medium) Ux Uy) as (_ & _ & _ & _ & Pg). { rewrite Rabs_pos_eq; lra. }
    intros Q. assert (N : phase_hg (mkV 1 0 0) (mkV 0 1 0) 2 < 0); [|lra].
    unfold phase_hg; cbv zeta. assert (0 < Rpower (1 + 2 * 2 - 2 * 2 * vdot (mkV 1 0 0) (mkV 0 1 0)) (3 / 2)) by (unfold Rpower; apply exp_pos).
    set (e := Rpower _ _) in *. unfold Rdiv. assert (0 < / e) by (now apply Rinv_0_lt_compat). assert (0 < / (4 * PI)) by (apply Rinv_0_lt_compat; lra).
    assert (0 < / e * / (4 * PI)) by (now apply Rmult_lt_0_compat). nra.
  - exists ex_medium, (mkV 1 1 1), (mkV 1 0 0), (mkV 0 1 0), 2.
    split; [exact Ux|]. split; [exact Uy|]. split; [exact G|].
    unfold h_phase. rewrite In1; cbn [negb].
    unfold phase_hg; cbv zeta. assert (0 < Rpower (1 + 2 * 2 - 2 * 2 * vdot (mkV 1 0 0) (mkV 0 1 0)) (3 / 2)) by (unfold Rpower; apply exp_pos).
    set (e := Rpower _ _) in *. unfold Rdiv. assert (0 < / e) by (now apply Rinv_0_lt_compat). assert (0 < / (4 * PI)) by (apply Rinv_0_lt_compat; lra).
    assert (0 < / e * / (4 * PI)) by (now apply Rmult_lt_0_compat). nra.
Qed.
Print Assumptions C127_medium_phase_refuted.
(** what does hold: outside the medium it is zero, inside it is Henyey-Greenstein with the time as
    asymmetry, hence a normalised phase function for times in (-1, 1) *)
Theorem C127_medium_phase_partial (h : homog) (p x y w : vec) (time : R) : Rabs time < 1 -> frame x y w ->
  sphere_integral (fun wo => h_phase h p w wo time) x y w (if h_inside h p then 1 else 0).
Proof.
  intros T F. destruct (h_inside h p) eqn:Q.
  - apply (sphere_integral_ext (fun wp => phase_hg w wp time)); [|now apply hg_normalised].
    intros. unfold h_phase. now rewrite Q.
  - apply (sphere_integral_ext (fun _ => 0)); [|apply sphere_integral_zero]. intros. unfold h_phase. now rewrite Q.
Qed.
Print Assumptions C127_medium_phase_partial.

(** C128: an aggregate of media.  Coefficients and optical thickness are the sums over the members,
    the bound contains every member's bound, and the reported interval is the smallest one that
    contains the members' intervals. *)
Theorem C128_coefficients (l : list region) (p w : vec) (time : R) (c : vec -> R) : channel c ->
  c (ag_sigma_a l p w time) = fold_right (fun g s => c (rg_sigma_a g p w time) + s) 0 l /\
  c (ag_sigma_s l p w time) = fold_right (fun g s => c (rg_sigma_s g p w time) + s) 0 l /\
  c (ag_sigma_t l p w time) = fold_right (fun g s => c (rg_sigma_t g p w time) + s) 0 l /\
  ((forall g, In g l -> rg_sigma_t g p w time = vadd (rg_sigma_a g p w time) (rg_sigma_s g p w time)) ->
   ag_sigma_t l p w time = vadd (ag_sigma_a l p w time) (ag_sigma_s l p w time)).
Proof.
  intros Hc. split; [exact (ag_sum_channel c (fun g => rg_sigma_a g p w time) l Hc)|].
  split; [exact (ag_sum_channel c (fun g => rg_sigma_s g p w time) l Hc)|].
  split; [exact (ag_sum_channel c (fun g => rg_sigma_t g p w time) l Hc)|]. apply ag_sigma_split.
Qed.
Print Assumptions C128_coefficients.
Theorem C128_tau (l : list region) (r : ray) (step o : R) (v : region -> vec) :
  (forall g, In g l -> rg_tau g r step o = Some (v g)) ->
  exists s, ag_tau l r step o = Some s /\ forall c, channel c -> c s = fold_right (fun g s => c (v g) + s) 0 l.
Proof. apply ag_tau_sum. Qed.
Print Assumptions C128_tau.
Theorem C128_bound (l : list region) (g : region) (p : vec) : (forall h, In h l -> box_ok (rg_bound h)) -> In g l ->
  in_box (rg_bound g) p -> in_box (ag_bound l) p.
Proof. apply ag_bound_covers. Qed.
Print Assumptions C128_bound.
Theorem C128_interval (l : list region) (r : ray) :
  (forall g a b, In g l -> rg_hit g r = Some (a, b) -> ele a b) ->
  let '(hit, t0, t1) := ag_hit l r in
  (forall g a b, In g l -> rg_hit g r = Some (a, b) -> ele t0 a /\ ele b t1) /\
  (forall u v, (exists g a b, In g l /\ rg_hit g r = Some (a, b)) ->
     (forall g a b, In g l -> rg_hit g r = Some (a, b) -> ele u a /\ ele b v) -> ele u t0 /\ ele t1 v) /\
  ((forall g, In g l -> rg_hit g r = None) -> hit = false) /\
  (forall g a b, In g l -> rg_hit g r = Some (a, b) -> elt a b -> hit = true) /\
  (hit = true -> exists g a b, In g l /\ rg_hit g r = Some (a, b)).
Proof. apply ag_hit_hull. Qed.
Print Assumptions C128_interval.
(** the hypotheses hold for every list of homogeneous media and every ray of C60 *)
Theorem C128_members (hs : list homog) (r : ray) (m : R) :
  (forall h, In h hs -> vle (h_lo h) (h_hi h) /\ ray_face_ok (h_lo h) (h_hi h) r) ->
  rmint r = Fin m -> notnan (rmaxt r) -> rd r <> vzero ->
  let l := map homog_region hs in
  (forall g a b, In g l -> rg_hit g r = Some (a, b) -> ele a b) /\
  (forall g, In g l -> box_ok (rg_bound g)) /\
  (forall g s o, In g l -> exists v, rg_tau g r s o = Some v) /\
  (forall g p w time, In g l -> rg_sigma_t g p w time = vadd (rg_sigma_a g p w time) (rg_sigma_s g p w time)).
Proof.
  intros H M N D l.
  assert (K : forall g, In g l -> exists h, In h hs /\ g = homog_region h).
  { intros g Hg. apply in_map_iff in Hg. destruct Hg as (h & <- & Hh). eauto. }
  split; [|split; [|split]].
  - intros g a b Hg Hh. destruct (K g Hg) as (h & Hin & ->). cbn in Hh. destruct (H h Hin) as [L F].
    destruct (hit_finite _ _ r m a b L F M N D Hh) as (x & y & -> & -> & Hxy & _). unfold ele; cbn. now apply Rleb_true.
  - intros g Hg. destruct (K g Hg) as (h & _ & ->). cbn. unfold box_ok, fbox, notnan; cbn. repeat split; discriminate.
  - intros g s o Hg. destruct (K g Hg) as (h & Hin & ->). cbn. destruct (H h Hin) as [L F].
    destruct (h_tau_value h r m L F M N D) as [(x & y & _ & _ & Q)|(_ & Q)]; rewrite Q; eauto.
  - intros g p w time Hg. destruct (K g Hg) as (h & _ & ->). cbn. unfold h_sigma_t, h_sigma_a, h_sigma_s.
    destruct (h_inside h p). apply vadd_comm. unfold vadd, vmap2, vzero; cbn. f_equal; ring.
Qed.
Print Assumptions C128_members.
Example C128_ex : forall h, In h [ex_medium; ex_medium] -> vle (h_lo h) (h_hi h) /\ ray_face_ok (h_lo h) (h_hi h) ex_ray.
Proof. intros h [<- |[<- |[]]]; destruct C60_ex as (A & B & _); auto. Qed.

(** C129: an aggregate's emission is the sum of its members', and its phase function is a phase
    function.  False: the emission raises TypeError for every non-empty aggregate (the attribute
    holding the spectrum is called), and the phase values are summed without weights, so that over
    the sphere they integrate to the number of media that overlap at the point. *)
Theorem C129_aggregate_refuted :
  (forall hs p w time, hs <> [] -> ag_lve (map homog_region hs) p w time = Err TypeError) /\
  (forall fuel xs p w time, xs <> [] -> ag_lve (map (expo_region fuel) xs) p w time = Err TypeError) /\
  (forall hs p x y w time c, frame x y w -> Rabs time < 1 -> channel c ->
     sphere_integral (fun wo => c (ag_phase (map homog_region hs) p w wo time)) x y w
       (INR (length (filter (fun h => h_inside h p) hs)))).
Proof.
  split; [|split].
  - intros hs p w time Hn. apply ag_lve_fails. { destruct hs; [congruence|discriminate]. }
    intros g Hg. apply in_map_iff in Hg. destruct Hg as (h & <- & _). reflexivity.
  - intros fuel xs p w time Hn. apply ag_lve_fails. { destruct xs; [congruence|discriminate]. }
    intros g Hg. apply in_map_iff in Hg. destruct Hg as (h & <- & _). reflexivity.
  - intros. now apply ag_phase_total.
Qed.
Print Assumptions C129_aggregate_refuted.
Theorem C129_aggregate_empty_partial (p wi wo : vec) (time : R) :
  ag_lve [] p wi time = Ok vzero /\ ag_phase [] p wi wo time = vzero.
Proof. split; reflexivity. Qed.
Print Assumptions C129_aggregate_empty_partial.

(** C130: a grid medium can be constructed from samples.  False: construction raises TypeError for
    every box and every array. *)
Theorem C130_grid_refuted (lo hi : vec) (d : list (list (list R))) : grid_make lo hi d = Err TypeError.
Proof. reflexivity. Qed.
Print Assumptions C130_grid_refuted.
