From Coq Require Import Reals Lra Lia List Bool ZArith Psatz.
From Coquelicot Require Import Coquelicot.
From Verif Require Import Base M_Geometry S_Geometry P_Geometry M_Transform S_Transform P_Transform P_Transform2
  M_Volume S_Volume P_Volume1 P_Volume2 P_Volume3.
Import ListNotations.
Open Scope R_scope.

Lemma unit_ray_at r t : ray_at (unit_ray r) t = along r t.
Proof.
  unfold unit_ray, ray_at, along; cbn [ro rd]. f_equal.
  destruct (rd r) as [x y z]; unfold vscale, vmap, Rdiv; cbn; f_equal; ring.
Qed.
Lemma channel_add c u v : channel c -> c (vadd u v) = c u + c v.
Proof. intros [-> |[-> | ->]]; reflexivity. Qed.
Lemma channel_scale c k v : channel c -> c (vscale k v) = k * c v.
Proof. intros [-> |[-> | ->]]; reflexivity. Qed.
Lemma channel_sum c f n : channel c -> c (vsumn f n) = sumn (fun k => c (f k)) n.
Proof. intros [-> |[-> | ->]]; [apply vsumn_x|apply vsumn_y|apply vsumn_z]. Qed.
Lemma channel_zero c : channel c -> c vzero = 0.
Proof. intros [-> |[-> | ->]]; reflexivity. Qed.

Lemma d_tau_value d r step u a b : rd r <> vzero -> 0 < step ->
  d_hit d (unit_ray r) = Some (Fin a, Fin b) ->
  exists n, (forall k, (k < n)%nat -> a + (u + INR k) * step < b) /\ b <= a + (u + INR n) * step /\
    forall fuel, (n < fuel)%nat -> exists v, d_tau fuel d r step u = Some v /\
      forall c, channel c -> c v = step * sumn (fun k => c (d_sigma_t d (along r (a + (u + INR k) * step))
                                                     (vneg (rd (unit_ray r))) (rtime r))) n.
Proof.
  intros D Hs Hh. destruct (steps_exist (a + u * step) b step Hs) as (n & B & L).
  exists n. repeat split.
  - intros k Hk. specialize (B k Hk). lra.
  - lra.
  - intros fuel F. unfold d_tau. cbv zeta.
    replace (Reqb (vlength (rd r)) 0) with false.
    2: { symmetry. apply Reqb_false. pose proof (vlength_pos _ D). lra. }
    rewrite Hh. erewrite march_exact; eauto. cbn [option_map]. eexists; split; [reflexivity|].
    intros c Hc. rewrite channel_scale, channel_add, channel_sum, channel_zero by auto. rewrite Rplus_0_l. f_equal.
    apply sumn_ext. intros k _. rewrite unit_ray_at. do 3 f_equal. ring.
Qed.
Lemma d_tau_miss d r step u fuel : d_hit d (unit_ray r) = None \/ rd r = vzero -> d_tau fuel d r step u = Some vzero.
Proof.
  intros H. unfold d_tau. cbv zeta. destruct (Reqb (vlength (rd r)) 0) eqn:Q; auto.
  destruct H as [-> | H]; auto. Rb. exfalso. apply Q. rewrite H. unfold vlength, sq_length; cbn.
  replace (0 * 0 + 0 * 0 + 0 * 0) with 0 by ring. apply sqrt_0.
Qed.
Lemma d_tau_diverges d r step u a b : rd r <> vzero -> d_hit d (unit_ray r) = Some (Fin a, b) ->
  (step <= 0 /\ (exists b', b = Fin b' /\ a + u * step < b')) \/ b = PInf ->
  forall fuel, d_tau fuel d r step u = None.
Proof.
  intros D Hh H fuel. unfold d_tau. cbv zeta.
  replace (Reqb (vlength (rd r)) 0) with false.
  2: { symmetry. apply Reqb_false. pose proof (vlength_pos _ D). lra. }
  rewrite Hh. destruct H as [(Hs & b' & -> & L)| ->].
  - now rewrite march_diverges.
  - now rewrite march_infinite.
Qed.
(** constant extinction along the segment: off by at most one step *)
Lemma d_tau_constant d r step u a b c e : rd r <> vzero -> 0 < step -> 0 <= u <= 1 -> a <= b -> channel c -> 0 <= e ->
  d_hit d (unit_ray r) = Some (Fin a, Fin b) ->
  (forall t w time, a <= t <= b -> c (d_sigma_t d (along r t) w time) = e) ->
  exists n, forall fuel, (n < fuel)%nat -> exists v, d_tau fuel d r step u = Some v /\ Rabs (c v - e * (b - a)) <= e * step.
Proof.
  intros D Hs Hu Hab Hc He Hh Q. destruct (d_tau_value d r step u a b D Hs Hh) as (n & B & L & V).
  exists n. intros fuel F. destruct (V fuel F) as (v & Hv & Cv). exists v. split; auto.
  rewrite (Cv c Hc). rewrite (sumn_ext _ (fun _ => e)).
  2: { intros k Hk. apply Q. specialize (B k Hk). pose proof (pos_INR k). assert (0 <= (u + INR k) * step) by (apply Rmult_le_pos; lra). lra. }
  rewrite sumn_const.
  assert (W : b - a <= (u + INR n) * step) by lra.
  assert (W2 : (INR n - 1) * step <= b - a).
  { destruct n as [|n]. { cbn. nra. } specialize (B n ltac:(lia)). rewrite S_INR. pose proof (pos_INR n).
    assert (0 <= u * step) by (apply Rmult_le_pos; lra). lra. }
  assert (u * step <= 1 * step) by (apply Rmult_le_compat_r; lra).
  replace (step * (INR n * e) - e * (b - a)) with (e * (INR n * step - (b - a))) by ring.
  rewrite Rabs_mult, (Rabs_pos_eq e) by auto. apply Rmult_le_compat_l; auto. apply Rabs_le. lra.
Qed.
Lemma d_tau_converges d r a b c L M : rd r <> vzero -> a <= b -> channel c ->
  d_hit d (unit_ray r) = Some (Fin a, Fin b) ->
  let f t := c (d_sigma_t d (along r t) (vneg (rd (unit_ray r))) (rtime r)) in
  (forall s t, a <= s <= b -> a <= t <= b -> Rabs (f s - f t) <= L * Rabs (s - t)) ->
  (forall t, a <= t <= b -> Rabs (f t) <= M) ->
  exists I, is_RInt f a b I /\
    forall step u, 0 < step -> 0 <= u <= 1 -> exists n, forall fuel, (n < fuel)%nat ->
      exists v, d_tau fuel d r step u = Some v /\ Rabs (c v - I) <= (L * (b - a) + 3 * M) * step.
Proof.
  intros D Hab Hc Hh f Lp Bd.
  destruct (f_int f a b L Hab Lp) as (I & HI & _). exists I. split; auto.
  intros step u Hs Hu. destruct (d_tau_value d r step u a b D Hs Hh) as (n & B & Ls & V).
  exists n. intros fuel F. destruct (V fuel F) as (v & Hv & Cv). exists v. split; auto.
  rewrite (Cv c Hc). exact (march_conv f a b L M Hab Lp Bd n step u I Hs Hu HI B Ls).
Qed.

(** ** exponential medium *)
Lemma exp_le x y : x <= y -> exp x <= exp y.
Proof. intros [H| ->]; [left; now apply exp_increasing|right; reflexivity]. Qed.
Lemma exp_lip x y m : x <= m -> y <= m -> Rabs (exp x - exp y) <= exp m * Rabs (x - y).
Proof.
  assert (K : forall x y, x <= m -> y <= x -> Rabs (exp x - exp y) <= exp m * Rabs (x - y)).
  { intros p q Hp Hq. pose proof (exp_le q p Hq). rewrite !Rabs_pos_eq by lra.
    pose proof (exp_ineq1_le (q - p)) as E1.
    assert (exp q = exp p * exp (q - p)) by (rewrite <- exp_plus; f_equal; ring).
    pose proof (exp_pos p). pose proof (exp_le p m Hp).
    assert (exp p * (1 + (q - p)) <= exp p * exp (q - p)) by (apply Rmult_le_compat_l; lra).
    assert (exp p * (p - q) <= exp m * (p - q)) by (apply Rmult_le_compat_r; lra). lra. }
  intros Hx Hy. destruct (Rle_dec y x).
  - now apply K.
  - rewrite Rabs_minus_sym, (Rabs_minus_sym x). apply K; auto; lra.
Qed.
Lemma t_point_identity p : t_point (t_inverse t_identity) p = p.
Proof.
  unfold t_point, t_identity, t_inverse, I4, dot4; cbn.
  replace (ne_unity (0 * vx p + 0 * vy p + 0 * vz p + 1 * 1)) with false.
  - destruct p as [x y z]; cbn; f_equal; ring.
  - symmetry. unfold ne_unity. apply orb_false_iff. pose proof EPS_pos. split; apply Rltb_false; lra.
Qed.
Lemma rmul_notnan e l : notnan e -> 0 < l -> notnan (emul e (Fin l)).
Proof. unfold notnan, emul, esgn_inf; destruct e; intros; try congruence; cbn; repeat (Rcase; cbn); try congruence; lra. Qed.

(** the density along a ray through the box is K * exp (A + B t) *)
Lemma expo_along x r a b c : x_v2w x = t_identity -> channel c ->
  (forall t, a <= t <= b -> between (x_lo x) (along r t) (x_hi x)) ->
  exists K A B, forall t w time, a <= t <= b -> c (d_sigma_t (x_region x) (along r t) w time) = K * exp (A + B * t).
Proof.
  intros Hi Hc Hb. set (up := normalize (x_up x)).
  exists (x_ca x * c (vadd (x_a x) (x_s x))), (- x_cb x * vdot (vsub (ro r) (x_lo x)) up), (- x_cb x * (/ vlength (rd r) * vdot (rd r) up)).
  intros t w time Ht. unfold d_sigma_t, d_at, x_region; cbn [d_density d_v2w d_a d_s]. rewrite Hi, t_point_identity.
  unfold x_density. fold up.
  replace (inside (fbox (x_lo x) (x_hi x)) (along r t)) with true.
  2: { symmetry. apply inside_in, in_fbox. auto. }
  cbn [negb]. rewrite channel_scale by auto.
  replace (- x_cb x * vdot (vsub (along r t) (x_lo x)) up) with
    (- x_cb x * vdot (vsub (ro r) (x_lo x)) up + - x_cb x * (/ vlength (rd r) * vdot (rd r) up) * t).
  - ring.
  - unfold along, Rdiv. generalize (/ vlength (rd r)). intros q.
    destruct (ro r) as [o1 o2 o3], (rd r) as [d1 d2 d3], (x_lo x) as [l1 l2 l3], up as [u1 u2 u3].
    unfold vsub, vdot, vadd, vscale, vmap2, vmap; cbn. ring.
Qed.
Lemma expo_converges x r m c : x_v2w x = t_identity -> channel c ->
  vle (x_lo x) (x_hi x) -> ray_face_ok (x_lo x) (x_hi x) (unit_ray r) ->
  rmint r = Fin m -> notnan (rmaxt r) -> rd r <> vzero ->
  let d := x_region x in
  let f t := c (d_sigma_t d (along r t) (vneg (rd (unit_ray r))) (rtime r)) in
  (forall fuel step u, d_tau fuel d r step u = Some vzero) \/
  exists a b I K, a <= b /\
    (forall t, (a <= t <= b <-> in_range (rmint (unit_ray r)) (rmaxt (unit_ray r)) t /\ between (x_lo x) (along r t) (x_hi x))) /\
    is_RInt f a b I /\
    forall step u, 0 < step -> 0 <= u <= 1 -> exists n, forall fuel, (n < fuel)%nat ->
      exists v, d_tau fuel d r step u = Some v /\ Rabs (c v - I) <= K * step.
Proof.
  intros Hi Hc L F Hm N D d f.
  pose proof (vlength_pos _ D) as Lp.
  assert (Du : rd (unit_ray r) <> vzero).
  { unfold unit_ray; cbn [rd]. intros Q.
    assert (V : vlength (vscale (/ vlength (rd r)) (rd r)) = 1).
    { rewrite vlength_scale, Rabs_pos_eq by (left; now apply Rinv_0_lt_compat). field; lra. }
    rewrite Q in V. rewrite (proj2 (vlength_zero vzero) eq_refl) in V. lra. }
  destruct (d_hit d (unit_ray r)) as [[ea eb]|] eqn:Hh.
  2: { left. intros. apply d_tau_miss; auto. }
  right. unfold d in Hh. cbn [d_hit x_region] in Hh.
  assert (Hm' : rmint (unit_ray r) = Fin (m * vlength (rd r))).
  { unfold unit_ray; cbn [rmint]. rewrite Hm. reflexivity. }
  assert (Hn' : notnan (rmaxt (unit_ray r))) by (unfold unit_ray; cbn [rmaxt]; now apply rmul_notnan).
  destruct (hit_finite _ _ _ _ _ _ L F Hm' Hn' Du Hh) as (a & b & -> & -> & Hab & S1).
  assert (S2 : forall t, (a <= t <= b <-> in_range (rmint (unit_ray r)) (rmaxt (unit_ray r)) t /\ between (x_lo x) (along r t) (x_hi x))).
  { intros t. rewrite S1, unit_ray_at. tauto. }
  destruct (expo_along x r a b c Hi Hc) as (K & A & B & Q). { intros t Ht. apply S2 in Ht. tauto. }
  set (mm := Rmax (A + B * a) (A + B * b)).
  assert (Bm : forall t, a <= t <= b -> A + B * t <= mm).
  { intros t Ht. unfold mm. destruct (Rle_dec 0 B).
    - eapply Rle_trans; [|apply Rmax_r]. nra.
    - eapply Rle_trans; [|apply Rmax_l]. nra. }
  destruct (d_tau_converges d r a b c (Rabs K * (exp mm * Rabs B)) (Rabs K * exp mm) D Hab Hc Hh) as (I & HI & Cv).
  - intros s t Hs Ht. unfold d. rewrite !Q by auto.
    replace (K * exp (A + B * s) - K * exp (A + B * t)) with (K * (exp (A + B * s) - exp (A + B * t))) by ring.
    rewrite Rabs_mult, !Rmult_assoc. apply Rmult_le_compat_l; [apply Rabs_pos|].
    eapply Rle_trans; [apply (exp_lip _ _ mm); auto|].
    replace (A + B * s - (A + B * t)) with (B * (s - t)) by ring. rewrite Rabs_mult. lra.
  - intros t Ht. unfold d. rewrite Q by auto. rewrite Rabs_mult, (Rabs_pos_eq (exp _)) by (left; apply exp_pos).
    apply Rmult_le_compat_l; [apply Rabs_pos|]. apply exp_le; auto.
  - exists a, b, I, (Rabs K * (exp mm * Rabs B) * (b - a) + 3 * (Rabs K * exp mm)). repeat split; auto; try apply S2; auto.
Qed.
Lemma expo_density_facts x p : 0 <= x_ca x -> vle (x_lo x) (x_hi x) ->
  0 <= x_density x p /\
  (~ between (x_lo x) p (x_hi x) -> x_density x p = 0) /\
  (between (x_lo x) p (x_hi x) -> x_density x (x_lo x) = x_ca x /\
     forall q s, between (x_lo x) q (x_hi x) -> x_up x <> vzero -> q = vadd p (vscale s (normalize (x_up x))) ->
       x_density x q = exp (- x_cb x * s) * x_density x p).
Proof.
  intros Ha Hl. unfold x_density.
  assert (IN : forall q, between (x_lo x) q (x_hi x) -> inside (fbox (x_lo x) (x_hi x)) q = true).
  { intros q Hq. apply inside_in, in_fbox; auto. }
  repeat split.
  - destruct (negb _); [lra|]. apply Rmult_le_pos; auto. left; apply exp_pos.
  - intros Hn. destruct (inside _ p) eqn:Q; auto. exfalso. apply Hn. apply in_fbox, inside_in; auto.
  - rewrite IN. 2: { unfold between, vle in *; lra. } cbn [negb].
    replace (vdot _ _) with 0. { rewrite Rmult_0_r, exp_0. ring. }
    destruct (x_lo x) as [a b c]; unfold vdot, vsub, vmap2; cbn; ring.
  - intros q s Hq Hu ->. rewrite !IN by auto. cbn [negb].
    pose proof (normalize_unit _ Hu) as U. set (n := normalize (x_up x)) in *.
    replace (- x_cb x * vdot (vsub (vadd p (vscale s n)) (x_lo x)) n) with (- x_cb x * s + - x_cb x * vdot (vsub p (x_lo x)) n).
    + rewrite exp_plus. ring.
    + replace (vdot (vsub (vadd p (vscale s n)) (x_lo x)) n) with (vdot (vsub p (x_lo x)) n + s * (vx n * vx n + vy n * vy n + vz n * vz n)).
      * unfold unit in U. rewrite U. ring.
      * destruct p as [a b c], n as [d e f], (x_lo x) as [l1 l2 l3]; unfold vdot, vsub, vadd, vscale, vmap2, vmap; cbn; ring.
Qed.

(** ** coefficients and bounds *)
Lemma t_inverse_inverse t : t_inverse (t_inverse t) = t. Proof. destruct t; reflexivity. Qed.
Lemma vadd_comm' a b : vadd a b = vadd b a. Proof. apply vadd_comm. Qed.
(** [p] is in the medium: it is the image of a point of the box *)
Lemma h_inside_spec h p : built (h_v2w h) ->
  (h_inside h p = true <-> exists q, between (h_lo h) q (h_hi h) /\ t_point (h_v2w h) q = p).
Proof.
  intros B. destruct (built_round_trip _ B) as (P1 & _).
  destruct (built_round_trip _ (b_inv _ B)) as (P2 & _). rewrite t_inverse_inverse in P2.
  unfold h_inside, h_w2v. rewrite inside_in, in_fbox. split.
  - intros H. eexists; split; eauto.
  - intros (q & Hq & <-). now rewrite P1.
Qed.
Lemma h_bound_covers h p : built (h_v2w h) -> vle (h_lo h) (h_hi h) -> nonneg_linear (tm (h_v2w h)) ->
  (exists q, between (h_lo h) q (h_hi h) /\ t_point (h_v2w h) q = p) ->
  between (fst (h_bound h)) p (snd (h_bound h)).
Proof.
  intros B L Nn (q & Hq & <-). unfold h_bound, h_w2v. rewrite t_inverse_inverse.
  apply (bbox_image_in (h_v2w h) (h_lo h) (h_hi h)); auto. apply (built_valid _ B).
Qed.
