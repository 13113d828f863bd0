(** Property theorems C54, C55, C96-C102 (lights).  Vocabulary: S_Light.v. *)
From Coq Require Import Reals Lra Lia List Bool ZArith Permutation.
From Verif Require Import Base M_Geometry M_Transform M_Shapes M_MonteCarlo M_Aggregate M_Reflection M_Utility M_Light.
From Verif Require Import S_Geometry S_MonteCarlo S_Aggregate S_Light P_Geometry P_Light.
Import ListNotations.
Open Scope R_scope.

(** C54 *)
Theorem C54_shadow_segment (p1 p2 : vec) (eps1 eps2 time : R) : p1 <> p2 ->
  let r := set_segment p1 eps1 p2 eps2 time in
  tests_segment r p1 p2 eps1 eps2 /\ lray_at r 0 = p1 /\ lray_at r (vlength (vsub p2 p1)) = p2 /\
  l_depth r = 0 /\ l_time r = time /\
  (0 < eps1 -> 0 < eps2 -> forall t, in_range r t -> exists s, 0 < s < 1 /\ lray_at r t = between p1 p2 s).
Proof.
  intros H r. pose proof (segment_main p1 eps1 p2 eps2 time H) as T. fold r in T. split; [exact T|].
  destruct T as (_ & _ & T). pose proof (vlength_vsub_pos p2 p1 (not_eq_sym H)) as P. set (d := vlength (vsub p2 p1)) in *.
  assert (B0 : between p1 p2 0 = p1).
  { destruct p1 as [a b c], p2 as [x y z]. unfold between, vadd, vscale, vsub, vmap, vmap2; cbn. f_equal; ring. }
  assert (B1 : between p1 p2 1 = p2).
  { destruct p1 as [a b c], p2 as [x y z]. unfold between, vadd, vscale, vsub, vmap, vmap2; cbn. f_equal; ring. }
  split; [|split; [|split; [|split]]].
  - destruct (T 0) as [Q _]. rewrite Rmult_0_l in Q. congruence.
  - destruct (T 1) as [Q _]. rewrite Rmult_1_l in Q. congruence.
  - reflexivity.
  - reflexivity.
  - intros E1' E2' t R0. exists (t / d). destruct (T (t / d)) as [Q1 Q2].
    replace (t / d * d) with t in Q1, Q2 by (field; lra). split; [|exact Q1]. apply Q2 in R0.
    assert (0 < eps1 / d) by (apply Rdiv_lt_0_compat; lra). lra.
Qed.
Print Assumptions C54_shadow_segment.
Example C54_ex : mkV 0 0 0 <> mkV 1 2 3.
Proof. intros H. injection H. intros. lra. Qed.

(** C55 *)
Theorem C55_inverse_square (l2w : transform) (i p : vec) (pEps time : R) :
  let pos := light_pos l2w in p <> pos ->
  let s := point_sample_l l2w i p pEps time in
  let d := vlength (vsub pos p) in
  0 < d /\ ls_L s = mkV (Fin (vx i / d ^ 2)) (Fin (vy i / d ^ 2)) (Fin (vz i / d ^ 2)) /\
  unit (ls_wi s) /\ vadd p (vscale d (ls_wi s)) = pos /\ ls_pdf s = 1 /\
  tests_segment (ls_vis s) p pos pEps 0 /\ l_time (ls_vis s) = time.
Proof.
  intros pos H s d. destruct (toward p pos H) as [U T]. split; [apply vlength_vsub_pos; congruence|]. split.
  - unfold s, point_sample_l; cbn [ls_L]. fold pos. unfold sdiv, vmap. cbn [vx vy vz].
    replace (sq_length (vsub pos p)) with (d ^ 2); [reflexivity|]. unfold d. rewrite <- vlength_sq. ring.
  - split; [exact U|]. split; [exact T|]. split; [reflexivity|]. split; [now apply segment_main|reflexivity].
Qed.
Print Assumptions C55_inverse_square.
Lemma pos_translate (d : vec) : light_pos (t_translate d) = d.
Proof.
  pose proof EPS_pos as EP. unfold light_pos, t_point. cbv zeta.
  match goal with |- context [M_Transform.ne_unity ?e] => assert (W : e = 1) end.
  { unfold dot4, t_translate, vzero; cbn. ring. }
  rewrite !W. assert (N1 : M_Transform.ne_unity 1 = false) by (unfold M_Transform.ne_unity; apply orb_false_intro; apply Rltb_false; lra).
  rewrite N1. destruct d as [a b c]. unfold t_translate, vzero, dot4; cbn. f_equal; ring.
Qed.
Example C55_ex : mkV 0 0 (-5) <> light_pos (t_translate (mkV 1 2 3)).
Proof. rewrite pos_translate. intros H. injection H. intros. lra. Qed.

(** C96 *)
Theorem C96_spot_falloff (l2w : transform) (width fall : R) (w : vec) : 0 <= fall < width -> width <= 180 ->
  t_vector (t_inverse l2w) w <> vzero ->
  exists f, spot_falloff l2w width fall w = Fin f /\ 0 <= f <= 1 /\
    (spot_angle l2w w <= deg2rad fall -> f = 1) /\ (deg2rad width <= spot_angle l2w w -> f = 0) /\
    forall w' f', t_vector (t_inverse l2w) w' <> vzero -> spot_falloff l2w width fall w' = Fin f' ->
      spot_angle l2w w <= spot_angle l2w w' -> f' <= f.
Proof. exact (spot_main l2w width fall w). Qed.
Print Assumptions C96_spot_falloff.
Example C96_ex : t_vector (t_inverse t_identity) (mkV 0 0 1) <> vzero.
Proof. unfold t_vector, t_inverse, t_identity, vzero, dot4; cbn. intros H. injection H. intros. lra. Qed.

(** C97: radiance of spot lights: direction and shadow ray are right *)
Theorem C97_spot_partial (l2w : transform) (i p : vec) (width fall pEps time : R) :
  let pos := light_pos l2w in p <> pos ->
  let s := spot_sample_l l2w i width fall p pEps time in
  unit (ls_wi s) /\ vadd p (vscale (vlength (vsub pos p)) (ls_wi s)) = pos /\ ls_pdf s = 1 /\
  tests_segment (ls_vis s) p pos pEps 0.
Proof.
  intros pos H s. destruct (toward p pos H) as [U T]. split; [exact U|]. split; [exact T|].
  split; [reflexivity|]. now apply segment_main.
Qed.
Print Assumptions C97_spot_partial.
(** but the profile divides instead of multiplying, and distance has no effect: outside the cone every positive
    intensity becomes infinite; in the penumbra it is amplified; in the full cone it is the same at every distance *)
Theorem C97_attenuation_refuted (l2w : transform) (i p : vec) (width fall pEps time : R) :
  0 <= fall < width -> width <= 180 -> 0 < vx i -> 0 < vy i -> 0 < vz i ->
  let s := spot_sample_l l2w i width fall p pEps time in
  let w := vneg (normalize (vsub (light_pos l2w) p)) in
  t_vector (t_inverse l2w) w <> vzero ->
  (deg2rad width <= spot_angle l2w w -> ls_L s = mkV PInf PInf PInf) /\
  (spot_angle l2w w <= deg2rad fall -> ls_L s = mkV (Fin (vx i)) (Fin (vy i)) (Fin (vz i))) /\
  (forall f, spot_falloff l2w width fall w = Fin f -> f <> 0 ->
     ls_L s = mkV (Fin (vx i / f)) (Fin (vy i / f)) (Fin (vz i / f)) /\ vx i <= vx i / f).
Proof.
  intros H0 H1 Ix Iy Iz s w NZ. destruct (spot_main l2w width fall w H0 H1 NZ) as (f & F & R0 & F1 & F0 & _).
  assert (G : ls_L s = vmap (fun x => ediv x (Fin f)) i).
  { unfold s, spot_sample_l; cbn [ls_L]. fold w. rewrite F. reflexivity. }
  assert (D : forall g, g <> 0 -> vmap (fun x => ediv x (Fin g)) i = mkV (Fin (vx i / g)) (Fin (vy i / g)) (Fin (vz i / g))).
  { intros g Hg. unfold vmap, ediv, edivz. destruct (Reqb g 0) eqn:C; Rb; [contradiction|reflexivity]. }
  rewrite G. split; [|split].
  - intros L. rewrite (F0 L). unfold vmap, ediv, edivz. destruct (Reqb 0 0) eqn:C; Rb; [|lra].
    assert (Q : forall x, 0 < x -> (if Reqb x 0 then NaN else if xorb (Rltb 0 x) false then PInf else NInf) = PInf).
    { intros x Hx. destruct (Reqb x 0) eqn:C1; Rb; [lra|]. destruct (Rltb 0 x) eqn:C2; Rb; [reflexivity|lra]. }
    now rewrite !Q.
  - intros L. rewrite (F1 L), D by lra. f_equal; f_equal; field.
  - intros g Hg NZ'. rewrite F in Hg. injection Hg as Hg. subst g. split; [now apply D|].
    apply Rmult_le_reg_r with f; [lra|]. unfold Rdiv. rewrite Rmult_assoc, Rinv_l by lra. nra.
Qed.
Print Assumptions C97_attenuation_refuted.
(** the hypotheses can be met, at any distance along the axis *)
Example C97_ex : vz (normalize (vsub (light_pos (t_translate (mkV 0 0 0))) (mkV 0 0 7))) = -1.
Proof.
  rewrite pos_translate. unfold normalize, vsub, vmap2, vscale, vmap, vlength, sq_length; cbn.
  replace ((0 - 0) * (0 - 0) + (0 - 0) * (0 - 0) + (0 - 7) * (0 - 7)) with (7 * 7) by ring.
  rewrite sqrt_square by lra. destruct (Reqb 7 0) eqn:C; Rb; [lra|]. cbn. lra.
Qed.
(** goniophotometric lights ignore distance and image *)
Theorem C97_gonio_refuted (l2w : transform) (i p : vec) (file : option picture) (pEps time : R) :
  exists s, gonio_sample_l l2w i file p pEps time = Ok s /\ ls_L s = mkV (Fin (vx i)) (Fin (vy i)) (Fin (vz i)).
Proof.
  assert (T : light_texels file = None).
  { destruct file as [pic|]; [|reflexivity]. unfold light_texels. destruct pic as [w h|w h chn]; cbn; [reflexivity|].
    destruct (_ || _); reflexivity. }
  unfold gonio_sample_l, gonio_scale. rewrite T. cbn [bind]. eexists. split; [reflexivity|]. cbn [ls_L].
  unfold vmap2, spec, edivz; cbn. destruct (Reqb 1 0) eqn:C; Rb; [lra|]. f_equal; f_equal; field.
Qed.
Print Assumptions C97_gonio_refuted.

(** C98: shape sets *)
Theorem C98_flattening (s : shp) (fuel : nat) : (shp_nodes s <= fuel)%nat ->
  exists shapes, shape_set fuel s = Some shapes /\ Permutation shapes (leaves s).
Proof. exact (shape_set_main s fuel). Qed.
Print Assumptions C98_flattening.
Theorem C98_area_weighted (areas : list R) (u : R) : table_ok areas -> 0 < u <= 1 ->
  exists k, ss_choose areas u = Ok k /\ (k < length areas)%nat /\
    rsum (firstn k areas) < u * rsum areas <= rsum (firstn (S k) areas).
Proof. exact (choose_main areas u). Qed.
Print Assumptions C98_area_weighted.
(** the density of a direction is the mixture of the shapes' densities with weights area/total, so it lies between
    the smallest and the largest; over the surface it is 1/(total area) *)
Theorem C98_density (areas pdfs : list R) : Forall (fun a => 0 < a) areas -> areas <> [] -> length pdfs = length areas ->
  ss_pdf areas pdfs = rsum (map (fun p => fst p / rsum areas * snd p) (combine areas pdfs)) /\
  (forall lo hi, Forall (fun q => lo <= q <= hi) pdfs -> lo <= ss_pdf areas pdfs <= hi) /\
  ss_pdf_p areas (map shape_pdf areas) = 1 / rsum areas.
Proof.
  intros F NE L. assert (F' : Forall (fun a => 0 <= a) areas) by (eapply Forall_impl; [|exact F]; intros; cbn in *; lra).
  assert (S0 : 0 < rsum areas).
  { destruct areas as [|a l]; [congruence|]. inversion F; subst. inversion F'; subst.
    assert (0 <= rsum l). { clear - H4. induction H4; cbn in *; [lra|]. unfold rsum in *; cbn in *; lra. }
    unfold rsum in *; cbn in *; lra. }
  unfold ss_pdf, ss_pdf_p. rewrite ss_sum_rsum, !ss_acc_sum. split; [|split].
  - rewrite Rplus_0_l. unfold wsum. set (t := rsum areas) in *. clearbody t. generalize (combine areas pdfs).
    induction l as [|[a q] l IH]; cbn; [unfold Rdiv; ring|]. unfold rsum in *; cbn in *. rewrite <- IH. field. lra.
  - intros lo hi Q. pose proof (wsum_bounds areas F' pdfs lo hi L Q) as [A B]. rewrite Rplus_0_l.
    split.
    + apply Rmult_le_reg_r with (rsum areas); [exact S0|]. unfold Rdiv. rewrite Rmult_assoc, Rinv_l by lra. lra.
    + apply Rmult_le_reg_r with (rsum areas); [exact S0|]. unfold Rdiv. rewrite Rmult_assoc, Rinv_l by lra. lra.
  - change (map shape_pdf areas) with (map (fun a => 1 / a) areas). rewrite (wsum_inv areas F). field.
    split; [lra|]. apply not_0_INR. destruct areas; cbn; congruence.
Qed.
Print Assumptions C98_density.
Example C98_ex : table_ok [1; 3] /\ Forall (fun a => 0 < a) [1; 3].
Proof. split; [split; [repeat constructor; lra|unfold rsum; cbn; lra]|repeat constructor; lra]. Qed.

(** C99: diffuse area light *)
Theorem C99_one_sided (emit n w : vec) :
  (0 < vdot n w -> diffuse_l emit n w = emit) /\ (vdot n w <= 0 -> diffuse_l emit n w = vzero).
Proof. unfold diffuse_l, spec, vzero. destruct (Rltb 0 (vdot n w)) eqn:C; Rb; split; intros; try reflexivity; lra. Qed.
Print Assumptions C99_one_sided.
Theorem C99_sample (emit ps ns p : vec) (pdf pEps time : R) : p <> ps ->
  let s := diffuse_sample_l emit ps ns pdf p pEps time in
  unit (ls_wi s) /\ vadd p (vscale (vlength (vsub ps p)) (ls_wi s)) = ps /\ ls_pdf s = pdf /\
  tests_segment (ls_vis s) p ps pEps EPS /\ l_time (ls_vis s) = time /\
  (0 < vdot ns (vsub p ps) -> ls_L s = vmap Fin emit) /\ (vdot ns (vsub p ps) <= 0 -> ls_L s = vmap Fin vzero).
Proof.
  intros H s. destruct (toward p ps H) as [U T]. split; [exact U|]. split; [exact T|]. split; [reflexivity|].
  split; [now apply segment_main|]. split; [reflexivity|].
  pose proof (vlength_vsub_pos ps p (not_eq_sym H)) as P. set (d := vlength (vsub ps p)) in *.
  assert (D : vdot ns (vsub p ps) = d * vdot ns (vneg (normalize (vsub ps p)))).
  { unfold normalize. fold d. destruct (Reqb d 0) eqn:C; Rb; [lra|]. clearbody d.
    destruct ns as [a b c], p as [x y z], ps as [x' y' z'].
    unfold vsub, vneg, vscale, vdot, vmap, vmap2; cbn. field. lra. }
  rewrite D. unfold s, diffuse_sample_l; cbn [ls_L]. destruct (C99_one_sided emit ns (vneg (normalize (vsub ps p)))) as [A B].
  split; intros Q; f_equal; [apply A|apply B]; nra.
Qed.
Print Assumptions C99_sample.

(** C100: no light reports its power or emits a ray *)
Theorem C100_emission_refuted (k : light_kind) : (exists e, sample_r k = Err e) /\ light_power k = Err TypeError /\
  (forall ks, ks <> [] -> power_list ks = Err TypeError).
Proof. split; [destruct k; eexists; reflexivity|]. split; [reflexivity|]. intros [|k' ks] H; [congruence|reflexivity]. Qed.
Print Assumptions C100_emission_refuted.

(** C101: reading images *)
Theorem C101_read_image_partial (w h chn : Z) : is_pow_2 w = true -> is_pow_2 h = true -> (3 <= chn)%Z ->
  read_image (Colour w h chn) = Ok (Colour w h 3).
Proof.
  intros A B C. cbn. rewrite A, B. cbn. destruct (4 <=? chn)%Z eqn:D; [reflexivity|]. apply Z.leb_gt in D.
  replace chn with 3%Z by lia. reflexivity.
Qed.
Print Assumptions C101_read_image_partial.
Theorem C101_read_image_refuted (w h chn : Z) : is_pow_2 w = false \/ is_pow_2 h = false ->
  read_image (Colour w h chn) = Ok (Colour w h chn) /\ read_image (Grey w h) = Err ValueError.
Proof.
  intros H. split; [|reflexivity]. cbn. destruct H as [-> | ->]; cbn; [reflexivity|]. now rewrite orb_true_r.
Qed.
Print Assumptions C101_read_image_refuted.
Example C101_ex : is_pow_2 256 = true /\ is_pow_2 300 = false. Proof. split; reflexivity. Qed.

(** C102: distant and projection lights *)
Theorem C102_distant_refuted (l2w : transform) (l di p : vec) (pEps time : R) :
  distant_sample_l l2w l di p pEps time = Err AttributeError.
Proof. reflexivity. Qed.
Print Assumptions C102_distant_refuted.
Theorem C102_projection_refuted (file : option picture) : projection_aspect file = Err ZeroDivisionError.
Proof.
  unfold projection_aspect. destruct file as [pic|]; [|reflexivity]. unfold light_texels.
  destruct pic as [w h|w h chn]; cbn; [reflexivity|]. destruct (_ || _); reflexivity.
Qed.
Print Assumptions C102_projection_refuted.
(** sample counts are at least one *)
Theorem C102_counts_partial (ns : Z) : (1 <= light_ns ns /\ (1 <= ns -> light_ns ns = ns))%Z.
Proof. unfold light_ns. lia. Qed.
Print Assumptions C102_counts_partial.
