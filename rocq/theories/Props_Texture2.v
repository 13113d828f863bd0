(** Property theorems C282 (how an octave of noise fades in) and C142 (elliptical lookups: all footprints). *)
From Coq Require Import Reals List ZArith Bool Lra Lia.
From Verif Require Import Base M_Geometry M_Utility M_Film M_Shapes M_MipMap M_Texture S_Texture P_Film P_Utility P_MipMap1 P_MipMap2 P_MipMap3 P_MipMap4 P_MipMap5 P_MipMap6 P_Texture1 P_Texture2 Props_Texture.
Import ListNotations.
Open Scope R_scope.

(** The footprint of a lookup: the longer of the two differentials. *)
Definition footprint (dpdx dpdy : vec) : R := Rmax (vlength dpdx) (vlength dpdy).
(** The weight of an octave of which the fraction [x] is present: constant up to 3/10 and from 7/10 on, a cubic in between. *)
Definition octave_weight (x : R) : R :=
  if Rle_dec x (3 / 10) then 27 / 125 else if Rle_dec (7 / 10) x then 98 / 125 else x * x * (3 - 2 * x).
Lemma octave_weight_ok (x : R) : smooth_step (3 / 10) (7 / 10) x = octave_weight x.
Proof.
  unfold smooth_step, octave_weight, clip, Rmin, Rmax. cbv zeta.
  repeat match goal with |- context [if Rle_dec ?a ?b then _ else _] => destruct (Rle_dec a b); try lra end;
  match goal with H1 : ?a <= ?x, H2 : ?x <= ?a |- _ => assert (x = a) by lra; subst x; lra | _ => idtac end; nra.
Qed.
Lemma octaves_between (dpdx dpdy : vec) (max_octaves : Z) (s : R) : (1 <= max_octaves)%Z -> s = footprint dpdx dpdy -> 1 <= s <= 2 ->
  octaves_of dpdx dpdy max_octaves = 1 - ln s / ln 2 /\ 0 <= ln s / ln 2 <= 1 /\ (1 < s -> 0 < ln s / ln 2).
Proof.
  intros M S0 SR. assert (L2 : 0 < ln 2) by (rewrite <- ln_1; apply ln_increasing; lra).
  assert (SS : s * s = pmax (sq_length dpdx) (sq_length dpdy)).
  { unfold footprint, vlength in S0. assert (A0 : 0 <= sq_length dpdx) by (unfold sq_length; nra). assert (B0 : 0 <= sq_length dpdy) by (unfold sq_length; nra).
    rewrite S0. unfold pmax, Rmax. destruct (Rle_dec _ _) as [C|C]; destruct (Rltb _ _) eqn:D; Rb; rewrite sqrt_sqrt by assumption; try reflexivity.
    - apply sqrt_le_0 in C; try assumption. lra.
    - exfalso. apply C. apply sqrt_le_1_alt. lra. }
  assert (LS : log2R (s * s) = 2 * (ln s / ln 2)) by (unfold log2R; rewrite ln_mult by lra; field; lra).
  assert (L1 : 1 < s -> 0 < ln s / ln 2) by (intros; apply Rdiv_lt_0_compat; [rewrite <- ln_1; apply ln_increasing; lra|lra]).
  assert (L0 : 0 <= ln s / ln 2 <= 1).
  { split; [destruct (Req_dec s 1) as [-> |]; [rewrite ln_1; unfold Rdiv; lra|left; apply L1; lra]|]. apply Rmult_le_reg_r with (ln 2); [lra|].
    replace (ln s / ln 2 * ln 2) with (ln s) by (field; lra). rewrite Rmult_1_l. destruct (Req_dec s 2) as [-> |]; [lra|left; apply ln_increasing; lra]. }
  split; [|auto]. unfold octaves_of. cbv zeta. rewrite <- SS. destruct (Reqb (s * s) 0) eqn:Q; Rb; [nra|]. rewrite LS. unfold pmin. apply IZR_le in M.
  destruct (Rltb _ _) eqn:Q2; Rb; lra.
Qed.
(** A smooth step should leave 0 at its lower and arrive at 1 at its upper bound; it does not unless these are 0 and 1. *)
Theorem C282_step_refuted (lo hi x y : R) : 0 < lo -> lo < hi -> hi < 1 -> x <= lo -> hi <= y ->
  0 < smooth_step lo hi x /\ smooth_step lo hi y < 1.
Proof.
  intros A B C D E. unfold smooth_step. cbv zeta. assert (P1 : clip x lo hi = lo) by (unfold clip, Rmin, Rmax; repeat destruct Rle_dec; lra).
  assert (P2 : clip y lo hi = hi) by (unfold clip, Rmin, Rmax; repeat destruct Rle_dec; lra). rewrite P1, P2. split; [apply Rmult_lt_0_compat; nra|].
  assert (Q : 1 - hi * hi * (3 - 2 * hi) = (1 - hi) * (1 - hi) * (1 + 2 * hi)) by ring.
  assert (0 < (1 - hi) * (1 - hi) * (1 + 2 * hi)) by (apply Rmult_lt_0_compat; nra). lra.
Qed.
Print Assumptions C282_step_refuted.
(** ... so turbulence jumps where the footprint passes one noise cell, at every point where the noise is not 0. *)
Theorem C282_jump_refuted (p dpdx dpdy dpdx' dpdy' : vec) (omega : R) (max_octaves : Z) (x y : R) :
  (1 <= max_octaves)%Z -> 0 <= omega -> noise p = Ok x -> noise (vscale (199 / 100) p) = Ok y ->
  footprint dpdx dpdy = 1 -> 1 < footprint dpdx' dpdy' <= Rpower 2 (3 / 10) ->
  exists a b, turbulence p dpdx dpdy omega max_octaves = Ok a /\ turbulence p dpdx' dpdy' omega max_octaves = Ok b /\ b + 27 / 125 * Rabs x <= a.
Proof.
  intros M W X Y F F'. assert (L2 : 0 < ln 2) by (rewrite <- ln_1; apply ln_increasing; lra).
  assert (P1 : Rpower 2 (3 / 10) < 2) by (rewrite <- (Rpower_1 2) at 2 by lra; apply Rpower_lt; lra).
  destruct (octaves_between dpdx dpdy max_octaves 1 M (eq_sym F) ltac:(lra)) as (O & _ & _).
  destruct (octaves_between dpdx' dpdy' max_octaves _ M eq_refl ltac:(lra)) as (O' & B1 & B2). set (s := footprint dpdx' dpdy') in *.
  assert (L3 : ln s / ln 2 <= 3 / 10).
  { replace (3 / 10) with (ln (Rpower 2 (3 / 10)) / ln 2) by (unfold Rpower; rewrite ln_exp; field; lra).
    apply Rmult_le_compat_r; [left; now apply Rinv_0_lt_compat|]. destruct (proj2 F') as [H|H]; [left; apply ln_increasing; lra|rewrite <- H; lra]. }
  assert (V1 : vscale 1 p = p) by (destruct p; unfold vscale, vmap; cbn; apply V3_eq; cbn; ring).
  assert (V2 : vscale (1 * (199 / 100)) p = vscale (199 / 100) p) by (now rewrite Rmult_1_l).
  assert (F1 : ftoi (1 - ln 1 / ln 2) = 1%Z) by (unfold ftoi; rewrite ln_1; apply Zfloor_unique; unfold Rdiv; lra).
  assert (F2 : ftoi (1 - ln s / ln 2) = 0%Z) by (unfold ftoi; apply Zfloor_unique; specialize (B2 (proj1 F')); lra).
  unfold turbulence. cbv zeta. rewrite O, O', F1, F2. change (Z.to_nat 1) with 1%nat. change (Z.to_nat 0) with 0%nat. cbn [turb_loop bind].
  rewrite V1, X. cbn [bind]. rewrite V2, Y. cbn [bind]. eexists. eexists. split; [reflexivity|]. split; [reflexivity|]. rewrite !octave_weight_ok.
  unfold octave_weight at 1. destruct (Rle_dec (1 - ln s / ln 2 - 0) (3 / 10)); [lra|]. destruct (Rle_dec (7 / 10) (1 - ln s / ln 2 - 0)); [|lra].
  assert (0 <= octave_weight (1 - ln 1 / ln 2 - 1)) by (rewrite <- octave_weight_ok; apply smooth_range; lra).
  pose proof (Rabs_pos x). pose proof (Rabs_pos y). set (q := octave_weight _) in *.
  assert (0 <= 1 * omega * q * Rabs y) by (repeat apply Rmult_le_pos; lra). lra.
Qed.
Print Assumptions C282_jump_refuted.
(** What holds: with the bounds 0 and 1 the step is right, ... *)
Theorem C282_step_partial (x : R) : (x <= 0 -> smooth_step 0 1 x = 0) /\ (1 <= x -> smooth_step 0 1 x = 1) /\ (0 <= x <= 1 -> smooth_step 0 1 x = x * x * (3 - 2 * x)).
Proof.
  unfold smooth_step, clip, Rmin, Rmax. cbv zeta. repeat split; intros H; repeat destruct Rle_dec; try lra; try ring.
  all: try (replace x with 0 by lra; ring); try (replace x with 1 by lra; ring).
Qed.
Print Assumptions C282_step_partial.
(** ... and between one and two noise cells FBm and turbulence are the (absolute) noise, weighted by how far the footprint is
    from two cells on a logarithmic scale. *)
Theorem C282_fade_partial (p dpdx dpdy : vec) (omega : R) (max_octaves : Z) (x s : R) : (1 <= max_octaves)%Z -> noise p = Ok x ->
  s = footprint dpdx dpdy -> 1 < s <= 2 ->
  fbm p dpdx dpdy omega max_octaves = Ok (octave_weight (ln (2 / s) / ln 2) * x) /\
  turbulence p dpdx dpdy omega max_octaves = Ok (octave_weight (ln (2 / s) / ln 2) * Rabs x).
Proof.
  intros M X S0 SR. assert (L2 : 0 < ln 2) by (rewrite <- ln_1; apply ln_increasing; lra).
  destruct (octaves_between dpdx dpdy max_octaves s M S0 ltac:(lra)) as (O & B1 & B2). specialize (B2 (proj1 SR)).
  assert (F2 : ftoi (1 - ln s / ln 2) = 0%Z) by (unfold ftoi; apply Zfloor_unique; lra).
  assert (V1 : vscale 1 p = p) by (destruct p; unfold vscale, vmap; cbn; apply V3_eq; cbn; ring).
  assert (LQ : ln (2 / s) / ln 2 = 1 - ln s / ln 2 - 0) by (unfold Rdiv at 2; rewrite ln_mult, ln_Rinv by (try apply Rinv_0_lt_compat; lra); field; lra).
  rewrite LQ, <- octave_weight_ok. unfold fbm, turbulence. cbv zeta. rewrite O, F2. change (Z.to_nat 0) with 0%nat.
  cbn [turb_loop bind Z.ltb Z.compare]. rewrite V1, X. cbn [bind]. split; f_equal; ring.
Qed.
Print Assumptions C282_fade_partial.
(** At (2, 0, 0) the noise is -1, so the jump there is at least 27/125. *)
Example C282_ex : noise (mkV 2 0 0) = Ok (-1) /\ (exists y, noise (vscale (199 / 100) (mkV 2 0 0)) = Ok y) /\
  footprint (mkV 1 0 0) (mkV 0 1 0) = 1 /\ 1 < footprint (mkV (11 / 10) 0 0) (mkV 0 1 0) <= Rpower 2 (3 / 10).
Proof.
  split; [exact C147_lattice_refuted|]. split; [destruct (noise_bound (vscale (199 / 100) (mkV 2 0 0))) as (v & E & _); now exists v|].
  assert (Q : forall a b, 0 <= a -> 0 <= b -> footprint (mkV a 0 0) (mkV 0 b 0) = Rmax a b).
  { intros a b A B. unfold footprint, vlength, sq_length; cbn [vx vy vz]. replace (a * a + 0 * 0 + 0 * 0) with (a * a) by ring. replace (0 * 0 + b * b + 0 * 0) with (b * b) by ring.
    now rewrite !sqrt_square. }
  rewrite !Q by lra. unfold Rmax. repeat destruct Rle_dec; try lra. split; [lra|]. split; [lra|].
  assert (Rpower 2 (3 / 10) = Rpower 8 (/ 10)) by (unfold Rpower; f_equal; replace 8 with (2 * 2 * 2) by lra; rewrite !ln_mult by lra; field).
  rewrite H. assert (R10 : Rpower (Rpower (11 / 10) (INR 10)) (/ 10) = 11 / 10).
  { rewrite Rpower_mult. replace (INR 10 * / 10) with 1 by (cbn; lra). apply Rpower_1. lra. }
  rewrite <- R10. apply Rle_Rpower_l; [lra|]. rewrite Rpower_pow by lra. split; [cbn; lra|cbn; lra].
Qed.

(** C142, all footprints: with [p] and [q] the lengths of the two axes, the filter uses the shorter one, or the longer one
    divided by the largest allowed eccentricity if that is more.  Zero extent: the finest level, bilinear; up to 2 (twice
    the whole texture): AttributeError; from 2 on: the mean of the image. *)
Definition filter_axis (p q an : R) : R := if Req_EM_T (Rmin p q) 0 then 0 else Rmax (Rmin p q) (Rmax p q / an).
Theorem C142_all_footprints_partial (w : wrap) (an : R) (sp : bool) (img : image) (r c : Z) (s t a0 b0 a1 b1 : R) :
  power_of_two r -> power_of_two c -> shaped img r c -> 0 < an ->
  let d := filter_axis (sqrt (a0 * a0 + b0 * b0)) (sqrt (a1 * a1 + b1 * b1)) an in
  exists m, mip_make w false an sp img = Ok m /\
    (d = 0 -> look_up6 m s t a0 b0 a1 b1 = triangle m 0 s t /\ exists x, triangle m 0 s t = Ok x) /\
    (0 < d < 2 -> look_up6 m s t a0 b0 a1 b1 = Err AttributeError) /\
    (2 <= d -> forall k, r = (2 ^ Z.of_nat k)%Z -> c = (2 ^ Z.of_nat k)%Z -> look_up6 m s t a0 b0 a1 b1 = Ok (block_mean img k 0 0)).
Proof.
  intros (a & A & ->) (b & B & ->) Sh An d. destruct (make_pow w false an sp img a b A B Sh) as (py & HM & G).
  eexists. split; [exact HM|]. match goal with |- context [look_up6 ?mm] => destruct (@ewa_shape mm s t a0 b0 a1 b1 eq_refl An) as (x0 & y0 & x1 & y1 & ->) end. cbn [m_aniso].
  change (if Req_EM_T _ 0 then 0 else _) with d. split; [|split].
  - intros D. rewrite D. rewrite (ewa_tail_zero G).
    pose proof (ewa_tail_zero G s t 0 0 0 0) as T. unfold ewa_tail in T. destruct (Reqb 0 0) eqn:Q1; Rb; [|lra].
    rewrite T. split; [reflexivity|]. now eexists.
  - intros D. now apply (ewa_tail_small G).
  - intros D k K1 K2. apply Z.pow_inj_r in K1; try lia. apply Z.pow_inj_r in K2; try lia. subst a b.
    destruct (ewa_tail_large G s t x0 y0 x1 y1 d D) as (l & Hl & S1 & ->). f_equal. rewrite Z.max_id, Nat2Z.id in Hl.
    rewrite (level_blocks G k l 0 0) by (auto; rewrite ?Z.sub_diag; cbn; lia). now destruct (Nat.even k).
Qed.
Print Assumptions C142_all_footprints_partial.
Example C142_all_ex : filter_axis 2 2 8 = 2 /\ filter_axis (1 / 2) 16 8 = 2 /\ filter_axis 1 0 8 = 0 /\ filter_axis (1 / 10) (2 / 10) 8 = 1 / 10.
Proof. unfold filter_axis, Rmin, Rmax. repeat split; repeat (destruct Rle_dec || destruct Req_EM_T); try lra; match goal with |- _ => idtac end. Qed.
