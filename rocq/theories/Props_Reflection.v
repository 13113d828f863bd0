(** Property theorems C41-C46, C76-C83 (reflection).  Specification vocabulary: S_Reflection.v. *)
From Coq Require Import Reals Lra Lia List ZArith Bool.
From Verif Require Import Base M_Geometry S_Geometry P_Geometry M_Transform M_MonteCarlo S_MonteCarlo P_MonteCarlo
  M_Film M_Shapes M_Reflection S_Reflection P_Reflection P_Reciprocity P_Fresnel P_LobeSampling P_Reflection2
  P_Reflection3.
Import ListNotations.
Open Scope R_scope.

(** C41: the frame built from any non-degenerate differential geometry is orthonormal, and conversion to
    it preserves all dot products (lengths and angles); the third local coordinate is the height above
    the shading plane. *)
Theorem C41_frame (flip : bool) (p du dv a b : vec) (u v : R) (ng : vec) (lobes : list bdf) :
  vcross du dv <> vzero ->
  let s := fold_left push_back lobes (bsdf_make (dg_make flip p du dv a b u v) ng) in
  frame (bs_sn s) (bs_tn s) (bs_nn s) /\ bs_bdfs s = lobes /\
  (forall x y, vdot (w2l s x) (w2l s y) = vdot x y) /\
  (forall x, vz (w2l s x) = vdot x (bs_nn s)) /\ bs_nn s = dg_nn (dg_make flip p du dv a b u v).
Proof.
  intros H s.
  assert (G : forall l s0, bs_sn (fold_left push_back l s0) = bs_sn s0 /\ bs_tn (fold_left push_back l s0) = bs_tn s0 /\
     bs_nn (fold_left push_back l s0) = bs_nn s0 /\ bs_bdfs (fold_left push_back l s0) = bs_bdfs s0 ++ l).
  { induction l as [|x l IH]; intros s0; cbn [fold_left]; [now rewrite app_nil_r|].
    destruct (IH (push_back s0 x)) as (A & B & C & D). rewrite A, B, C, D. cbn [push_back bs_sn bs_tn bs_nn bs_bdfs].
    rewrite <- app_assoc. now cbn. }
  destruct (G lobes (bsdf_make (dg_make flip p du dv a b u v) ng)) as (A & B & C & D). fold s in A, B, C, D.
  assert (OK : bs_ok s).
  { pose proof (bsdf_make_ok flip p du dv a b u v ng H) as Q. unfold bs_ok in *. rewrite A, B, C. exact Q. }
  split; [now apply frame_bs_ok|]. split; [exact D|]. split; [intros; now apply w2l_dot|]. split; [reflexivity|exact C].
Qed.
Print Assumptions C41_frame.
Example C41_ex : vcross (mkV 1 2 0) (mkV 0 1 1) <> vzero.
Proof. unfold vcross, vzero; cbn. intros H; injection H; lra. Qed.

(** C76: converting to the local frame and back is the identity exactly when the frame is made of world
    axes. *)
Theorem C76_round_trip_partial (s : bsdf) : bs_ok s -> ((forall v, l2w s (w2l s v) = v) <-> world_axes s).
Proof. exact (l2w_axes s). Qed.
Print Assumptions C76_round_trip_partial.
Theorem C76_round_trip_refuted : exists flip p du dv a b u v ng, vcross du dv <> vzero /\
  let s := bsdf_make (dg_make flip p du dv a b u v) ng in exists w, l2w s (w2l s w) <> w.
Proof.
  exists false, vzero, (mkV 0 1 0), (mkV 0 0 1), vzero, vzero, 0, 0, (mkV 1 0 0).
  assert (N : vcross (mkV 0 1 0) (mkV 0 0 1) <> vzero) by (unfold vcross, vzero; cbn; intros H; injection H; lra).
  split; [exact N|]. cbv zeta. set (s := bsdf_make _ _).
  pose proof (bsdf_make_ok false vzero (mkV 0 1 0) (mkV 0 0 1) vzero vzero 0 0 (mkV 1 0 0) N) as OK.
  fold s in OK. pose proof (proj1 (l2w_axes s OK)) as L.
  assert (X : l2w s (w2l s (mkV 1 0 0)) <> mkV 1 0 0).
  { assert (S1 : bs_sn s = mkV 0 1 0).
    { unfold s, bsdf_make. cbn [bs_sn dg_make dg_dpdu]. rewrite <- (normalize_pos_scale 1 (mkV 0 1 0)) at 2; [|lra|unfold unit; cbn; lra].
      f_equal. unfold vscale, vmap; cbn. f_equal; ring. }
    assert (S3 : bs_nn s = mkV 1 0 0).
    { unfold s, bsdf_make. cbn [bs_nn dg_make dg_nn]. rewrite <- (normalize_pos_scale 1 (mkV 1 0 0)); [|lra|unfold unit; cbn; lra].
      f_equal. unfold vscale, vmap, vcross; cbn. f_equal; ring. }
    assert (S2 : bs_tn s = mkV 0 0 1).
    { destruct OK as (_ & _ & _ & Q). rewrite Q, S1, S3. unfold vcross; cbn. f_equal; ring. }
    unfold l2w, w2l. rewrite S1, S2, S3. cbn. unfold vdot; cbn. intros Q. injection Q. lra. }
  exists (mkV 1 0 0). exact X.
Qed.
Print Assumptions C76_round_trip_refuted.

(** C42 *)
Theorem C42_matching (b : bdf) (flags : Z) :
  (match_flag b flags = true <-> subset_bits (bdf_type b) flags) /\ (reflective b <-> ~ transmissive b).
Proof.
  split; [apply match_flag_iff|]. unfold reflective, transmissive. rewrite bdf_type_side.
  destruct (Z.testbit (bdf_type b) 1); cbn; intuition congruence.
Qed.
Print Assumptions C42_matching.
(** with [sel] any test for "the lobe's type is contained in the request" *)
Theorem C42_selection (s : bsdf) (flags : Z) (sel : bdf -> bool) :
  (forall b, sel b = true <-> subset_bits (bdf_type b) flags) ->
  let m := filter sel (bs_bdfs s) in
  n_components s flags = length m /\
  (m = [] -> forall wo u0 u1 uc, bsdf_sample s wo u0 u1 uc flags = Ok (mkSmp 0 None None (spec 0))) /\
  (forall wo u0 u1 uc, 0 <= uc < 1 -> m <> [] -> exists j b, nth_error m j = Some b /\
     INR j <= uc * INR (length m) < INR j + 1 /\
     match bdf_sample b (w2l s wo) u0 u1 with
     | Err e => bsdf_sample s wo u0 u1 uc flags = Err e
     | Ok (pdf, o) =>
         (pdf = 0 -> bsdf_sample s wo u0 u1 uc flags = Ok (mkSmp 0 None (Some (bdf_type b)) (spec 0))) /\
         (pdf <> 0 -> forall wi f, o = Some (wi, f) -> bsdf_sample s wo u0 u1 uc flags =
            Ok (mkSmp (pdf / INR (length m)) (Some (l2w s wi)) (Some (bdf_type b)) f))
     end).
Proof.
  intros H m. assert (M : m = filter (fun b => match_flag b flags) (bs_bdfs s)).
  { apply filter_sel. intros b. now rewrite H, match_flag_iff. }
  assert (N : n_components s flags = length m) by (rewrite n_components_spec, M; reflexivity).
  split; [exact N|]. split.
  - intros E0 wo u0 u1 uc. unfold bsdf_sample. rewrite N, E0. reflexivity.
  - intros wo u0 u1 uc U NE. assert (P : (0 < n_components s flags)%nat).
    { rewrite N. destruct m; [congruence|cbn; lia]. }
    destruct (bsdf_sample_lobe s wo u0 u1 uc flags (proj1 U) P) as (b & _ & _ & Q & S).
    destruct (pick_index_range uc _ (proj1 U) P) as [R1 R2]. specialize (R2 (proj2 U)).
    exists (Z.to_nat (pick_index uc (n_components s flags))), b. rewrite M. split; [exact Q|]. rewrite <- M, <- N.
    split; [|exact S]. rewrite INR_IZR_INZ. rewrite Z2Nat.id by lia. exact R2.
Qed.
Print Assumptions C42_selection.
Example C42_ex : exists m : list bdf, m <> [] /\
  filter (fun b => match_flag b ALL) [Lambertian (spec 1); SpecularReflection (spec 1) FrFull] = m.
Proof. eexists; split; [|reflexivity]. discriminate. Qed.
Theorem C42_evaluation (s : bsdf) (wo wi : vec) (flags : Z) (sel : bdf -> bool) :
  (forall b, sel b = true <-> subset_bits (bdf_type b) flags /\
     (same_side (bs_ng s) wo wi -> reflective b) /\ (~ same_side (bs_ng s) wo wi -> transmissive b)) ->
  bsdf_f s wo wi flags = sum_res (map (fun b => bdf_f b (w2l s wo) (w2l s wi)) (filter sel (bs_bdfs s))).
Proof. exact (bsdf_f_spec s wo wi flags sel). Qed.
Print Assumptions C42_evaluation.
(** the average density over the matching lobes *)
Theorem C42_density (s : bsdf) (wo wi : vec) (flags : Z) (sel : bdf -> bool) :
  (forall b, sel b = true <-> subset_bits (bdf_type b) flags) ->
  let m := filter sel (bs_bdfs s) in
  bsdf_pdf s wo wi flags =
  if (length m =? 0)%nat then 0
  else sumR (map (fun b => bdf_pdf b (w2l s wo) (w2l s wi)) m) / INR (length m).
Proof.
  intros H m. assert (M : m = filter (fun b => match_flag b flags) (bs_bdfs s)).
  { apply filter_sel. intros b. now rewrite H, match_flag_iff. }
  unfold bsdf_pdf. rewrite n_components_spec, sum_pdf_spec, <- M. 
  destruct (bs_bdfs s) eqn:E0; [rewrite M; reflexivity|].
  cbv zeta. destruct (length m); cbn [Nat.eqb]; [reflexivity|]. change (0 <? S n)%nat with true. cbv iota.
  now rewrite Rplus_0_l.
Qed.
Print Assumptions C42_density.

(** C77: sampling agrees with evaluation when exactly one lobe matches (and the frame is the world's);
    with two lobes it does not. *)
Theorem C77_single_lobe_partial (s : bsdf) (b : bdf) (wo : vec) (u0 u1 uc : R) (flags : Z) :
  world_axes s -> bs_ok s -> filter (fun b => match_flag b flags) (bs_bdfs s) = [b] -> plain b -> lobe_ok b ->
  unit wo -> 0 <= u0 <= 1 -> 0 <= u1 <= 1 -> 0 <= uc ->
  exists r, bsdf_sample s wo u0 u1 uc flags = Ok r /\
    forall wi, sm_wi r = Some wi -> 0 < vz (w2l s wo) * vz (w2l s wi) ->
      sm_pdf r = bsdf_pdf s wo wi flags /\ bdf_f b (w2l s wo) (w2l s wi) = Ok (sm_f r).
Proof. exact (single_lobe_agrees s b wo u0 u1 uc flags). Qed.
Print Assumptions C77_single_lobe_partial.
Theorem C77_two_lobes_refuted : exists s wo wi u0 u1 uc smp,
  bs_ok s /\ world_axes s /\ unit wo /\ bsdf_sample s wo u0 u1 uc ALL = Ok smp /\ sm_wi smp = Some wi /\
  sm_pdf smp <> bsdf_pdf s wo wi ALL /\ bsdf_f s wo wi ALL <> Ok (sm_f smp).
Proof. exact two_lobes_wrong. Qed.
Print Assumptions C77_two_lobes_refuted.

(** C43 *)
Lemma lobe_ok_tables b : lobe_ok b -> tables_ok b.
Proof. induction b; cbn [lobe_ok tables_ok]; auto. intros (A & B & C & _). auto. Qed.
Theorem C43_lobes (b : bdf) (wo wi : vec) : lobe_ok b -> generic_pair wo wi ->
  bdf_f b wo wi = bdf_f b wi wo.
Proof. intros L (A & B & _). exact (proj1 (recip_both b (lobe_ok_tables b L) wo wi A B)). Qed.
Print Assumptions C43_lobes.
Example C43_ex : generic_pair (mkV (3/5) 0 (4/5)) (mkV 0 (-3/5) (4/5)) /\
  lobe_ok (BRDF2BTDF (Microfacet (spec 1) (FrDiel 1 (3/2)) (Aniso 10 200))).
Proof. unfold generic_pair, unit; cbn. repeat split; try lra. Qed.
Theorem C43_bsdf (s : bsdf) (wo wi : vec) (flags : Z) : bs_ok s -> Forall lobe_ok (bs_bdfs s) ->
  generic_pair (w2l s wo) (w2l s wi) -> bsdf_f s wo wi flags = bsdf_f s wi wo flags.
Proof.
  intros H F (A & B & _). unfold bsdf_f. rewrite side_flags_sym. apply sum_f_sym; auto.
  eapply Forall_impl; [|exact F]. apply lobe_ok_tables.
Qed.
Print Assumptions C43_bsdf.

(** C44: conductors always; dielectrics whenever the ray is in the optically thinner medium; total internal
    reflection gives 1.  The cosine is any real number (it is clamped). *)
Theorem C44_fraction :
  (forall c eta k, 0 < vx eta -> 0 < vy eta -> 0 < vz eta ->
     within (mkV 0 0 0) (mkV 1 1 1) (fresnel_call (FrCond eta k) c)) /\
  (forall ei et c, 0 < ei -> 0 < et -> (0 <= c -> ei <= et) -> (c < 0 -> et <= ei) ->
     within (mkV 0 0 0) (mkV 1 1 1) (fresnel_call (FrDiel ei et) c)) /\
  (forall ei et c, 0 < ei -> 0 < et -> -1 <= c <= 1 ->
     let k := if Rltb c 0 then et / ei else ei / et in
     1 <= k * sqrt (1 - c * c) -> fresnel_call (FrDiel ei et) c = mkV 1 1 1) /\
  (forall c, fresnel_call FrFull c = mkV 1 1 1).
Proof.
  split; [|split; [|split]].
  - intros c eta k A B C. cbn [fresnel_call]. unfold fr_cond, within, spec_le, vmap2; cbn [vx vy vz].
    pose proof (fr_cond1_range (Rabs c) (vx eta) (vx k) (Rabs_pos c) A).
    pose proof (fr_cond1_range (Rabs c) (vy eta) (vy k) (Rabs_pos c) B).
    pose proof (fr_cond1_range (Rabs c) (vz eta) (vz k) (Rabs_pos c) C). repeat split; lra.
  - intros ei et c A B C D. cbn [fresnel_call]. unfold within, spec_le, spec; cbn [vx vy vz].
    assert (0 <= fr_diel_call ei et c <= 1).
    { apply fr_diel_call_dense; auto. destruct (Rltb c 0) eqn:K; Rb; auto. }
    repeat split; lra.
  - intros ei et c A B C k T. cbn [fresnel_call]. unfold spec. now rewrite (fr_diel_tir ei et c A B C T).
  - reflexivity.
Qed.
Print Assumptions C44_fraction.
(** C78: full range of index pairs.  It holds up to an index ratio of 3, fails at 10, and the value at normal
    incidence is not Fresnel's for any two different media. *)
Theorem C78_moderate_indices_partial (ei et c : R) : 0 < ei -> 0 < et -> ei <= 3 * et -> et <= 3 * ei ->
  within (mkV 0 0 0) (mkV 1 1 1) (fresnel_call (FrDiel ei et) c).
Proof.
  intros A B C D. pose proof (fr_diel_call_range ei et c A B C D).
  cbn [fresnel_call]. unfold within, spec_le, spec; cbn [vx vy vz]. repeat split; lra.
Qed.
Print Assumptions C78_moderate_indices_partial.
Theorem C78_high_index_refuted : exists ei et c, 0 < ei /\ 0 < et /\ -1 <= c <= 1 /\
  1 < vx (fresnel_call (FrDiel ei et) c).
Proof. exists 10, 1, 1. pose proof fr_diel_exceeds. cbn [fresnel_call]. unfold spec; cbn [vx]. repeat split; lra. Qed.
Print Assumptions C78_high_index_refuted.
Theorem C78_fresnel_formula_refuted (ei et : R) : 0 < ei -> 0 < et -> ei <> et ->
  vx (fresnel_call (FrDiel ei et) 1) <> fresnel_dielectric 1 1 ei et.
Proof. exact (fr_diel_wrong ei et). Qed.
Print Assumptions C78_fresnel_formula_refuted.

(** C45 *)
Theorem C45_mirror (r : vec) (fr : fresnel) (wo : vec) (u1 u2 : R) : unit wo ->
  exists wi f, bdf_sample (SpecularReflection r fr) wo u1 u2 = Ok (1, Some (wi, f)) /\ unit wi /\
    wi = mkV (- vx wo) (- vy wo) (vz wo) /\ vadd wo wi = vscale (2 * vz wo) (mkV 0 0 1) /\
    f = sdiv (smul (fresnel_call fr (vz wo)) r) (Rabs (vz wo)).
Proof. exact (mirror_main r fr wo u1 u2). Qed.
Print Assumptions C45_mirror.
Theorem C45_transmission (t : vec) (ei et : R) (wo : vec) (u1 u2 : R) : 0 < ei -> 0 < et -> unit wo ->
  let k := used_ratio ei et wo in
  (k * k * (vx wo * vx wo + vy wo * vy wo) < 1 ->
    exists wi f, bdf_sample (SpecularTransmission t ei et) wo u1 u2 = Ok (1, Some (wi, f)) /\
      unit wi /\ (vz wo <> 0 -> vz wi * vz wo < 0) /\ refracts k wo wi) /\
  (1 <= k * k * (vx wo * vx wo + vy wo * vy wo) ->
    bdf_sample (SpecularTransmission t ei et) wo u1 u2 = Ok (0, None)).
Proof. exact (transmit_main t ei et wo u1 u2). Qed.
Print Assumptions C45_transmission.
Example C45_ex : unit (mkV (3/5) 0 (4/5)) /\
  let k := used_ratio 1 (3/2) (mkV (3/5) 0 (4/5)) in k * k * (3/5 * (3/5) + 0 * 0) < 1.
Proof.
  split; [unfold unit; cbn; lra|]. unfold used_ratio; cbn.
  replace (Rltb 0 (4/5)) with true by (symmetry; apply Rltb_true; lra). lra.
Qed.
(** C79: the index ratio is the inverse of Snell's, on both sides, whenever the media differ and the
    incidence is not normal; so light entering glass can be "totally reflected". *)
Theorem C79_snell_refuted (t : vec) (ei et : R) (wo : vec) (u1 u2 : R) : 0 < ei -> 0 < et -> ei <> et -> unit wo ->
  vz wo <> 0 -> ~ (vx wo = 0 /\ vy wo = 0) -> forall wi f,
  bdf_sample (SpecularTransmission t ei et) wo u1 u2 = Ok (1, Some (wi, f)) ->
  ~ refracts (snell_ratio ei et wo) wo wi.
Proof. exact (transmit_wrong t ei et wo u1 u2). Qed.
Print Assumptions C79_snell_refuted.
Theorem C79_spurious_total_reflection_refuted (t : vec) (u1 u2 : R) :
  let wo := mkV (4/5) 0 (3/5) in
  unit wo /\ snell_ratio 1 (3/2) wo * snell_ratio 1 (3/2) wo * (vx wo * vx wo + vy wo * vy wo) < 1 /\
  bdf_sample (SpecularTransmission t 1 (3/2)) wo u1 u2 = Ok (0, None).
Proof.
  cbv zeta. assert (U : unit (mkV (4/5) 0 (3/5))) by (unfold unit; cbn; lra). split; [exact U|].
  assert (C : Rltb 0 (3/5) = true) by (apply Rltb_true; lra).
  split; [unfold snell_ratio; cbn [vx vy vz]; rewrite C; lra|].
  apply (transmit_main t 1 (3/2) (mkV (4/5) 0 (3/5)) u1 u2); try lra; [exact U|].
  unfold used_ratio; cbn [vx vy vz]. rewrite C. lra.
Qed.
Print Assumptions C79_spurious_total_reflection_refuted.
Theorem C79_normal_incidence_partial (t : vec) (ei et : R) (u1 u2 : R) (z : R) : 0 < ei -> 0 < et -> z = 1 \/ z = -1 ->
  exists f, bdf_sample (SpecularTransmission t ei et) (mkV 0 0 z) u1 u2 = Ok (1, Some (mkV 0 0 (- z), f)).
Proof.
  intros A B Z0. assert (U : unit (mkV 0 0 z)) by (unfold unit; cbn; destruct Z0; subst; lra).
  destruct (transmit_main t ei et (mkV 0 0 z) u1 u2 A B U) as [M _]. cbv zeta in M. cbn [vx vy] in M.
  destruct M as (wi & f & S & Uw & Sg & [R1 R2]); [lra|]. exists f. rewrite S. do 4 f_equal. cbn [vx vy vz] in *.
  unfold unit in Uw. assert (X : vx wi = 0) by lra. assert (Y : vy wi = 0) by lra. rewrite X, Y in Uw.
  specialize (Sg ltac:(destruct Z0; lra)). apply V3_eq; cbn; try lra. destruct Z0; subst; nra.
Qed.
Print Assumptions C79_normal_incidence_partial.

(** C46 *)
Theorem C46_sampling (b : bdf) (wo : vec) (u1 u2 : R) :
  plain b -> lobe_ok b -> unit wo -> 0 <= u1 <= 1 -> 0 <= u2 <= 1 ->
  exists pdf wi f, bdf_sample b wo u1 u2 = Ok (pdf, Some (wi, f)) /\ unit wi /\ 0 <= pdf /\
    (0 < vz wo * vz wi -> pdf <> 0 -> pdf = bdf_pdf b wo wi /\ bdf_f b wo wi = Ok f) /\
    (vz wo * vz wi <= 0 -> pdf = 0 \/ f = spec 0).
Proof. exact (plain_sample_main b wo u1 u2). Qed.
Print Assumptions C46_sampling.
Example C46_ex : plain (Microfacet (spec 1) (FrDiel 1 (3/2)) (Aniso 10 200)) /\
  lobe_ok (Microfacet (spec 1) (FrDiel 1 (3/2)) (Aniso 10 200)) /\ unit (mkV (3/5) 0 (4/5)).
Proof. unfold unit; cbn. repeat split; lra. Qed.
Theorem C46_lambertian_estimate (r : vec) (wo : vec) (u1 u2 : R) : vz wo <> 0 -> 0 <= u1 <= 1 -> u1 <> 1/2 ->
  exists pdf wi f, bdf_sample (Lambertian r) wo u1 u2 = Ok (pdf, Some (wi, f)) /\ 0 < pdf /\
    sdiv (vscale (Rabs (vz wi)) f) pdf = r.
Proof. exact (lambert_estimate r wo u1 u2). Qed.
Print Assumptions C46_lambertian_estimate.
(** C80: the adapters *)
Theorem C80_btdf_adapter_partial (b : bdf) (wo : vec) (u1 u2 : R) :
  plain b -> lobe_ok b -> unit wo -> 0 <= u1 <= 1 -> 0 <= u2 <= 1 ->
  exists pdf wi f, bdf_sample (BRDF2BTDF b) wo u1 u2 = Ok (pdf, Some (wi, f)) /\ unit wi /\ 0 <= pdf /\
    (vz wo * vz wi < 0 -> pdf <> 0 -> bdf_f (BRDF2BTDF b) wo wi = Ok f).
Proof. exact (b2t_sample b wo u1 u2). Qed.
Print Assumptions C80_btdf_adapter_partial.
Theorem C80_btdf_density_refuted (r wo : vec) (u1 u2 : R) : unit wo -> vz wo <> 0 -> 0 <= u1 <= 1 -> u1 <> 1/2 ->
  exists pdf wi f, bdf_sample (BRDF2BTDF (Lambertian r)) wo u1 u2 = Ok (pdf, Some (wi, f)) /\
    0 < pdf /\ bdf_pdf (BRDF2BTDF (Lambertian r)) wo wi = 0.
Proof. exact (b2t_pdf_zero r wo u1 u2). Qed.
Print Assumptions C80_btdf_density_refuted.
Theorem C80_scaled_refuted (b : bdf) (s wo wi : vec) (u1 u2 : R) :
  bdf_f (ScaledBDF b s) wo wi = Err AttributeError /\ bdf_sample (ScaledBDF b s) wo u1 u2 = Err AttributeError.
Proof. exact (scaled_fails b s wo wi u1 u2). Qed.
Print Assumptions C80_scaled_refuted.

(** C81 *)
Theorem C81_non_negative (b : bdf) (wo wi f : vec) : params_ok b -> unit wo -> unit wi -> vz wo <> 0 -> vz wi <> 0 ->
  lobe_side b wo wi -> bdf_f b wo wi = Ok f -> spec_ge0 f.
Proof. intros H; exact (f_ge0 b H wo wi f). Qed.
Print Assumptions C81_non_negative.
Theorem C81_density_non_negative (b : bdf) (wo wi : vec) : lobe_ok b -> 0 <= bdf_pdf b wo wi.
Proof. exact (bdf_pdf_nonneg b wo wi). Qed.
Print Assumptions C81_density_non_negative.
Theorem C81_shadowing (wo wi wh : vec) : vdot wo wh <> 0 -> 0 <= mf_G wo wi wh <= 1.
Proof. exact (G_range wo wi wh). Qed.
Print Assumptions C81_shadowing.
Theorem C81_smooth_oren_nayar (r wo wi : vec) : bdf_f (oren_nayar r 0) wo wi = bdf_f (Lambertian r) wo wi.
Proof. exact (oren_zero r wo wi). Qed.
Print Assumptions C81_smooth_oren_nayar.
Example C81_ex : params_ok (BRDF2BTDF (oren_nayar (spec 1) 20)) /\
  lobe_side (BRDF2BTDF (oren_nayar (spec 1) 20)) (mkV (3/5) 0 (4/5)) (mkV (3/5) 0 (-4/5)).
Proof.
  split.
  - cbn. split; [unfold spec_ge0, spec; cbn; lra|]. exists 20, (spec 1). reflexivity.
  - unfold lobe_side, reflective, transmissive. cbn [vz]. split; [intros H; vm_compute in H; discriminate|intros; lra].
Qed.

(** C82 *)
Theorem C82_measured_tables (data : list (list (list vec))) (a b c : Z) (wo wi : vec) : table_shape data a b c ->
  let '(i, j, k) := rehalf_index a b c wo wi in (0 <= i < a /\ 0 <= j < b /\ 0 <= k < c)%Z /\
  exists v, bdf_f (ReHalfangle data a b c) wo wi = Ok v.
Proof.
  intros T. pose proof T as (A & B & C & D). rewrite rehalf_index_zero by assumption. split; [lia|].
  cbn [bdf_f]. unfold rehalf_f. rewrite rehalf_index_zero by assumption. now apply table_get with (a := a) (b := b) (c := c).
Qed.
Print Assumptions C82_measured_tables.
Example C82_ex : table_shape [[[spec 1; spec 0]]; [[spec 1; spec 0]]] 2 1 2.
Proof. unfold table_shape. repeat split; try lia; repeat constructor. Qed.
Theorem C82_measured_samples (query : vec -> R -> list nat) (data : list (vec * vec)) (wo wi : vec) :
  (exists r q, ir_f query data wo wi 16 = Some (r, q) /\ (q <= 16)%nat) /\
  (forall fuel, ir_f query data wo wi fuel = ir_f query data wi wo fuel) /\
  (forall lo hi v q, Forall (fun s => within lo hi (snd s)) data -> spec_ge0 lo ->
     ir_f query data wo wi 16 = Some (Ok (Some v), q) -> within lo hi v).
Proof.
  split; [apply ir_ends|]. split; [intros; unfold ir_f; now rewrite brdf_remap_sym|].
  intros lo hi v q. apply ir_hull.
Qed.
Print Assumptions C82_measured_samples.
Theorem C82_remap_range (wo wi : vec) : unit wo -> unit wi ->
  0 <= vx (brdf_remap wo wi) <= 1 /\ 0 <= vy (brdf_remap wo wi) <= 1 /\ -1 <= vz (brdf_remap wo wi) <= 1.
Proof. exact (brdf_remap_range wo wi). Qed.
Print Assumptions C82_remap_range.
(** C83: the table is consulted at one cell only *)
Theorem C83_table_coverage_refuted (a b c : Z) (wo wi : vec) : (1 <= a)%Z -> (1 <= b)%Z -> (1 <= c)%Z ->
  rehalf_index a b c wo wi = (0, 0, 0)%Z.
Proof. exact (rehalf_index_zero a b c wo wi). Qed.
Print Assumptions C83_table_coverage_refuted.

(** C84: outside its own side a microfacet lobe can be negative *)
Theorem C84_microfacet_other_side_refuted : exists r fr d wo wi f, params_ok (Microfacet r fr d) /\ unit wo /\ unit wi /\
  bdf_f (Microfacet r fr d) wo wi = Ok f /\ vx f < 0.
Proof. exact micro_negative. Qed.
Print Assumptions C84_microfacet_other_side_refuted.
