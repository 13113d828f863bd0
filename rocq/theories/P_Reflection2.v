From Coq Require Import Reals Lra Lia List ZArith Bool Psatz.
From Verif Require Import Base M_Geometry S_Geometry P_Geometry M_Transform M_MonteCarlo S_MonteCarlo P_MonteCarlo
  M_Film M_Shapes P_Normals M_Reflection S_Reflection P_Reflection P_Reciprocity P_Fresnel P_LobeSampling P_BVHWit.
Import ListNotations.
Open Scope R_scope.

Ltac sg := unfold spec_ge0, spec_le, smul, sdiv, vscale, vadd, vsub, vmap2, vmap, spec in *; cbn [vx vy vz] in *.

Lemma div_nonneg a b : 0 <= a -> 0 < b -> 0 <= a / b.
Proof. intros; apply Rmult_le_pos; [lra|left; now apply Rinv_0_lt_compat]. Qed.
Lemma scale_ge0 k s : 0 <= k -> spec_ge0 s -> spec_ge0 (vscale k s).
Proof. intros K (A & B & C). sg. repeat split; now apply Rmult_le_pos. Qed.
Lemma add_ge0 a b : spec_ge0 a -> spec_ge0 b -> spec_ge0 (vadd a b).
Proof. intros (A & B & C) (D & E0 & F). sg. repeat split; lra. Qed.
Lemma mul_ge0 a b : spec_ge0 a -> spec_ge0 b -> spec_ge0 (smul a b).
Proof. intros (A & B & C) (D & E0 & F). sg. repeat split; now apply Rmult_le_pos. Qed.
Lemma sdiv_ge0 s k : spec_ge0 s -> 0 < k -> spec_ge0 (sdiv s k).
Proof. intros (A & B & C) K. sg. repeat split; now apply div_nonneg. Qed.

Lemma oren_AB r A B sig : OrenNayar r A B = oren_nayar r sig -> 1/2 < A <= 1 /\ 0 <= B < 45/100.
Proof.
  unfold oren_nayar. cbv zeta. set (q := deg2rad sig * deg2rad sig).
  assert (Q : 0 <= q) by (unfold q; nra). intros H.
  assert (EA : A = 1 - (q / (2 * (q + 33/100)))) by congruence.
  assert (EB : B = 45/100 * q / (q + 9/100)) by congruence. subst A B. clearbody q.
  assert (X : 0 <= q / (2 * (q + 33/100)) < 1/2).
  { split; [apply div_nonneg; lra|]. apply (Rmult_lt_reg_r (2 * (q + 33/100))); [lra|].
    unfold Rdiv at 1. rewrite Rmult_assoc, Rinv_l by lra. lra. }
  assert (Y : 0 <= 45/100 * q / (q + 9/100) < 45/100).
  { split; [apply div_nonneg; lra|]. apply (Rmult_lt_reg_r (q + 9/100)); [lra|].
    unfold Rdiv at 1. rewrite Rmult_assoc, Rinv_l by lra. lra. }
  lra.
Qed.
Lemma oren_zero r wo wi : bdf_f (oren_nayar r 0) wo wi = bdf_f (Lambertian r) wo wi.
Proof.
  unfold oren_nayar. cbn [bdf_f]. f_equal. unfold oren_nayar_f, deg2rad. cbv zeta.
  destruct (if Rltb (abs_cos_theta wo) (abs_cos_theta wi) then _ else _) as [sa tb].
  match goal with |- context [?B * ?m * sa * tb] => set (mc := m) end.
  unfold vscale, vmap; cbn [vx vy vz]. f_equal; field; apply PI_neq0.
Qed.
Lemma abs_cos_nonneg w : 0 <= abs_cos_theta w. Proof. apply Rabs_pos. Qed.
Lemma oren_ge0 r A B wo wi : spec_ge0 r -> 0 <= A -> 0 <= B -> vz wo <> 0 -> vz wi <> 0 ->
  spec_ge0 (oren_nayar_f r A B wo wi).
Proof.
  intros R0 HA HB Zo Zi. unfold oren_nayar_f. cbv zeta.
  assert (So : 0 <= sin_theta wo) by apply sqrt_pos. assert (Si : 0 <= sin_theta wi) by apply sqrt_pos.
  assert (Co : 0 < abs_cos_theta wo) by now apply Rabs_pos_lt.
  assert (Ci : 0 < abs_cos_theta wi) by now apply Rabs_pos_lt.
  match goal with |- context [if Rltb EPS _ && _ then ?x else 0] => 
    assert (M : 0 <= if Rltb EPS (sin_theta wi) && Rltb EPS (sin_theta wo) then x else 0)
      by (destruct (Rltb EPS (sin_theta wi) && Rltb EPS (sin_theta wo)); [apply pmax_ge_l|lra]);
    set (mc := if Rltb EPS (sin_theta wi) && Rltb EPS (sin_theta wo) then x else 0) in * end.
  pose proof PI_RGT_0 as P.
  assert (V : spec_ge0 (vscale (1 / PI) r)) by (apply scale_ge0; [apply div_nonneg; lra|exact R0]).
  destruct (Rltb (abs_cos_theta wo) (abs_cos_theta wi)); apply scale_ge0; try exact V;
    apply Rplus_le_le_0_compat; try assumption; repeat apply Rmult_le_pos; try assumption; try (left; now apply Rinv_0_lt_compat).
Qed.
Lemma fr_diel_nonneg a b c d : 0 <= fr_diel a b c d.
Proof. unfold fr_diel. cbv zeta. apply Rmult_le_pos; [lra|]. apply Rplus_le_le_0_compat; apply Rle_0_sqr. Qed.
Lemma fresnel_ge0 f c : fresnel_ok f -> spec_ge0 (fresnel_call f c).
Proof.
  destruct f as [eta k|ei et|]; cbn [fresnel_ok fresnel_call]; intros H.
  - destruct H as (A & B & C). unfold fr_cond. sg. 
    repeat split; apply fr_cond1_range; auto using Rabs_pos.
  - assert (0 <= fr_diel_call ei et c).
    { unfold fr_diel_call. destruct (Rltb c 0); cbv zeta; destruct (Rleb 1 _); try lra; apply fr_diel_nonneg. }
    sg. auto.
  - sg. repeat split; lra.
Qed.
Lemma D_nonneg d wh : dist_ok d -> 0 <= mdist_D d wh.
Proof.
  pose proof PI_RGT_0 as P. assert (0 <= 1 / (2 * PI)) by (apply div_nonneg; lra).
  destruct d as [e|ex ey]; cbn [dist_ok mdist_D]; intros D.
  - apply Rmult_le_pos; [apply Rmult_le_pos; lra|apply np_power_nonneg].
  - destruct (Reqb _ 0); [lra|]. apply Rmult_le_pos; [apply Rmult_le_pos; [apply sqrt_pos|lra]|apply np_power_nonneg].
Qed.
Lemma half_pos wo wi : unit wo -> unit wi -> 0 < vz wo * vz wi -> 0 < vdot wo (normalize (vadd wi wo)).
Proof.
  intros A B Z0. destruct (normalize_scale (vadd wi wo)) as (k & K & ->).
  assert (Q : 0 < vdot wo (vadd wi wo)).
  { destruct wo as [a b c], wi as [d e f]. vc.
    assert (- (1) < a * d + b * e + c * f); [|nra].
    (* 1 + wo.wi > (1/2)(|wo+wi|^2) with positive z part *)
    assert (X : 2 * (1 + (a*d+b*e+c*f)) = (a+d)*(a+d) + (b+e)*(b+e) + (c+f)*(c+f)) by nra.
    assert (0 < (c + f) * (c + f)).
    { replace ((c+f)*(c+f)) with ((c-f)*(c-f) + 4*(c*f)) by ring. pose proof (Rle_0_sqr (c-f)) as Q0. unfold Rsqr in Q0. lra. }
    pose proof (Rle_0_sqr (a+d)) as Q1. pose proof (Rle_0_sqr (b+e)) as Q2. unfold Rsqr in *. lra. }
  replace (vdot wo (vscale k (vadd wi wo))) with (k * vdot wo (vadd wi wo)) by (vc; ring).
  now apply Rmult_lt_0_compat.
Qed.
Lemma G_range wo wi wh : vdot wo wh <> 0 -> 0 <= mf_G wo wi wh <= 1.
Proof.
  intros N. unfold mf_G. split; [|apply pmin_le_l].
  assert (P : 0 < abs_dot wo wh) by now apply Rabs_pos_lt.
  assert (Q : forall w, 0 <= 2 * abs_cos_theta wh * abs_cos_theta w / abs_dot wo wh).
  { intros w. apply div_nonneg; [|exact P]. apply Rmult_le_pos; [|apply Rabs_pos]. apply Rmult_le_pos; [lra|apply Rabs_pos]. }
  unfold pmin. destruct (Rltb _ 1); [|lra]. destruct (Rltb _ _); apply Q.
Qed.
Lemma unit_dot_le a b : unit a -> unit b -> vdot a b <= 1.
Proof.
  intros A B. destruct a as [a1 a2 a3], b as [b1 b2 b3]. vc.
  assert (0 <= (a1-b1)*(a1-b1) + (a2-b2)*(a2-b2) + (a3-b3)*(a3-b3))
    by (repeat apply Rplus_le_le_0_compat; apply Rle_0_sqr). nra.
Qed.
Lemma unit_z w : unit w -> abs_cos_theta w <= 1.
Proof.
  intros U. unfold abs_cos_theta, unit in *. apply Rabs_le. split; nra.
Qed.
Lemma pow5_unit x : 0 <= x <= 1 -> 0 <= x ^ 5 <= 1.
Proof. intros H. split; [apply pow_le; lra|]. replace 1 with (1 ^ 5) by ring. apply pow_incr; lra. Qed.
Lemma blend_ge0 rd rs d wo wi : spec_ge0 rd -> spec_ge0 rs -> spec_le rs (mkV 1 1 1) -> dist_ok d ->
  unit wo -> unit wi -> 0 < vz wo * vz wi -> spec_ge0 (fresnel_blend_f rd rs d wo wi).
Proof.
  intros H1 H2 H3 D A B Z0. pose proof PI_RGT_0 as P. unfold fresnel_blend_f. cbv zeta.
  assert (HC : spec_ge0 (vsub (spec 1) rs)) by (destruct H3 as (X & Y & W); sg; repeat split; lra).
  assert (Zo : vz wo <> 0) by (intros E0; rewrite E0 in Z0; lra).
  assert (Zi : vz wi <> 0) by (intros E0; rewrite E0 in Z0; lra).
  apply add_ge0.
  - pose proof (unit_z wo A) as U1. pose proof (unit_z wi B) as U2. pose proof (abs_cos_nonneg wo). pose proof (abs_cos_nonneg wi).
    apply scale_ge0; [pose proof (pow5_unit (1 - 1/2 * abs_cos_theta wo) ltac:(lra)); lra|].
    apply scale_ge0; [pose proof (pow5_unit (1 - 1/2 * abs_cos_theta wi) ltac:(lra)); lra|].
    apply mul_ge0; [|exact HC]. apply scale_ge0; [apply div_nonneg; lra|exact H1].
  - set (wh := normalize (vadd wi wo)).
    assert (HP : 0 < vdot wi wh) by (unfold wh; rewrite <- half_dot by assumption; now apply half_pos).
    assert (UW : unit wh).
    { apply normalize_unit. intros E0. unfold wh in HP. rewrite E0, normalize_zero in HP. vc. lra. }
    apply scale_ge0.
    + apply div_nonneg; [now apply D_nonneg|]. apply Rmult_lt_0_compat.
      * apply Rmult_lt_0_compat; [lra|]. apply Rabs_pos_lt. lra.
      * apply Rlt_le_trans with (abs_cos_theta wi); [now apply Rabs_pos_lt|apply pmax_ge_l].
    + unfold schlick. apply add_ge0; [exact H2|]. apply scale_ge0; [|exact HC].
      apply pow_le. pose proof (unit_dot_le wi wh B UW). lra.
Qed.
Lemma micro_ge0 r fr d wo wi : spec_ge0 r -> fresnel_ok fr -> dist_ok d -> unit wo -> unit wi ->
  0 < vz wo * vz wi -> spec_ge0 (microfacet_f r fr d wo wi).
Proof.
  intros R0 F D A B Z0. unfold microfacet_f. cbv zeta. destruct (Reqb _ 0 || Reqb _ 0); [sg; repeat split; lra|].
  apply sdiv_ge0; [|unfold cos_theta; lra]. apply mul_ge0; [|now apply fresnel_ge0].
  apply scale_ge0; [|apply scale_ge0; [now apply D_nonneg|exact R0]].
  apply G_range. pose proof (half_pos wo wi A B Z0). lra.
Qed.
Lemma get1_in {A} (l : list A) i v : get1 l i = Ok v -> In v l.
Proof.
  unfold get1. destruct (np_index (length l) i) as [k|]; cbn [bind]; [|discriminate].
  destruct (nth_error l k) eqn:Q; [|discriminate]. intros H. assert (a = v) by congruence. subst. now apply nth_error_In in Q.
Qed.
Lemma f_ge0 b : params_ok b -> forall wo wi f, unit wo -> unit wi -> vz wo <> 0 -> vz wi <> 0 -> lobe_side b wo wi ->
  bdf_f b wo wi = Ok f -> spec_ge0 f.
Proof.
  induction b; cbn [params_ok bdf_f]; intros H wo wi f0 UO UI Zo Zi S E0; unfold lobe_side, reflective, transmissive in S.
  - assert (f0 = vscale (1 / PI) r) by congruence. subst. apply scale_ge0; [apply div_nonneg; [lra|apply PI_RGT_0]|exact H].
  - assert (X : f0 = oren_nayar_f r A B wo wi) by congruence. destruct H as (H & sig & r' & Q).
    destruct (oren_AB r' A B sig Q). rewrite X. apply oren_ge0; auto; lra.
  - assert (X : f0 = microfacet_f r fr d wo wi) by congruence. rewrite X. destruct H as (H1 & H2 & H3).
    apply micro_ge0; auto. now apply S.
  - assert (X : f0 = fresnel_blend_f rd rs d wo wi) by congruence. rewrite X. destruct H as (H1 & H2 & H3 & H4).
    apply blend_ge0; auto. now apply S.
  - destruct H as [_ H]. unfold rehalf_f in E0. destruct (rehalf_index nth ntd npd wo wi) as [[i j] k].
    destruct (get1 data i) as [m|] eqn:Q1; cbn [bind] in E0; [|discriminate].
    destruct (get1 m j) as [row|] eqn:Q2; cbn [bind] in E0; [|discriminate].
    apply get1_in in Q1, Q2, E0. rewrite Forall_forall in H. specialize (H _ Q1). rewrite Forall_forall in H.
    specialize (H _ Q2). rewrite Forall_forall in H. now apply H.
  - assert (f0 = spec 0) by congruence. subst. sg. repeat split; lra.
  - assert (f0 = spec 0) by congruence. subst. sg. repeat split; lra.
  - assert (Zs : vz (switch wi) <> 0) by (unfold switch; cbn; lra).
    apply (IHb H wo (switch wi) f0); auto using switch_unit.
    unfold lobe_side, reflective, transmissive. destruct S as [S1 S2].
    change (bdf_type (BRDF2BTDF b)) with (Z.lxor (bdf_type b) (Z.lor REFLECTION TRANSMISSION)) in *.
    rewrite Z.lxor_spec in S1, S2.
    change (Z.testbit (Z.lor REFLECTION TRANSMISSION) 0) with true in *.
    change (Z.testbit (Z.lor REFLECTION TRANSMISSION) 1) with true in *.
    pose proof (bdf_type_side b) as BS. cbn [switch vz].
    destruct (Z.testbit (bdf_type b) 0), (Z.testbit (bdf_type b) 1); cbn in *; try discriminate; split; intros; try discriminate.
    + specialize (S2 eq_refl). lra.
    + specialize (S1 eq_refl). lra.
  - discriminate.
Qed.
(** outside the lobe's side the microfacet value can be negative *)
Lemma micro_negative : exists r fr d wo wi f, params_ok (Microfacet r fr d) /\ unit wo /\ unit wi /\
  bdf_f (Microfacet r fr d) wo wi = Ok f /\ vx f < 0.
Proof.
  exists (spec 1), FrFull, (Blinn 0), (mkV 0 0 1), (mkV (4/5) 0 (-3/5)). eexists.
  split; [cbn; sg; repeat split; lra|]. split; [vc; lra|]. split; [vc; lra|].
  cbn [bdf_f]. split; [reflexivity|]. unfold microfacet_f, cos_theta. cbn [vz].
  replace (Reqb (-3/5) 0) with false by (symmetry; apply Reqb_false; lra).
  replace (Reqb 1 0) with false by (symmetry; apply Reqb_false; lra). cbn [orb].
  set (wo := mkV 0 0 1). set (wi := mkV (4/5) 0 (-3/5)).
  assert (VA : vadd wi wo = mkV (4/5) 0 (2/5)) by (unfold wi, wo; apply V3_eq; vc; lra).
  assert (L : 0 < vlength (mkV (4/5) 0 (2/5))).
  { apply vlength_pos. unfold vzero. intros Q. injection Q. lra. }
  rewrite VA. unfold normalize. replace (Reqb (vlength (mkV (4/5) 0 (2/5))) 0) with false by (symmetry; apply Reqb_false; lra).
  cbn [vx vy vz]. set (l := vlength (mkV (4/5) 0 (2/5))) in *. clearbody l.
  assert (I0 : 0 < / l) by now apply Rinv_0_lt_compat. 
  set (wh := mkV (4/5/l) (0/l) (2/5/l)).
  assert (G : mf_G wo wi wh = 1).
  { unfold mf_G, abs_dot, abs_cos_theta, wo, wi, wh. vc. cbn [vx vy vz].
    replace (0 * (4/5/l) + 0 * (0/l) + 1 * (2/5/l)) with (2/5/l) by ring.
    rewrite (Rabs_pos_eq (2/5/l)) by (unfold Rdiv; nra). rewrite Rabs_R1.
    replace (Rabs (-3/5)) with (3/5) by (unfold Rabs; destruct (Rcase_abs (-3/5)); lra).
    replace (2 * (2/5/l) * 1 / (2/5/l)) with 2 by (field; lra).
    replace (2 * (2/5/l) * (3/5) / (2/5/l)) with (6/5) by (field; lra).
    unfold pmin. replace (Rltb (6/5) 2) with true by (symmetry; apply Rltb_true; lra).
    replace (Rltb (6/5) 1) with false by (symmetry; apply Rltb_false; lra). reflexivity. }
  rewrite G. unfold mdist_D, fresnel_call. sg.
  assert (PW : np_power (abs_cos_theta wh) 0 = 1).
  { unfold np_power. destruct (Reqb _ 0) eqn:C.
    - now replace (Reqb 0 0) with true by (symmetry; apply Reqb_true; reflexivity).
    - unfold Rpower. rewrite Rmult_0_l. apply exp_0. }
  rewrite PW. pose proof PI_RGT_0 as P.
  replace (1 * ((0 + 2) * (1 / (2 * PI)) * 1 * 1) * 1 / (4 * (-3 / 5) * 1)) with (- (5/12) * / PI) by (field; lra).
  assert (0 < / PI) by now apply Rinv_0_lt_compat. nra.
Qed.
