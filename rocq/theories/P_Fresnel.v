From Coq Require Import Reals Lra Lia List ZArith Bool Psatz.
From Verif Require Import Base M_Geometry S_Geometry P_Geometry M_Transform M_MonteCarlo S_MonteCarlo P_MonteCarlo
  M_Film M_Shapes P_Normals M_Reflection S_Reflection P_Reflection P_Reciprocity.
Import ListNotations.
Open Scope R_scope.

Lemma frac_unit a b : 0 <= a <= b -> 0 < b -> 0 <= a / b <= 1.
Proof.
  intros H B. split; [apply Rmult_le_pos; [lra|left; now apply Rinv_0_lt_compat]|].
  apply (Rmult_le_reg_r b); [exact B|]. unfold Rdiv. rewrite Rmult_assoc, Rinv_l by lra. lra.
Qed.
Lemma fr_cond1_range c eta k : 0 <= c -> 0 < eta -> 0 <= fr_cond1 c eta k <= 1.
Proof.
  intros Hc He. unfold fr_cond1. cbv zeta.
  assert (X0 : 0 <= eta * c) by (apply Rmult_le_pos; lra).
  assert (X1 : 0 < eta * eta) by (apply Rmult_lt_0_compat; lra).
  assert (X2 : 0 <= k * k) by nra. assert (X3 : 0 <= c * c) by nra.
  assert (X4 : 0 <= (eta*eta+k*k)*(c*c)) by (apply Rmult_le_pos; lra).
  assert (P : 0 <= ((eta*eta+k*k)*c*c - 2*eta*c + 1) / ((eta*eta+k*k)*c*c + 2*eta*c + 1) <= 1).
  { apply frac_unit; [|lra]. split; [|lra].
    replace ((eta*eta+k*k)*c*c - 2*eta*c + 1) with ((eta*c-1)*(eta*c-1) + (k*c)*(k*c)) by ring.
    apply Rplus_le_le_0_compat; apply Rle_0_sqr. }
  assert (Q : 0 <= (eta*eta+k*k - 2*eta*c + c*c) / (eta*eta+k*k + 2*eta*c + c*c) <= 1).
  { apply frac_unit; [|lra]. split; [|lra].
    replace (eta*eta+k*k - 2*eta*c + c*c) with ((eta-c)*(eta-c) + k*k) by ring. 
    apply Rplus_le_le_0_compat; apply Rle_0_sqr. }
  lra.
Qed.
Lemma ratio_sq a b : Rabs a <= b -> 0 < b -> 0 <= (a / b) * (a / b) <= 1.
Proof.
  intros H B. split; [nra|].
  assert (A : -1 <= a / b <= 1).
  { apply Rabs_le_inv in H || (assert (-b <= a <= b) by (split; [pose proof (Rle_abs (-a)) as Q; rewrite Rabs_Ropp in Q; lra|pose proof (Rle_abs a); lra])).
    split; apply (Rmult_le_reg_r b); try exact B; unfold Rdiv; rewrite Rmult_assoc, Rinv_l by lra; lra. }
  nra.
Qed.
Lemma fr_diel_range ci ct ei et : 0 <= ci -> 0 <= ct -> 0 < ci + ct -> 0 < ei -> 0 < et ->
  (ei - et) * ct <= 2 * et * ci -> 0 <= fr_diel ci ct ei et <= 1.
Proof.
  intros H1 H2 H3 H4 H5 H6. unfold fr_diel. cbv zeta.
  assert (P : 0 <= ((et*ci - ei*ct)/(et*ci+et*ct)) * ((et*ci - ei*ct)/(et*ci+et*ct)) <= 1).
  { apply ratio_sq; [|nra]. apply Rabs_le. split; [|nra]. 
    replace (-(et*ci+et*ct)) with (et*ci - ei*ct - (2*et*ci - (ei-et)*ct)) by ring. lra. }
  assert (Q : 0 <= ((ei*ci - et*ct)/(ei*ci+et*ct)) * ((ei*ci - et*ct)/(ei*ci+et*ct)) <= 1).
  { destruct (Rle_lt_or_eq_dec 0 ci H1) as [L|L].
    - apply ratio_sq; [apply Rabs_le; split; nra|nra].
    - apply ratio_sq; [apply Rabs_le; split; nra|nra]. }
  lra.
Qed.
Lemma sin_sq_clip c : -1 <= c <= 1 -> pmax 0 (1 - c * c) = 1 - c * c.
Proof. intros. unfold pmax. destruct (Rltb 0 (1 - c*c)) eqn:C; Rb; nra. Qed.
Lemma fr_diel_side ei et ci : 0 < ei -> 0 < et -> ei <= 3 * et -> -1 <= ci <= 1 -> 
  let st := ei / et * sqrt (pmax 0 (1 - ci * ci)) in
  st < 1 -> 0 <= fr_diel (Rabs ci) (sqrt (pmax 0 (1 - st * st))) ei et <= 1.
Proof.
  intros Hi Ht H3 Hc st Hs.
  assert (S0 : 0 <= st). { apply Rmult_le_pos; [left; apply Rdiv_lt_0_compat; lra|apply sqrt_pos]. }
  set (s := sqrt (pmax 0 (1 - ci * ci))) in *.
  assert (Es : s * s = 1 - ci * ci) by (unfold s; rewrite sqrt_sqrt by apply pmax_ge_l; now apply sin_sq_clip).
  assert (s0 : 0 <= s) by apply sqrt_pos.
  rewrite (sin_sq_clip st) by nra.
  set (ct := sqrt (1 - st * st)).
  assert (Ec : ct * ct = 1 - st * st) by (apply sqrt_sqrt; nra).
  assert (C0 : 0 < ct) by (apply sqrt_lt_R0; nra).
  assert (Est : et * st = ei * s) by (unfold st; field; lra).
  assert (Ea : Rabs ci * Rabs ci = ci * ci) by (rewrite <- Rabs_mult; apply Rabs_pos_eq; nra).
  pose proof (Rabs_pos ci) as A0.
  apply fr_diel_range; try lra.
  destruct (Rle_dec ei et) as [L|L]; [nra|].
  (* ei > et: the transmitted cosine does not exceed the incident one *)
  assert (s <= st). { apply (Rmult_le_reg_l et); [lra|]. rewrite Est. apply Rmult_le_compat_r; lra. }
  assert (ct * ct <= Rabs ci * Rabs ci) by (rewrite Ea, Ec; nra).
  assert (ct <= Rabs ci). { apply Rsqr_incr_0; unfold Rsqr; lra. }
  apply Rle_trans with (2 * et * ct); [apply Rmult_le_compat_r; lra|].
  apply Rmult_le_compat_l; lra.
Qed.
Lemma fr_diel_call_range ei et c : 0 < ei -> 0 < et -> ei <= 3 * et -> et <= 3 * ei -> 
  0 <= fr_diel_call ei et c <= 1.
Proof.
  intros H1 H2 H3 H4. unfold fr_diel_call. pose proof (clip_range c (-1) 1 ltac:(lra)) as R.
  destruct (Rltb c 0); cbv zeta.
  - destruct (Rleb 1 _) eqn:C; [lra|]. Rb. now apply fr_diel_side.
  - destruct (Rleb 1 _) eqn:C; [lra|]. Rb. now apply fr_diel_side.
Qed.
(** entering a denser medium the bound needs no restriction *)
Lemma fr_diel_dense ei et ci : 0 < ei -> 0 < et -> ei <= et -> -1 <= ci <= 1 -> 
  let st := ei / et * sqrt (pmax 0 (1 - ci * ci)) in
  st < 1 -> 0 <= fr_diel (Rabs ci) (sqrt (pmax 0 (1 - st * st))) ei et <= 1.
Proof. intros. apply fr_diel_side; auto; lra. Qed.
Lemma fr_diel_call_dense ei et c : 0 < ei -> 0 < et -> (if Rltb c 0 then et <= ei else ei <= et) ->
  0 <= fr_diel_call ei et c <= 1.
Proof.
  intros H1 H2 H3. unfold fr_diel_call. pose proof (clip_range c (-1) 1 ltac:(lra)) as R.
  destruct (Rltb c 0); cbv zeta.
  - destruct (Rleb 1 _) eqn:C; [lra|]. Rb. apply fr_diel_side; auto; lra.
  - destruct (Rleb 1 _) eqn:C; [lra|]. Rb. apply fr_diel_side; auto; lra.
Qed.
(** total internal reflection *)
Lemma fr_diel_tir ei et c : 0 < ei -> 0 < et -> -1 <= c <= 1 ->
  let k := if Rltb c 0 then et / ei else ei / et in 1 <= k * sqrt (1 - c * c) -> fr_diel_call ei et c = 1.
Proof.
  intros H1 H2 Hc k T. unfold fr_diel_call. rewrite (clip_id c) by lra. rewrite (sin_sq_clip c Hc).
  unfold k in T. destruct (Rltb c 0); cbv zeta.
  - replace (Rleb 1 _) with true; [reflexivity|]. symmetry. apply Rleb_true. exact T.
  - replace (Rleb 1 _) with true; [reflexivity|]. symmetry. apply Rleb_true. exact T.
Qed.
(** the exact value returned at normal incidence *)
Lemma fr_diel_normal ei et : 0 < ei -> 0 < et ->
  fr_diel_call ei et 1 = (((et - ei) / (2 * et)) * ((et - ei) / (2 * et)) + ((et - ei) / (et + ei)) * ((et - ei) / (et + ei))) / 2.
Proof.
  intros H1 H2. unfold fr_diel_call. rewrite (clip_id 1) by lra.
  replace (Rltb 1 0) with false by (symmetry; apply Rltb_false; lra). cbv zeta.
  rewrite (sin_sq_clip 1) by lra. replace (1 - 1 * 1) with 0 by ring. rewrite sqrt_0, Rmult_0_r.
  replace (Rleb 1 0) with false by (symmetry; apply Rleb_false; lra).
  replace (pmax 0 (1 - 0 * 0)) with 1 by (unfold pmax; destruct (Rltb 0 (1 - 0*0)) eqn:C; Rb; lra).
  rewrite sqrt_1, Rabs_R1. unfold fr_diel. field. lra.
Qed.
Lemma fr_diel_wrong ei et : 0 < ei -> 0 < et -> ei <> et ->
  fr_diel_call ei et 1 <> fresnel_dielectric 1 1 ei et.
Proof.
  intros H1 H2 N. rewrite fr_diel_normal by assumption. unfold fresnel_dielectric, Rsqr.
  rewrite !Rmult_1_r. intros Q.
  assert (P : ((et - ei) / (2 * et)) * ((et - ei) / (2 * et)) = ((et - ei) / (et + ei)) * ((et - ei) / (et + ei))).
  { replace ((ei - et) / (ei + et)) with (- ((et - ei) / (et + ei))) in Q by (field; lra). nra. }
  assert (Z0 : (et - ei) * (et - ei) * ((et + ei) * (et + ei) - 4 * et * et) = 0).
  { assert (X : ((et - ei) / (2 * et) * ((et - ei) / (2 * et))) * (4 * et * et * ((et+ei)*(et+ei))) =
      ((et - ei) / (et + ei) * ((et - ei) / (et + ei))) * (4 * et * et * ((et+ei)*(et+ei)))) by (now rewrite P).
    replace (((et - ei) / (2 * et) * ((et - ei) / (2 * et))) * (4 * et * et * ((et+ei)*(et+ei)))) with
      ((et-ei)*(et-ei)*((et+ei)*(et+ei))) in X by (field; lra).
    replace (((et - ei) / (et + ei) * ((et - ei) / (et + ei))) * (4 * et * et * ((et+ei)*(et+ei)))) with
      ((et-ei)*(et-ei)*(4*et*et)) in X by (field; lra). lra. }
  replace ((et + ei) * (et + ei) - 4 * et * et) with ((ei - et) * (3 * et + ei)) in Z0 by ring.
  apply Rmult_integral in Z0. destruct Z0 as [Z0|Z0]; apply Rmult_integral in Z0; destruct Z0; lra.
Qed.
Lemma fr_diel_exceeds : 1 < fr_diel_call 10 1 1.
Proof. rewrite fr_diel_normal by lra. lra. Qed.

(** ** Specular lobes *)
Lemma sin_sq_unit w : unit w -> sin_theta_sq w = vx w * vx w + vy w * vy w.
Proof.
  intros U. unfold sin_theta_sq, unit in *. unfold pmax. destruct (Rltb 0 (1 - vz w * vz w)) eqn:C; Rb; nra.
Qed.
Lemma transmit_main t ei et wo u1 u2 : 0 < ei -> 0 < et -> unit wo ->
  let k := used_ratio ei et wo in
  (k * k * (vx wo * vx wo + vy wo * vy wo) < 1 ->
    exists wi f, bdf_sample (SpecularTransmission t ei et) wo u1 u2 = Ok (1, Some (wi, f)) /\
      unit wi /\ (vz wo <> 0 -> vz wi * vz wo < 0) /\ refracts k wo wi) /\
  (1 <= k * k * (vx wo * vx wo + vy wo * vy wo) ->
    bdf_sample (SpecularTransmission t ei et) wo u1 u2 = Ok (0, None)).
Proof.
  intros H1 H2 U k. cbn [bdf_sample]. unfold transmit_dir, cos_theta. rewrite (sin_sq_unit wo U).
  assert (K : k = (let '(a, b) := if Rltb 0 (vz wo) then (et, ei) else (ei, et) in a / b)).
  { unfold k, used_ratio. now destruct (Rltb 0 (vz wo)). }
  destruct (if Rltb 0 (vz wo) then (et, ei) else (ei, et)) as [a b] eqn:AB. rewrite <- K. cbv zeta.
  split; intros H.
  - replace (Rleb 1 _) with false by (symmetry; apply Rleb_false; exact H).
    set (ss := k * k * (vx wo * vx wo + vy wo * vy wo)) in *.
    assert (S0 : 0 <= ss) by (unfold ss; nra).
    assert (P : pmax 0 (1 - ss) = 1 - ss) by (unfold pmax; destruct (Rltb 0 (1 - ss)) eqn:C; Rb; lra).
    rewrite P. set (ct := sqrt (1 - ss)).
    assert (Ec : ct * ct = 1 - ss) by (apply sqrt_sqrt; lra).
    assert (C0 : 0 < ct) by (apply sqrt_lt_R0; lra).
    eexists; eexists. split; [reflexivity|]. split; [|split].
    + unfold unit; cbn [vx vy vz]. destruct (Rltb 0 (vz wo)).
      * replace (- ct * - ct) with (ct * ct) by ring. rewrite Ec. unfold ss. ring.
      * rewrite Ec. unfold ss. ring.
    + cbn [vx vy vz]. intros N. destruct (Rltb 0 (vz wo)) eqn:C; Rb; nra.
    + unfold refracts; cbn [vx vy vz]. split; ring.
  - replace (Rleb 1 _) with true by (symmetry; apply Rleb_true; exact H). reflexivity.
Qed.
(** index on wo's side over index on the other side *)
Lemma ratio_swap ei et wo : 0 < ei -> 0 < et -> vz wo <> 0 -> ei <> et -> used_ratio ei et wo <> snell_ratio ei et wo.
Proof.
  intros H1 H2 _ N. unfold used_ratio, snell_ratio.
  assert (et / ei <> ei / et).
  { intros Q. assert (X : et / ei * (ei * et) = ei / et * (ei * et)) by now rewrite Q.
    replace (et / ei * (ei * et)) with (et * et) in X by (field; lra).
    replace (ei / et * (ei * et)) with (ei * ei) in X by (field; lra).
    assert ((et - ei) * (et + ei) = 0) by lra. apply Rmult_integral in H; destruct H; lra. }
  destruct (Rltb 0 (vz wo)); congruence.
Qed.
Lemma transmit_wrong t ei et wo u1 u2 : 0 < ei -> 0 < et -> ei <> et -> unit wo -> vz wo <> 0 ->
  ~ (vx wo = 0 /\ vy wo = 0) -> forall wi f,
  bdf_sample (SpecularTransmission t ei et) wo u1 u2 = Ok (1, Some (wi, f)) ->
  ~ refracts (snell_ratio ei et wo) wo wi.
Proof.
  intros H1 H2 N U Z0 NN wi f S [R1 R2].
  destruct (transmit_main t ei et wo u1 u2 H1 H2 U) as [A B]. cbv zeta in A, B.
  destruct (Rlt_dec (used_ratio ei et wo * used_ratio ei et wo * (vx wo * vx wo + vy wo * vy wo)) 1) as [L|L].
  - destruct (A L) as (wi' & f' & S' & _ & _ & [Q1 Q2]). rewrite S in S'.
    assert (wi = wi') by congruence. subst wi'.
    pose proof (ratio_swap ei et wo H1 H2 Z0 N) as NQ. apply NN.
    assert (X1 : (used_ratio ei et wo - snell_ratio ei et wo) * vx wo = 0) by lra.
    assert (X2 : (used_ratio ei et wo - snell_ratio ei et wo) * vy wo = 0) by lra.
    apply Rmult_integral in X1. apply Rmult_integral in X2. destruct X1, X2; try lra; auto.
  - rewrite B in S by lra. discriminate.
Qed.
Lemma mirror_main r fr wo u1 u2 : unit wo ->
  exists wi f, bdf_sample (SpecularReflection r fr) wo u1 u2 = Ok (1, Some (wi, f)) /\ unit wi /\
    wi = mkV (- vx wo) (- vy wo) (vz wo) /\ vadd wo wi = vscale (2 * vz wo) (mkV 0 0 1) /\
    f = sdiv (smul (fresnel_call fr (vz wo)) r) (Rabs (vz wo)).
Proof.
  intros U. eexists; eexists. split; [cbn [bdf_sample]; reflexivity|].
  unfold mirror_dir. split; [vc; lra|]. split; [reflexivity|]. split; [apply V3_eq; vc; ring|reflexivity].
Qed.
