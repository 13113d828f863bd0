(** Resampling weights. *)
From Coq Require Import Reals List ZArith Bool Lra Lia.
From Verif Require Import Base M_Utility M_Film M_MipMap S_Texture P_Film P_Utility P_MipMap1.
Import ListNotations.
Open Scope R_scope.

Lemma PI_3 : 3 < PI.
Proof. pose proof PI_ineq 0. pose proof PI_ineq 1. unfold tg_alt, PI_tg in *. cbn in *. pose proof PI_4. pose proof PI2_3_2. unfold PI2 in *. lra. Qed.
Lemma lz x : EPS <= x <= 1 -> lanczos2 x = sin (2 * (PI * x)) * sin (PI * x) / (2 * PI * PI * (x * x)).
Proof.
  intros [H1 H2]. assert (P : 0 < EPS) by (unfold EPS; lra). pose proof PI_RGT_0. unfold lanczos2. cbv zeta. rewrite Rabs_pos_eq by lra.
  destruct (Rltb x EPS) eqn:Q; Rb; [lra|]. destruct (Rltb 1 x) eqn:Q1; Rb; [lra|]. unfold np_sinc.
  destruct (Reqb (x * 2) 0) eqn:Q2; Rb; [lra|]. destruct (Reqb x 0) eqn:Q3; Rb; [lra|].
  replace (PI * (x * 2)) with (2 * (PI * x)) by ring. field. lra.
Qed.
Lemma lz_near x : 0 <= x < EPS -> lanczos2 x = 1.
Proof. intros [H1 H2]. unfold lanczos2. cbv zeta. rewrite Rabs_pos_eq by lra. destruct (Rltb x EPS) eqn:Q; Rb; [reflexivity|lra]. Qed.
Lemma lz_neg x : lanczos2 (- x) = lanczos2 x.
Proof. unfold lanczos2. now rewrite Rabs_Ropp. Qed.

Section Sum.
Variable a : R.
Hypothesis A : 0 < a <= / 2.
Let s := sin (2 * (PI * a)).
Let S := sin (PI * a).
Let C := cos (PI * a).
Lemma bounds : 0 <= s <= 1 /\ 0 < S <= 1 /\ 0 <= C <= 1.
Proof.
  pose proof PI_RGT_0. assert (0 < PI * a) by (apply Rmult_lt_0_compat; lra). assert (PI * a <= PI / 2) by nra.
  repeat split; try apply COS_bound; try apply SIN_bound.
  - apply sin_ge_0; lra.
  - apply sin_gt_0; lra.
  - apply cos_ge_0; lra.
Qed.
Lemma e0 : sin (2 * (PI * (1 - a))) * sin (PI * (1 - a)) = - (s * S).
Proof.
  replace (2 * (PI * (1 - a))) with (- (2 * (PI * a)) + 2 * PI) by ring. rewrite sin_plus, sin_2PI, cos_2PI, sin_neg.
  replace (PI * (1 - a)) with (PI - PI * a) by ring. rewrite Rtrigo_facts.sin_pi_minus. unfold s, S. ring.
Qed.
Lemma e1 : sin (2 * (PI * (/ 2 - a))) * sin (PI * (/ 2 - a)) = s * C.
Proof.
  replace (2 * (PI * (/ 2 - a))) with (PI - 2 * (PI * a)) by field. rewrite Rtrigo_facts.sin_pi_minus.
  replace (PI * (/ 2 - a)) with (PI / 2 - PI * a) by field. now rewrite <- cos_shift with (x := PI * a) || rewrite sin_shift.
Qed.
Lemma e3 : sin (2 * (PI * (/ 2 + a))) * sin (PI * (/ 2 + a)) = - (s * C).
Proof.
  replace (2 * (PI * (/ 2 + a))) with (2 * (PI * a) + PI) by field. rewrite neg_sin.
  replace (PI * (/ 2 + a)) with (PI / 2 + PI * a) by field. rewrite <- cos_sin. unfold s, C. ring.
Qed.
Lemma quot_le n d e : 0 <= n -> 0 < d -> d <= e -> n / e <= n / d.
Proof. intros N D E0. apply Rmult_le_compat_l; [exact N|]. apply Rinv_le_contravar; assumption. Qed.
Lemma sum_pos : 0 < lanczos2 (1 - a) + lanczos2 (/ 2 - a) + lanczos2 a + lanczos2 (/ 2 + a).
Proof.
  pose proof bounds as ((s0 & s1) & (S0 & S1) & (C0 & C1)). pose proof PI_3 as P3.
  assert (EP : EPS = / 100000) by reflexivity.
  rewrite (lz (1 - a)) by lra. rewrite (lz (/ 2 + a)) by lra. rewrite e0, e3.
  assert (K : 18 < 2 * PI * PI) by nra. set (k := 2 * PI * PI) in *.
  assert (X0 : - / 2 < - (s * S) / (k * ((1 - a) * (1 - a)))).
  { assert (s * S <= 1) by nra. assert (0 <= s * S) by nra. assert (/ 4 <= (1 - a) * (1 - a)) by nra.
    assert (s * S / (k * ((1 - a) * (1 - a))) <= s * S / (18 * / 4)) by (apply quot_le; nra). unfold Rdiv in *. lra. }
  assert (X3 : - / 2 < - (s * C) / (k * ((/ 2 + a) * (/ 2 + a)))).
  { assert (s * C <= 1) by nra. assert (0 <= s * C) by nra. assert (/ 4 <= (/ 2 + a) * (/ 2 + a)) by nra.
    assert (s * C / (k * ((/ 2 + a) * (/ 2 + a))) <= s * C / (18 * / 4)) by (apply quot_le; nra). unfold Rdiv in *. lra. }
  assert (Y2 : EPS <= a -> 0 <= - (s * S) / (k * ((1 - a) * (1 - a))) + lanczos2 a).
  { intros Ha. rewrite (lz a) by lra. fold s S k. assert (s * S / (k * ((1 - a) * (1 - a))) <= s * S / (k * (a * a))) by (apply quot_le; nra).
    unfold Rdiv in *. lra. }
  assert (Y1 : EPS <= / 2 - a -> 0 <= lanczos2 (/ 2 - a) + - (s * C) / (k * ((/ 2 + a) * (/ 2 + a)))).
  { intros Ha. rewrite (lz (/ 2 - a)) by lra. rewrite e1. fold k. assert (s * C / (k * ((/ 2 + a) * (/ 2 + a))) <= s * C / (k * ((/ 2 - a) * (/ 2 - a)))).
    { apply quot_le; [nra| |apply Rmult_le_compat_l; nra]. apply Rmult_lt_0_compat; [lra|]. apply Rmult_lt_0_compat; lra. }
    unfold Rdiv in *. lra. }
  destruct (Rlt_le_dec a EPS) as [L|L].
  - rewrite (lz_near a) by lra. specialize (Y1 ltac:(lra)). lra.
  - specialize (Y2 L). destruct (Rlt_le_dec (/ 2 - a) EPS) as [L1|L1].
    + rewrite (lz_near (/ 2 - a)) by lra. lra.
    + specialize (Y1 L1). assert (0 < - (s * S) / (k * ((1 - a) * (1 - a))) + lanczos2 a); [|lra].
      rewrite (lz a) by lra. fold s S k.
      assert (s0' : 0 < s) by (apply sin_gt_0; nra).
      assert (s * S / (k * ((1 - a) * (1 - a))) < s * S / (k * (a * a))).
      { apply Rmult_lt_compat_l; [nra|]. apply Rinv_lt_contravar; [|nra]. apply Rmult_lt_0_compat; apply Rmult_lt_0_compat; nra. }
      unfold Rdiv in *. lra.
Qed.
End Sum.

Lemma raw_sum_pos ores nres i : 0 < rs_raw ores nres i 0 + rs_raw ores nres i 1 + rs_raw ores nres i 2 + rs_raw ores nres i 3.
Proof.
  unfold rs_raw, rs_first, ftoi. set (c := rs_center ores nres i). destruct (Zfloor_spec (c - 2 + / 2)) as [F1 F2].
  set (z := IZR (Zfloor (c - 2 + / 2))) in *. set (a := (z + 5 / 2 - c) / 2).
  replace ((z + 0 + / 2 - c) / 2) with (- (1 - a)) by (unfold a; field).
  replace ((z + 1 + / 2 - c) / 2) with (- (/ 2 - a)) by (unfold a; field).
  replace ((z + 2 + / 2 - c) / 2) with a by (unfold a; field).
  replace ((z + 3 + / 2 - c) / 2) with (/ 2 + a) by (unfold a; field).
  rewrite !lz_neg. apply sum_pos. unfold a. lra.
Qed.
Lemma weights_sum ores nres i : rs_weight ores nres i 0 + rs_weight ores nres i 1 + rs_weight ores nres i 2 + rs_weight ores nres i 3 = 1.
Proof. pose proof (raw_sum_pos ores nres i). unfold rs_weight. field. lra. Qed.
