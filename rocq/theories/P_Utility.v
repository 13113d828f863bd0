From Coq Require Import Reals Lra Lia List ZArith Bool Psatz.
From Verif Require Import Base M_Utility.
Import ListNotations.
Open Scope R_scope.

Lemma is_pow_2_pow k : (0 <= k)%Z -> is_pow_2 (2 ^ k) = true.
Proof.
  intros H. unfold is_pow_2. apply Z.eqb_eq. replace (2 ^ k - 1)%Z with (Z.ones k).
  - rewrite Z.land_ones by lia. apply Z_mod_same_full.
  - rewrite Z.ones_equiv. lia.
Qed.
Lemma is_pow_2_only x : (0 < x)%Z -> is_pow_2 x = true -> exists k, (0 <= k)%Z /\ x = (2 ^ k)%Z.
Proof.
  intros H T. unfold is_pow_2 in T. apply Z.eqb_eq in T. exists (Z.log2 x). split; [apply Z.log2_nonneg|].
  destruct (Z.log2_spec x H) as [L U].
  destruct (Z.eq_dec x (2 ^ Z.log2 x)) as [|NE]; [assumption|exfalso].
  assert (B1 : Z.testbit x (Z.log2 x) = true) by (now apply Z.bit_log2).
  assert (L1 : Z.log2 (x - 1) = Z.log2 x).
  { apply Z.log2_unique; [apply Z.log2_nonneg|]. lia. }
  assert (B2 : Z.testbit (x - 1) (Z.log2 x) = true).
  { rewrite <- L1. apply Z.bit_log2. pose proof (Z.log2_nonneg x). assert (0 < 2 ^ Z.log2 x)%Z by (apply Z.pow_pos_nonneg; lia). lia. }
  assert (B3 : Z.testbit (Z.land x (x-1)) (Z.log2 x) = true) by (rewrite Z.land_spec, B1, B2; reflexivity).
  rewrite T, Z.bits_0 in B3. discriminate.
Qed.
Lemma is_pow_2_neg x : (x < 0)%Z -> is_pow_2 x = false.
Proof.
  intros H. unfold is_pow_2. apply Z.eqb_neq. intros T.
  assert (Z.land x (x-1) < 0)%Z by (apply Z.land_neg; lia). lia.
Qed.

Lemma ln2_pos : 0 < ln 2. Proof. rewrite <- ln_1. apply ln_increasing; lra. Qed.
Lemma IZR_pow2 k : (0 <= k)%Z -> IZR (2 ^ k) = exp (IZR k * ln 2).
Proof.
  intros H. rewrite <- (Z2Nat.id k) at 1 by assumption. rewrite <- pow_IZR. rewrite <- Rpower_pow by lra.
  unfold Rpower. f_equal. f_equal. rewrite INR_IZR_INZ, Z2Nat.id by assumption. reflexivity.
Qed.
Lemma log2_nonneg x : (1 <= x)%Z -> 0 <= log2R (IZR x).
Proof.
  intros H. unfold log2R. apply Rmult_le_pos; [|left; apply Rinv_0_lt_compat, ln2_pos].
  apply IZR_le in H. destruct (Rle_lt_or_eq_dec _ _ H) as [L|L].
  - left. rewrite <- ln_1. apply ln_increasing; lra.
  - rewrite <- L, ln_1. lra.
Qed.
Lemma exp_log2 x : 0 < x -> exp (log2R x * ln 2) = x.
Proof. intros H. unfold log2R. replace (ln x / ln 2 * ln 2) with (ln x) by (field; pose proof ln2_pos; lra). now apply exp_ln. Qed.
Lemma exp_le a b : a <= b -> exp a <= exp b.
Proof. intros [H| ->]; [left; now apply exp_increasing|lra]. Qed.
Lemma log2_le_pow x k : (1 <= x)%Z -> (0 <= k)%Z -> ((x <= 2 ^ k)%Z <-> log2R (IZR x) <= IZR k).
Proof.
  intros X K. assert (0 < IZR x) by (apply (IZR_lt 0); lia). pose proof ln2_pos as P. split; intros H0.
  - apply IZR_le in H0. rewrite IZR_pow2 in H0 by assumption. rewrite <- (exp_log2 (IZR x)) in H0 by assumption.
    apply (Rmult_le_reg_r (ln 2)); [exact P|]. destruct (Rle_lt_dec (log2R (IZR x) * ln 2) (IZR k * ln 2)) as [|L]; [assumption|].
    apply exp_increasing in L. lra.
  - apply le_IZR. rewrite IZR_pow2 by assumption. rewrite <- (exp_log2 (IZR x)) by assumption. apply exp_le.
    apply Rmult_le_compat_r; lra.
Qed.
Lemma next_pow_2_main x : (1 <= x)%Z -> exists k, (0 <= k)%Z /\ next_pow_2 x = (2 ^ k)%Z /\ (x <= 2 ^ k)%Z /\
  forall j, (0 <= j)%Z -> (x <= 2 ^ j)%Z -> (2 ^ k <= 2 ^ j)%Z.
Proof.
  intros H. pose proof (log2_nonneg x H) as L. set (k := Zceil (log2R (IZR x))).
  destruct (Zceil_spec (log2R (IZR x))) as [C1 C2]. fold k in C1, C2.
  assert (K : (0 <= k)%Z). { apply le_IZR. lra. }
  exists k. split; [exact K|]. split; [unfold next_pow_2, int_pow2; fold k; now replace (0 <=? k)%Z with true by lia|].
  split; [now apply log2_le_pow|]. intros j J X. apply log2_le_pow in X; auto.
  apply Z.pow_le_mono_r; [lia|]. apply Zceil_le in X. exact X.
Qed.
Lemma np_round_spec x : - (1/2) <= IZR (np_round x) - x <= 1/2.
Proof.
  unfold np_round. destruct (Zfloor_spec x) as [A B]. Rcase; rewrite ?plus_IZR; try lra.
  destruct (Z.even _); rewrite ?plus_IZR; lra.
Qed.
Lemma np_round_nonneg x : 0 <= x -> (0 <= np_round x)%Z.
Proof. intros H. pose proof (np_round_spec x). assert (-1 < IZR (np_round x)) by lra. apply lt_IZR in H1. lia. Qed.
Lemma round_pow_2_main x : (1 <= x)%Z -> exists k, (0 <= k)%Z /\ round_pow_2 x = (2 ^ k)%Z /\
  (x * x <= 2 * (2 ^ k * 2 ^ k) /\ 2 ^ k * 2 ^ k <= 2 * (x * x))%Z.
Proof.
  intros H. pose proof (log2_nonneg x H) as L. set (k := np_round (log2R (IZR x))).
  pose proof (np_round_spec (log2R (IZR x))) as C. fold k in C.
  assert (K : (0 <= k)%Z) by (apply np_round_nonneg, L).
  assert (X : 0 < IZR x) by (apply (IZR_lt 0); lia).
  exists k. split; [exact K|]. split; [unfold round_pow_2, int_pow2; fold k; now replace (0 <=? k)%Z with true by lia|].
  pose proof ln2_pos as P.
  assert (E2 : 2 = exp (ln 2)) by (symmetry; apply exp_ln; lra).
  split; apply le_IZR; rewrite !mult_IZR, !IZR_pow2 by assumption.
  - rewrite <- (exp_log2 (IZR x) X). rewrite E2 at 3. rewrite <- !exp_plus. apply exp_le.
    assert (log2R (IZR x) * ln 2 <= (IZR k + 1/2) * ln 2) by (apply Rmult_le_compat_r; lra). lra.
  - rewrite <- (exp_log2 (IZR x) X). rewrite E2 at 3. rewrite <- !exp_plus. apply exp_le.
    assert (IZR k * ln 2 <= (log2R (IZR x) + 1/2) * ln 2) by (apply Rmult_le_compat_r; lra). lra.
Qed.
Lemma round_pow_2_23 : round_pow_2 23 = 32%Z.
Proof.
  destruct (round_pow_2_main 23 ltac:(lia)) as (k & K & -> & A & B).
  assert (k <= 5)%Z. { destruct (Z_le_gt_dec k 5); auto. assert (2 ^ 6 <= 2 ^ k)%Z by (apply Z.pow_le_mono_r; lia). nia. }
  assert (5 <= k)%Z. { destruct (Z_le_gt_dec 5 k); auto. assert (2 ^ k <= 2 ^ 4)%Z by (apply Z.pow_le_mono_r; lia).
    assert (0 < 2 ^ k)%Z by (apply Z.pow_pos_nonneg; lia). nia. }
  replace k with 5%Z by lia. reflexivity.
Qed.
