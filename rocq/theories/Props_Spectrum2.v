(** C235-C238: creating spectra, luminance and tristimulus values of sampled spectra, powers *)
From Coq Require Import Reals Lra Lia List Bool ZArith.
From Verif Require Import Base M_Geometry M_Film M_Spectrum M_Spectrum2.
Import ListNotations.
Open Scope R_scope.

(** ** C235 *)
Theorem C235_create (c : list R) (z : list Z) (d : nat) : cs_create (ASpec c) = Ok c /\ cs_create (ASeq c) = Ok c /\
  cs_create (AInts z) = Ok (map IZR z) /\ cs_create (AOther d) = Err TypeError /\ cs_create AScalar = Err TypeError.
Proof. repeat split. Qed.
Theorem C235_default : length sampled_black = 30%nat /\ (forall x, In x sampled_black -> x = 0) /\ cs_is_black sampled_black = true.
Proof.
  split; [reflexivity|]. split; [intros x H; apply repeat_spec in H; exact H|].
  unfold cs_is_black, sampled_black. apply forallb_forall. intros x H. apply repeat_spec in H. subst. apply Rltb_true. unfold EPS. lra.
Qed.
Print Assumptions C235_create.
Print Assumptions C235_default.
(** ** C236 *)
Theorem C236_copy_partial (c : list R) : rgb_create (ASpec c) = if (length c =? 3)%nat then Ok (inl c) else Err TypeError.
Proof. reflexivity. Qed.
(** three floats are refused; three ints are taken for a shape, so the result has x*y*z arbitrary numbers *)
Theorem C236_sequence_refuted (x y z : R) (i j k : Z) : rgb_create (ASeq [x; y; z]) = Err TypeError /\
  ((0 <= i)%Z -> (0 <= j)%Z -> (0 <= k)%Z -> rgb_create (AInts [i; j; k]) = Ok (inr [i; j; k])).
Proof.
  split; [reflexivity|]. intros A B C. cbn. replace (i <? 0)%Z with false by lia. replace (j <? 0)%Z with false by lia.
  replace (k <? 0)%Z with false by lia. reflexivity.
Qed.
Print Assumptions C236_copy_partial.
Print Assumptions C236_sequence_refuted.

(** ** C237 *)
Definition sum (l : list R) : R := fold_right Rplus 0 l.
Definition weighted (Y c : list R) : R := sum (map (fun p => fst p * snd p) (combine Y c)).
Lemma k_ne : CIE_Y_INTEGRAL * INR N_SPECTRAL <> 0.
Proof. unfold CIE_Y_INTEGRAL, N_SPECTRAL. cbn [INR]. lra. Qed.
(** the three values are the weighted sums with the matching curves, times 10 nm over the integral of Y *)
Theorem C237_values (X Y Z c : list R) : length X = length c -> length Y = length c -> length Z = length c ->
  let s := 10 / 106.856895 in
  sampled_y (Some (X, Y, Z)) c = Ok (s * weighted Y c) /\
  sampled_to_xyz (Some (X, Y, Z)) c = Ok (mkV (s * weighted X c) (s * weighted Y c) (s * weighted Z c)).
Proof.
  intros HX HY HZ s. unfold sampled_y, sampled_to_xyz, np_dot. rewrite HX, HY, HZ, Nat.eqb_refl. cbn [bind].
  assert (K : forall v, v * (LAMBDA_END - LAMBDA_START) / (CIE_Y_INTEGRAL * INR N_SPECTRAL) = s * v).
  { intros v. unfold s, LAMBDA_END, LAMBDA_START, CIE_Y_INTEGRAL, N_SPECTRAL. replace (INR 30) with 30 by (rewrite INR_IZR_INZ; reflexivity). field; lra. }
  rewrite !K. split; reflexivity.
Qed.
(** other lengths and an uninitialised class raise *)
Theorem C237_refused (X Y Z c : list R) : sampled_y None c = Err AttributeError /\ sampled_to_xyz None c = Err AttributeError /\
  (length Y <> length c -> sampled_y (Some (X, Y, Z)) c = Err ValueError) /\
  (length X <> length c \/ length Y <> length c \/ length Z <> length c -> sampled_to_xyz (Some (X, Y, Z)) c = Err ValueError).
Proof.
  repeat split.
  - intros H. unfold sampled_y, np_dot. apply Nat.eqb_neq in H. now rewrite H.
  - intros H. unfold sampled_to_xyz, np_dot. destruct (Nat.eqb_spec (length X) (length c)); cbn [bind]; [|reflexivity].
    destruct (Nat.eqb_spec (length Y) (length c)); cbn [bind]; [|reflexivity].
    destruct (Nat.eqb_spec (length Z) (length c)); cbn [bind]; [|reflexivity]. exfalso. tauto.
Qed.
Lemma weighted_lin Y a b k : length Y = length a -> length a = length b ->
  weighted Y (cs_add a (cs_scale k b)) = weighted Y a + k * weighted Y b.
Proof.
  unfold weighted, cs_add, cs_scale. revert a b. induction Y as [|y Y IH]; intros [|x a] [|z b] H1 H2; try discriminate; cbn; [lra|].
  injection H1 as H1. injection H2 as H2. specialize (IH a b H1 H2). unfold sum in *. cbn in *. rewrite IH. ring.
Qed.
Theorem C237_linear (X Y Z a b : list R) (k ya yb : R) : length Y = length a -> length a = length b ->
  sampled_y (Some (X, Y, Z)) a = Ok ya -> sampled_y (Some (X, Y, Z)) b = Ok yb ->
  sampled_y (Some (X, Y, Z)) (cs_add a (cs_scale k b)) = Ok (ya + k * yb).
Proof.
  intros HY HA Ea Eb. assert (L : length (cs_add a (cs_scale k b)) = length a).
  { unfold cs_add, cs_scale. rewrite map_length, combine_length, map_length. lia. }
  unfold sampled_y, np_dot in *. rewrite L. rewrite HY in *. rewrite Nat.eqb_refl in *. rewrite HA, Nat.eqb_refl in Eb. cbn [bind] in *.
  injection Ea as <-. injection Eb as <-. f_equal.
  pose proof (weighted_lin Y a b k HY HA) as W. unfold weighted, sum in W. rewrite W.
  set (p := fold_right _ _ (map _ (combine Y a))). set (q := fold_right _ _ (map _ (combine Y b))). replace (INR N_SPECTRAL) with 30 by (unfold N_SPECTRAL; rewrite INR_IZR_INZ; reflexivity). unfold Rdiv. field. unfold CIE_Y_INTEGRAL. lra.
Qed.
(** a constant spectrum has its constant times 10 nm times the sum of the Y curve over the integral; nonnegative spectra have
    nonnegative luminance *)
Theorem C237_constant (X Y Z : list R) (k : R) : length Y = 30%nat ->
  sampled_y (Some (X, Y, Z)) (repeat k 30) = Ok (k * (10 * sum Y / 106.856895)).
Proof.
  intros HY. unfold sampled_y, np_dot. rewrite HY, repeat_length, Nat.eqb_refl. cbn [bind]. f_equal.
  replace (fold_right Rplus 0 (map (fun p => fst p * snd p) (combine Y (repeat k 30)))) with (k * sum Y).
  - unfold LAMBDA_END, LAMBDA_START, CIE_Y_INTEGRAL, N_SPECTRAL. replace (INR 30) with 30 by (rewrite INR_IZR_INZ; reflexivity). field; lra.
  - rewrite <- HY. clear HY. induction Y as [|y Y IH]; cbn; [unfold sum; cbn; ring|]. rewrite <- IH. unfold sum; cbn. ring.
Qed.
Theorem C237_nonneg (X Y Z c : list R) (y : R) : (forall x, In x Y -> 0 <= x) -> (forall x, In x c -> 0 <= x) ->
  sampled_y (Some (X, Y, Z)) c = Ok y -> 0 <= y.
Proof.
  intros HY HC. unfold sampled_y, np_dot. destruct (length Y =? length c)%nat; [|discriminate]. cbn [bind]. intros [= <-].
  assert (P : 0 <= fold_right Rplus 0 (map (fun p => fst p * snd p) (combine Y c))).
  { revert c HC. induction Y as [|a Y IH]; intros [|b c] HC; cbn; try lra.
    specialize (IH (fun x H => HY x (or_intror H)) c (fun x H => HC x (or_intror H))).
    pose proof (HY a (or_introl eq_refl)). pose proof (HC b (or_introl eq_refl)). nra. }
  unfold LAMBDA_END, LAMBDA_START, CIE_Y_INTEGRAL, N_SPECTRAL. replace (INR 30) with 30 by (rewrite INR_IZR_INZ; reflexivity).
  apply Rmult_le_pos; [nra|]. left. apply Rinv_0_lt_compat. lra.
Qed.
(** the RGB value has the same luminance, up to the rounding of the conversion matrices *)
Theorem C237_rgb (X Y Z c : list R) (v rgb : vec) (y : R) : sampled_to_xyz (Some (X, Y, Z)) c = Ok v -> sampled_y (Some (X, Y, Z)) c = Ok y ->
  sampled_to_rgb (Some (X, Y, Z)) c = Ok rgb -> vy v = y /\ Rabs (rgb_y rgb - y) <= 2 / 1000000 * (Rabs (vx v) + Rabs (vy v) + Rabs (vz v)).
Proof.
  intros HV HY HR. unfold sampled_to_rgb in HR. rewrite HV in HR. cbn [bind] in HR. injection HR as <-.
  assert (E1 : vy v = y).
  { unfold sampled_to_xyz in HV. unfold sampled_y in HY. destruct (np_dot X c); [|discriminate]. destruct (np_dot Y c); [|discriminate].
    destruct (np_dot Z c); [|discriminate]. cbn [bind] in *. injection HV as <-. injection HY as <-. reflexivity. }
  split; [exact E1|]. rewrite <- E1. unfold rgb_from_xyz, rgb_from_rgb, rgb_y, xyz2rgb. destruct v as [a b d]; cbn [vx vy vz].
  unfold Rabs. destruct (Rcase_abs a), (Rcase_abs b), (Rcase_abs d); destruct (Rcase_abs _); lra.
Qed.
Print Assumptions C237_values.
Print Assumptions C237_refused.
Print Assumptions C237_linear.
Print Assumptions C237_constant.
Print Assumptions C237_nonneg.
Print Assumptions C237_rgb.
Example C237_ex : exists y, sampled_y (Some (repeat 1 30, repeat 1 30, repeat 1 30)) (repeat 2 30) = Ok y.
Proof. rewrite C237_constant by reflexivity. eauto. Qed.

(** ** C238 *)
Theorem C238_sqrt (c : list R) : (forall x, In x c -> 0 <= x) -> cs_pow 2 (cs_sqrt c) = c /\ (forall x, In x (cs_sqrt c) -> 0 <= x).
Proof.
  intros H. split.
  - unfold cs_pow, cs_sqrt. rewrite map_map. rewrite <- (map_id c) at 2. apply map_ext_in. intros x Hx. cbn. rewrite Rmult_1_r. apply sqrt_sqrt. auto.
  - intros x Hx. unfold cs_sqrt in Hx. apply in_map_iff in Hx. destruct Hx as (y & <- & _). apply sqrt_pos.
Qed.
Theorem C238_pow (c : list R) (m n : nat) (i : nat) : nth i (cs_pow n c) (0 ^ n) = nth i c 0 ^ n /\ length (cs_pow n c) = length c /\
  nth i (cs_pow (m + n) c) (0 ^ (m + n)) = nth i (cs_pow m c) (0 ^ m) * nth i (cs_pow n c) (0 ^ n).
Proof.
  assert (E1 : forall k, nth i (cs_pow k c) (0 ^ k) = nth i c 0 ^ k) by (intros k; unfold cs_pow; rewrite (map_nth (fun x => x ^ k)); reflexivity).
  split; [apply E1|]. split; [unfold cs_pow; apply map_length|]. rewrite !E1. apply Rdef_pow_add.
Qed.
Print Assumptions C238_sqrt.
Print Assumptions C238_pow.
