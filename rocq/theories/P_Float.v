(** Facts about float64 rounding used by Props_Float *)
From Coq Require Import Reals ZArith List Bool Lra Lia.
From Flocq Require Import Core Relative Sterbenz Plus_error.
From Verif Require Import M_Float.
Import ListNotations.
Open Scope R_scope.

#[global] Instance prec53 : Prec_gt_0 53. Proof. reflexivity. Qed.
#[global] Instance valid64 : Valid_exp fexp64. Proof. apply FLT_exp_valid. reflexivity. Qed.
#[global] Instance mono64 : Monotone_exp fexp64. Proof. apply FLT_exp_monotone. Qed.
#[global] Instance noftz64 : Exp_not_FTZ fexp64. Proof. apply monotone_exp_not_FTZ; typeclasses eauto. Qed.

Lemma fl_le x y : x <= y -> fl x <= fl y. Proof. intros H. unfold fl. apply round_le; [typeclasses eauto|typeclasses eauto|exact H]. Qed.
Lemma fl_F64 x : F64 (fl x). Proof. apply generic_format_round; typeclasses eauto. Qed.
Lemma fl_id x : F64 x -> fl x = x. Proof. apply round_generic. typeclasses eauto. Qed.
Lemma fl_le_r x y : F64 y -> x <= y -> fl x <= y. Proof. intros F H. rewrite <- (fl_id y F). now apply fl_le. Qed.
Lemma fl_le_l x y : F64 x -> x <= y -> x <= fl y. Proof. intros F H. rewrite <- (fl_id x F). now apply fl_le. Qed.
Lemma F64_0 : F64 0. Proof. apply generic_format_0. Qed.
Lemma fl_0 : fl 0 = 0. Proof. apply fl_id, F64_0. Qed.
Lemma F64_opp x : F64 x -> F64 (- x). Proof. apply generic_format_opp. Qed.
Lemma fl_opp x : fl (- x) = - fl x. Proof. apply round_NE_opp. Qed.
Lemma bpow_pow (k : Z) : (0 <= k)%Z -> bpow radix2 k = IZR (2 ^ k).
Proof. intros H. rewrite (IZR_Zpower radix2) by auto. reflexivity. Qed.
(** numbers m / 2^k with at most 53 bits *)
Lemma F64_dyadic (m k : Z) : (Z.abs m <= 2 ^ 53)%Z -> (0 <= k <= 1074)%Z -> F64 (IZR m / IZR (2 ^ k)).
Proof.
  intros Hm Hk.
  assert (E : IZR m / IZR (2 ^ k) = F2R (Float radix2 m (- k))).
  { unfold F2R; cbn [Fnum Fexp]. rewrite bpow_opp, bpow_pow by lia. reflexivity. }
  destruct (Z.eq_dec (Z.abs m) (2 ^ 53)) as [Q|Q].
  - assert (B : F64 (bpow radix2 (53 - k))). { apply generic_format_bpow. unfold fexp64, FLT_exp. lia. }
    rewrite E. assert (X : F2R (Float radix2 m (- k)) = bpow radix2 (53 - k) \/ F2R (Float radix2 m (- k)) = - bpow radix2 (53 - k)).
    { unfold F2R; cbn [Fnum Fexp]. replace (53 - k)%Z with (53 + - k)%Z by lia. rewrite bpow_plus.
      destruct (Z.abs_eq_or_opp m) as [A|A].
      - left. f_equal. rewrite bpow_pow by lia. f_equal. lia.
      - right. rewrite <- Ropp_mult_distr_l_reverse. f_equal. rewrite bpow_pow by lia. rewrite <- opp_IZR. f_equal. lia. }
    destruct X as [X|X]; rewrite X; [exact B|now apply F64_opp].
  - apply generic_format_FLT. apply FLT_spec with (Float radix2 m (- k)); [exact E| |cbn; lia].
    cbn [Fnum]. change (radix2 ^ 53)%Z with (2 ^ 53)%Z. lia.
Qed.
Lemma F64_IZR z : (Z.abs z <= 2 ^ 53)%Z -> F64 (IZR z).
Proof. intros H. replace (IZR z) with (IZR z / IZR (2 ^ 0)) by (cbn; field). apply F64_dyadic; lia. Qed.
Lemma F64_half : F64 (1/2). Proof. replace (1/2) with (IZR 1 / IZR (2 ^ 1)) by (cbn; lra). apply F64_dyadic; lia. Qed.
Lemma F64_1 : F64 1. Proof. apply F64_IZR. lia. Qed.
(** half integers *)
Lemma F64_halves z : (Z.abs z <= 2 ^ 53)%Z -> F64 (IZR z / 2).
Proof. intros H. apply (F64_dyadic z 1); lia. Qed.
(** the nearest 53-bit number *)
Lemma fl_eval (m k : Z) (x : R) : (0 <= k <= 1074)%Z ->
  IZR (2 ^ 52) <= x * IZR (2 ^ k) -> x * IZR (2 ^ k) < IZR (2 ^ 53) -> Rabs (x * IZR (2 ^ k) - IZR m) < / 2 ->
  fl x = IZR m / IZR (2 ^ k).
Proof.
  intros Hk L U N. assert (P : 0 < IZR (2 ^ k)) by (apply IZR_lt; apply Z.pow_pos_nonneg; lia).
  assert (P52 : 0 < IZR (2 ^ 52)) by (apply IZR_lt; reflexivity).
  assert (X0 : 0 < x) by (apply Rmult_lt_reg_r with (IZR (2 ^ k)); lra).
  assert (M : mag radix2 x = (53 - k)%Z :> Z).
  { apply mag_unique. rewrite Rabs_right by lra. split.
    - replace (53 - k - 1)%Z with (52 + - k)%Z by lia. rewrite bpow_plus, bpow_opp, !bpow_pow by lia.
      apply Rmult_le_reg_r with (IZR (2 ^ k)); [exact P|]. rewrite Rmult_assoc, Rinv_l by lra. lra.
    - replace (53 - k)%Z with (53 + - k)%Z by lia. rewrite bpow_plus, bpow_opp, !bpow_pow by lia.
      apply Rmult_lt_reg_r with (IZR (2 ^ k)); [exact P|]. rewrite Rmult_assoc, Rinv_l by lra. lra. }
  unfold fl, round, scaled_mantissa, cexp. rewrite M.
  assert (E : fexp64 (53 - k) = (- k)%Z) by (unfold fexp64, FLT_exp; lia). rewrite E, Z.opp_involutive, bpow_pow by lia.
  rewrite (Znearest_imp _ _ m) by exact N. unfold F2R; cbn [Fnum Fexp]. rewrite bpow_opp, bpow_pow by lia. reflexivity.
Qed.
(** ties go to the even neighbour *)
Lemma fl_tie (m k : Z) (x : R) : (0 <= k <= 1074)%Z ->
  IZR (2 ^ 52) <= x * IZR (2 ^ k) -> x * IZR (2 ^ k) < IZR (2 ^ 53) -> x * IZR (2 ^ k) = IZR m + / 2 ->
  fl x = IZR (if Z.even m then m else m + 1) / IZR (2 ^ k).
Proof.
  intros Hk L U N. assert (P : 0 < IZR (2 ^ k)) by (apply IZR_lt; apply Z.pow_pos_nonneg; lia).
  assert (P52 : 0 < IZR (2 ^ 52)) by (apply IZR_lt; reflexivity).
  assert (X0 : 0 < x) by (apply Rmult_lt_reg_r with (IZR (2 ^ k)); lra).
  assert (M : mag radix2 x = (53 - k)%Z :> Z).
  { apply mag_unique. rewrite Rabs_right by lra. split.
    - replace (53 - k - 1)%Z with (52 + - k)%Z by lia. rewrite bpow_plus, bpow_opp, !bpow_pow by lia.
      apply Rmult_le_reg_r with (IZR (2 ^ k)); [exact P|]. rewrite Rmult_assoc, Rinv_l by lra. lra.
    - replace (53 - k)%Z with (53 + - k)%Z by lia. rewrite bpow_plus, bpow_opp, !bpow_pow by lia.
      apply Rmult_lt_reg_r with (IZR (2 ^ k)); [exact P|]. rewrite Rmult_assoc, Rinv_l by lra. lra. }
  unfold fl, round, scaled_mantissa, cexp. rewrite M.
  assert (E : fexp64 (53 - k) = (- k)%Z) by (unfold fexp64, FLT_exp; lia). rewrite E, Z.opp_involutive, bpow_pow by lia.
  assert (FL : Zfloor (x * IZR (2 ^ k)) = m). { apply Zfloor_imp. rewrite plus_IZR. lra. }
  unfold Znearest. rewrite FL. rewrite Rcompare_Eq by lra.
  rewrite Zceil_floor_neq by (rewrite FL; lra). rewrite FL.
  unfold F2R; cbn [Fnum Fexp]. rewrite bpow_opp, bpow_pow by lia. destruct (Z.even m); reflexivity.
Qed.
Lemma fl_nonneg x : 0 <= x -> 0 <= fl x. Proof. apply fl_le_l, F64_0. Qed.
Lemma fl_nonpos x : x <= 0 -> fl x <= 0. Proof. apply fl_le_r, F64_0. Qed.
(** gradual underflow: different numbers have a difference *)
Lemma fsub_pos a b : F64 a -> F64 b -> a < b -> 0 < fsub b a.
Proof.
  intros Fa Fb H. unfold fsub. assert (N : fl (b - a) <> 0).
  { unfold fl, Rminus. apply round_plus_neq_0; try typeclasses eauto; [exact Fb|now apply F64_opp|lra]. }
  assert (0 <= fl (b - a)) by (apply fl_nonneg; lra). lra.
Qed.
Lemma div_le a b c : 0 < c -> a <= b -> a / c <= b / c.
Proof. intros Hc H. unfold Rdiv. apply Rmult_le_compat_r; [apply Rlt_le, Rinv_0_lt_compat, Hc|exact H]. Qed.
Lemma div_le1 a c : 0 < c -> a <= c -> a / c <= 1.
Proof. intros Hc H. replace 1 with (c / c) by (field; lra). now apply div_le. Qed.
Lemma div_ge0 a c : 0 < c -> 0 <= a -> 0 <= a / c.
Proof. intros Hc H. unfold Rdiv. apply Rmult_le_pos; [exact H|apply Rlt_le, Rinv_0_lt_compat, Hc]. Qed.
(** relative error of one rounding, above the underflow threshold *)
Lemma fl_rel x : bpow radix2 (-1022) <= Rabs x -> exists e, Rabs e <= bpow radix2 (-53) /\ fl x = x * (1 + e).
Proof.
  intros H. destruct (relative_error_N_FLT_ex radix2 (-1074) 53 eq_refl (fun x => negb (Z.even x)) x H) as (e & A & B).
  exists e. split; [|exact B]. replace (bpow radix2 (-53)) with (/ 2 * bpow radix2 (-53 + 1)); [exact A|].
  change (-53 + 1)%Z with (Z.opp 52). change (-53)%Z with (Z.opp 53). rewrite !bpow_opp, !bpow_pow by lia. change (2 ^ 52)%Z with 4503599627370496%Z. change (2^53)%Z with 9007199254740992%Z. lra.
Qed.
Lemma fl_err x : exists e h, Rabs e <= bpow radix2 (-53) /\ Rabs h <= bpow radix2 (-1075) /\ fl x = x * (1 + e) + h.
Proof.
  destruct (error_N_FLT radix2 (-1074) 53 eq_refl (fun x => negb (Z.even x)) x) as (e & h & A & B & _ & C).
  exists e, h. split; [|split; [|exact C]].
  - unfold u_ro in A. replace (bpow radix2 (-53)) with (/ 2 * bpow radix2 (-53 + 1)); [exact A|].
    change (-53 + 1)%Z with (Z.opp 52). change (-53)%Z with (Z.opp 53). rewrite !bpow_opp, !bpow_pow by lia. change (2 ^ 52)%Z with 4503599627370496%Z. change (2^53)%Z with 9007199254740992%Z. lra.
  - replace (bpow radix2 (-1075)) with (/ 2 * bpow radix2 (-1074)); [exact B|].
    change (-1074)%Z with (1 + -1075)%Z. rewrite bpow_plus. change (bpow radix2 1) with 2. lra.
Qed.
(** no other number is nearer *)
Lemma fl_nearest x g : F64 g -> Rabs (fl x - x) <= Rabs (g - x).
Proof. intros Hg. apply (round_N_pt radix2 fexp64 (fun x => negb (Z.even x)) x). exact Hg. Qed.
(** numbers from 2 on are multiples of 2^-51 *)
Lemma F64_coarse y : F64 y -> 2 <= y -> exists z, y * IZR (2 ^ 51) = IZR z.
Proof.
  intros Fy Hy. unfold F64, generic_format in Fy. set (e := cexp radix2 fexp64 y) in *.
  assert (He : (-51 <= e)%Z).
  { unfold e, cexp, fexp64, FLT_exp. assert (2 <= mag radix2 y)%Z; [|lia].
    apply mag_ge_bpow. rewrite Rabs_right by lra. change (bpow radix2 (2 - 1)) with 2. exact Hy. }
  exists (Ztrunc (scaled_mantissa radix2 fexp64 y) * 2 ^ (e + 51))%Z.
  rewrite mult_IZR, <- (bpow_pow (e + 51)) by lia. rewrite Fy at 1. unfold F2R; cbn [Fnum Fexp].
  rewrite Rmult_assoc. f_equal. rewrite <- bpow_pow by lia. rewrite <- bpow_plus. reflexivity.
Qed.
Definition u_top : R := 1 - / IZR (2 ^ 53).
Lemma u_top_F : F64 u_top.
Proof.
  unfold u_top. replace (1 - / IZR (2 ^ 53)) with (IZR (2 ^ 53 - 1) / IZR (2 ^ 53)); [apply F64_dyadic; lia|].
  rewrite minus_IZR. field. apply not_0_IZR. lia.
Qed.
Lemma u_top_range : 0 <= u_top < 1.
Proof. unfold u_top. change (2 ^ 53)%Z with 9007199254740992%Z. lra. Qed.
(** adding the largest draw to a positive integer gives the next integer *)
Lemma add_top z : (1 <= z < 2 ^ 53)%Z -> fadd (IZR z) u_top = IZR (z + 1).
Proof.
  intros Hz. unfold fadd. set (x := IZR z + u_top). assert (EX : x = IZR (z + 1) - / IZR (2 ^ 53)) by (unfold x, u_top; rewrite plus_IZR; lra).
  assert (P : 0 < / IZR (2 ^ 53)) by (apply Rinv_0_lt_compat, IZR_lt; reflexivity).
  assert (FN : F64 (IZR (z + 1))) by (apply F64_IZR; lia).
  pose proof (fl_nearest x _ FN) as NE. replace (IZR (z + 1) - x) with (/ IZR (2 ^ 53)) in NE by (rewrite EX; lra). rewrite (Rabs_right (/ _)) in NE by lra.
  assert (UP : fl x <= IZR (z + 1)) by (apply fl_le_r; [exact FN|lra]).
  destruct (Z.eq_dec z 1) as [->|N1].
  - rewrite EX. rewrite (fl_tie (2 ^ 53 - 1) 52); [|lia| | |].
    + change (Z.even (2 ^ 53 - 1)) with false. cbv iota. change (2 ^ 53 - 1 + 1)%Z with (2 * 2 ^ 52)%Z. rewrite mult_IZR. change (1 + 1)%Z with 2%Z. field. apply not_0_IZR. lia.
    + change (2 ^ 53)%Z with 9007199254740992%Z. change (2 ^ 52)%Z with 4503599627370496%Z. change (1 + 1)%Z with 2%Z. lra.
    + change (2 ^ 53)%Z with 9007199254740992%Z. change (2 ^ 52)%Z with 4503599627370496%Z. change (1 + 1)%Z with 2%Z. lra.
    + change (2 ^ 53 - 1)%Z with 9007199254740991%Z. change (2 ^ 53)%Z with 9007199254740992%Z. change (2 ^ 52)%Z with 4503599627370496%Z. change (1 + 1)%Z with 2%Z. lra.
  - assert (Z2 : 2 <= IZR z) by (apply IZR_le; lia).
    assert (G2 : 2 <= fl x). { apply fl_le_l; [apply F64_IZR; lia|]. unfold x. pose proof u_top_range. lra. }
    destruct (F64_coarse _ (fl_F64 x) G2) as (w & W).
    assert (D : Rabs (fl x - x) <= / IZR (2 ^ 53)) by exact NE. apply Rabs_def2b in D || apply Rabs_le_inv in D.
    assert (LB : IZR (z + 1) - 2 * / IZR (2 ^ 53) <= fl x) by lra.
    assert (Q : IZR ((z + 1) * 2 ^ 51 - w) <= / 2).
    { rewrite minus_IZR, mult_IZR, <- W. rewrite <- Rmult_minus_distr_r.
      apply Rle_trans with (2 * / IZR (2 ^ 53) * IZR (2 ^ 51)).
      - apply Rmult_le_compat_r; [apply IZR_le; lia|lra].
      - change (2 ^ 53)%Z with 9007199254740992%Z. change (2 ^ 51)%Z with 2251799813685248%Z. lra. }
    assert (Q2 : 0 <= IZR ((z + 1) * 2 ^ 51 - w)).
    { rewrite minus_IZR, mult_IZR, <- W. rewrite <- Rmult_minus_distr_r. apply Rmult_le_pos; [lra|apply IZR_le; lia]. }
    assert (E0 : ((z + 1) * 2 ^ 51 - w = 0)%Z).
    { apply le_IZR in Q2. assert ((z + 1) * 2 ^ 51 - w < 1)%Z; [apply lt_IZR; lra|lia]. }
    apply Rmult_eq_reg_r with (IZR (2 ^ 51)); [|apply not_0_IZR; lia]. rewrite W, <- mult_IZR. f_equal. lia.
Qed.
Lemma scale8 c : F64 c -> 0 < c -> exists e, Rabs e <= bpow radix2 (-53) /\ fmul 255 c = 255 * c * (1 + e).
Proof.
  intros Fc Hc. destruct (Rle_lt_dec (bpow radix2 (-1022)) (255 * c)) as [H|H].
  - destruct (fl_rel (255 * c)) as (e & A & B); [rewrite Rabs_right; lra|]. exists e. split; [exact A|exact B].
  - exists 0. split; [rewrite Rabs_R0; apply bpow_ge_0|]. unfold fmul. replace (255 * c * (1 + 0)) with (255 * c) by ring. apply fl_id.
    apply FLT_format_generic in Fc; [|reflexivity]. destruct Fc as [[m e] E1 E2 E3]. cbn [Fnum Fexp] in *.
    assert (EC : c = IZR (m * 2 ^ (e + 1074)) / IZR (2 ^ 1074)).
    { rewrite E1. unfold F2R; cbn [Fnum Fexp]. rewrite mult_IZR, <- !bpow_pow by lia. unfold Rdiv. rewrite Rmult_assoc. f_equal.
      rewrite <- bpow_opp, <- bpow_plus. f_equal. lia. }
    set (M := (m * 2 ^ (e + 1074))%Z) in *. assert (P : 0 < IZR (2 ^ 1074)) by (apply IZR_lt, Z.pow_pos_nonneg; lia).
    replace (255 * c) with (IZR (255 * M) / IZR (2 ^ 1074)) by (rewrite mult_IZR, EC; field; lra).
    apply F64_dyadic; [|lia].
    assert (M0 : 0 <= IZR M). { apply Rmult_le_reg_r with (/ IZR (2 ^ 1074)); [now apply Rinv_0_lt_compat|]. unfold Rdiv in EC. rewrite <- EC. lra. }
    assert (M1 : IZR (255 * M) < IZR (2 ^ 52)).
    { apply Rmult_lt_reg_r with (/ IZR (2 ^ 1074)); [now apply Rinv_0_lt_compat|]. rewrite mult_IZR, Rmult_assoc. unfold Rdiv in EC. rewrite <- EC.
      rewrite <- !bpow_pow, <- bpow_opp, <- bpow_plus by lia. exact H. }
    apply lt_IZR in M1. apply le_IZR in M0. lia.
Qed.
Lemma fl_dist x : Rabs (fl x - x) <= bpow radix2 (-53) * Rabs x + bpow radix2 (-1075).
Proof.
  destruct (fl_err x) as (e & h & A & B & ->). replace (x * (1 + e) + h - x) with (x * e + h) by ring.
  eapply Rle_trans; [apply Rabs_triang|]. apply Rplus_le_compat; [|exact B]. rewrite Rabs_mult, Rmult_comm. apply Rmult_le_compat_r; [apply Rabs_pos|exact A].
Qed.
Lemma F64_abs x : F64 x -> F64 (Rabs x). Proof. apply generic_format_abs. Qed.
Lemma fl_abs_le x y : F64 y -> Rabs x <= y -> Rabs (fl x) <= y.
Proof. intros Fy H. apply Rabs_le_inv in H. apply Rabs_le. split; [apply fl_le_l; [now apply F64_opp|lra]|apply fl_le_r; [auto|lra]]. Qed.
