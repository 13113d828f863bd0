(** Float64 arithmetic, continued: C284 (choosing one of n), C285 (bilinear texture lookups). *)
From Coq Require Import Reals ZArith List Bool Lra Lia.
From Flocq Require Import Core.
From Verif Require Import M_Float M_Float3 P_Float.
Open Scope R_scope.

(** ** C284 *)
Lemma pred_close n : F64 n -> bpow radix2 (-1000) <= n -> exists g, F64 g /\ g < n /\ n - g < n * bpow radix2 (-52).
Proof.
  intros Fn Hn. assert (N0 : 0 < n) by (pose proof (bpow_gt_0 radix2 (-1000)); lra).
  exists (pred radix2 fexp64 n). split; [apply generic_format_pred; [typeclasses eauto|exact Fn]|].
  split; [apply pred_lt_id; lra|]. rewrite pred_eq_pos by lra. unfold pred_pos.
  assert (NZ : n <> 0) by lra.
  destruct (mag radix2 n) as [e He]. cbn [mag_val] in *. specialize (He NZ). rewrite (Rabs_right n) in He by lra.
  assert (E1 : (-1000 < e)%Z). { apply (lt_bpow radix2). lra. }
  assert (M : mag radix2 n = e :> Z) by (apply mag_unique; rewrite Rabs_right; lra).
  destruct (Req_bool_spec n (bpow radix2 (e - 1))) as [H|H].
  - unfold fexp64, FLT_exp. rewrite Z.max_l by lia. replace (n - (n - bpow radix2 (e - 1 - 53))) with (bpow radix2 (e - 1 - 53)) by ring.
    rewrite H. rewrite <- bpow_plus. apply bpow_lt. lia.
  - rewrite ulp_neq_0 by exact NZ. unfold cexp. rewrite M. unfold fexp64, FLT_exp. rewrite Z.max_l by lia.
    replace (n - (n - bpow radix2 (e - 53))) with (bpow radix2 (e - 53)) by ring.
    replace (e - 53)%Z with (e - 1 + -52)%Z by lia. rewrite bpow_plus. apply Rmult_lt_compat_r; [apply bpow_gt_0|lra].
Qed.
Lemma draw_le_top u : F64 u -> u < 1 -> u <= u_top.
Proof.
  intros Fu Hu. destruct (Rle_lt_dec u u_top) as [H|H]; [exact H|exfalso].
  destruct (Rle_lt_dec (/2) u) as [H2|H2]; [|unfold u_top in H; change (2 ^ 53)%Z with 9007199254740992%Z in H; lra].
  (* u * 2^53 is an integer *)
  assert (exists z, u * IZR (2 ^ 53) = IZR z) as (z & Ez).
  { unfold F64, generic_format in Fu. set (e := cexp radix2 fexp64 u) in *.
    assert (He : (-53 <= e)%Z).
    { unfold e, cexp, fexp64, FLT_exp. assert (0 <= mag radix2 u)%Z; [|lia]. apply mag_ge_bpow. rewrite Rabs_right by lra. change (bpow radix2 (0 - 1)) with (/2). exact H2. }
    exists (Ztrunc (scaled_mantissa radix2 fexp64 u) * 2 ^ (e + 53))%Z. rewrite mult_IZR, <- (bpow_pow (e + 53)) by lia. rewrite Fu at 1. unfold F2R; cbn [Fnum Fexp].
    rewrite Rmult_assoc. f_equal. rewrite <- bpow_pow by lia. rewrite <- bpow_plus. reflexivity. }
  assert (P : 0 < IZR (2 ^ 53)) by (apply IZR_lt; reflexivity).
  assert (A : IZR (2 ^ 53 - 1) < IZR z). { rewrite <- Ez, minus_IZR. unfold u_top in H. apply (Rmult_lt_compat_r _ _ _ P) in H. rewrite Rmult_minus_distr_r, Rinv_l in H by lra. lra. }
  assert (B : IZR z < IZR (2 ^ 53)). { rewrite <- Ez. rewrite <- (Rmult_1_l (IZR (2 ^ 53))) at 2. apply Rmult_lt_compat_r; auto. }
  apply lt_IZR in A, B. lia.
Qed.
Lemma scaled_below n u : (1 <= n <= 2 ^ 53)%Z -> F64 u -> 0 <= u < 1 -> 0 <= fmul u (IZR n) < IZR n.
Proof.
  intros Hn Fu Hu. assert (N1 : 1 <= IZR n) by (apply IZR_le; lia). pose proof (draw_le_top u Fu ltac:(lra)) as T.
  unfold fmul. split; [apply fl_nonneg; nra|].
  assert (FN : F64 (IZR n)) by (apply F64_IZR; lia).
  assert (UP : fl (u * IZR n) <= IZR n) by (apply fl_le_r; [exact FN|nra]).
  destruct (Rle_lt_or_eq_dec _ _ UP) as [H|H]; [exact H|exfalso].
  destruct (pred_close (IZR n) FN) as (g & Fg & G1 & G2).
  { eapply Rle_trans; [|exact N1]. change 1 with (bpow radix2 0). apply bpow_le. lia. }
  assert (X : u * IZR n <= IZR n - IZR n * bpow radix2 (-53)).
  { change (bpow radix2 (-53)) with (/ IZR (2 ^ 53)). unfold u_top in T. nra. }
  assert (B2 : bpow radix2 (-52) = 2 * bpow radix2 (-53)) by (change (-52)%Z with (1 + -53)%Z; rewrite bpow_plus; reflexivity).
  rewrite B2 in G2. pose proof (fl_nearest (u * IZR n) g Fg) as NE. rewrite H in NE.
  destruct (Rle_lt_dec (u * IZR n) g) as [L|L].
  - pose proof (fl_le_r _ _ Fg L). lra.
  - rewrite Rabs_right in NE by nra. rewrite (Rabs_left (g - _)) in NE by lra. lra.
Qed.
(** The number drawn is always below n, so that the clamp never acts; every one of the n things is taken for the draws
    from i/n on (up to the rounding of the draw i/n itself) and below (i+1)/n, and for no others. *)
Theorem C284_choice (n : Z) (u : R) : (1 <= n <= 2 ^ 53)%Z -> F64 u -> 0 <= u < 1 ->
  let i := f_choice n u in
  (0 <= i < n)%Z /\ i = Zfloor (fmul u (IZR n)) /\
  IZR i / IZR n * (1 - bpow radix2 (-53)) <= u < IZR (i + 1) / IZR n /\
  (forall j, (0 <= j < n)%Z -> IZR j / IZR n <= u -> (j <= i)%Z) /\
  (forall v, F64 v -> u <= v < 1 -> (i <= f_choice n v)%Z).
Proof.
  intros Hn Fu Hu i. pose proof (scaled_below n u Hn Fu Hu) as [S0 S1]. assert (N1 : 1 <= IZR n) by (apply IZR_le; lia).
  assert (EI : i = Zfloor (fmul u (IZR n))).
  { unfold i, f_choice. apply Z.min_l. assert (Zfloor (fmul u (IZR n)) < n)%Z; [|lia].
    apply lt_IZR. eapply Rle_lt_trans; [apply Zfloor_lb|exact S1]. }
  assert (I0 : (0 <= i)%Z) by (rewrite EI; apply Zfloor_lub; exact S0).
  assert (I1 : (i < n)%Z). { apply lt_IZR. rewrite EI. eapply Rle_lt_trans; [apply Zfloor_lb|exact S1]. }
  split; [lia|]. split; [exact EI|]. split; [split|split].
  - assert (L : IZR i <= fl (u * IZR n)) by (rewrite EI; apply Zfloor_lb).
    destruct (Z.eq_dec i 0) as [->|NZ]; [unfold Rdiv; rewrite Rmult_0_l, Rmult_0_l; lra|].
    assert (IP : 1 <= IZR i) by (apply IZR_le; lia).
    assert (X : IZR i * (1 - bpow radix2 (-53)) <= u * IZR n).
    { destruct (Rle_lt_dec (/2) (u * IZR n)) as [H|H].
      - destruct (fl_rel (u * IZR n)) as (e & E1 & E2).
        { rewrite Rabs_right by lra. eapply Rle_trans; [|exact H]. change (/2) with (bpow radix2 (-1)). apply bpow_le; lia. }
        rewrite E2 in L. apply Rabs_le_inv in E1. assert (E5 : 0 < bpow radix2 (-53) < /2).
        { split; [apply bpow_gt_0|]. change (/2) with (bpow radix2 (-1)). apply bpow_lt; lia. }
        set (w := bpow radix2 (-53)) in *. set (x := u * IZR n) in *. clearbody w x.
        assert (IZR i <= x * (1 + w)) by nra. assert ((1 + w) * (1 - w) <= 1) by nra.
        apply Rle_trans with (x * ((1 + w) * (1 - w))); [|nra]. rewrite <- Rmult_assoc. apply Rmult_le_compat_r; lra.
      - assert (fl (u * IZR n) <= /2); [|lra]. replace (/2) with (1/2) by field. apply fl_le_r; [apply F64_half|lra]. }
    apply Rmult_le_reg_r with (IZR n); [lra|]. replace (IZR i / IZR n * (1 - bpow radix2 (-53)) * IZR n) with (IZR i * (1 - bpow radix2 (-53))) by (field; lra). exact X.
  - assert (L : fl (u * IZR n) < IZR (i + 1)) by (rewrite plus_IZR, EI; apply Zfloor_ub).
    apply Rmult_lt_reg_r with (IZR n); [lra|]. replace (IZR (i + 1) / IZR n * IZR n) with (IZR (i + 1)) by (field; lra).
    destruct (Rlt_le_dec (u * IZR n) (IZR (i + 1))) as [H|H]; [exact H|]. exfalso.
    assert (IZR (i + 1) <= fl (u * IZR n)); [|lra]. apply fl_le_l; [apply F64_IZR; lia|exact H].
  - intros j Hj H. rewrite EI. apply Zfloor_lub. unfold fmul. apply fl_le_l; [apply F64_IZR; lia|].
    apply (Rmult_le_compat_r (IZR n)) in H; [|lra]. replace (IZR j / IZR n * IZR n) with (IZR j) in H by (field; lra). exact H.
  - intros v Fv Hv. rewrite EI. unfold f_choice. apply Z.min_glb; [|lia]. apply Zfloor_le. unfold fmul. apply fl_le. apply Rmult_le_compat_r; lra.
Qed.
Print Assumptions C284_choice.
(** A draw of exactly 1, which the stratified sampler can produce (C246), gives the last of them; there the clamp is needed. *)
Theorem C284_one (n : Z) : (1 <= n <= 2 ^ 53)%Z -> f_choice n 1 = (n - 1)%Z /\ Zfloor (fmul 1 (IZR n)) = n /\ f_entry2 n 1 = (n - 1)%Z.
Proof.
  intros Hn. assert (E : fmul 1 (IZR n) = IZR n) by (unfold fmul; rewrite Rmult_1_l; apply fl_id, F64_IZR; lia).
  unfold f_choice, f_entry2. rewrite E, Zfloor_IZR. lia.
Qed.
Print Assumptions C284_one.
(** the entry of a two-dimensional table whose density is returned is the one chosen in the same way *)
Theorem C284_density_entry (n : Z) (u : R) : (1 <= n <= 2 ^ 53)%Z -> F64 u -> 0 <= u <= 1 -> f_entry2 n u = f_choice n u.
Proof.
  intros Hn Fu Hu. unfold f_entry2, f_choice. apply Z.max_r, Z.min_glb; [|lia]. apply Zfloor_lub. apply fl_nonneg.
  apply Rmult_le_pos; [lra|apply IZR_le; lia].
Qed.
Print Assumptions C284_density_entry.
(** the largest draw there is takes the last of any number of things *)
Example C284_meets : forall n, (1 <= n <= 2 ^ 53)%Z -> F64 u_top /\ 0 <= u_top < 1 /\ f_choice n u_top = (n - 1)%Z.
Proof.
  intros n Hn. split; [apply u_top_F|]. split; [apply u_top_range|].
  destruct (C284_choice n u_top Hn u_top_F u_top_range) as (A & _ & _ & B & _).
  assert (n - 1 <= f_choice n u_top)%Z; [|lia]. apply B; [lia|]. assert (N1 : 1 <= IZR n) by (apply IZR_le; lia).
  apply Rmult_le_reg_r with (IZR n); [lra|]. replace (IZR (n - 1) / IZR n * IZR n) with (IZR n - 1) by (rewrite minus_IZR; field; lra).
  assert (N2 : IZR n <= IZR (2 ^ 53)) by (apply IZR_le; lia). unfold u_top. assert (P : 0 < IZR (2 ^ 53)) by (apply IZR_lt; reflexivity).
  rewrite Rmult_minus_distr_r, Rmult_1_l. assert (/ IZR (2 ^ 53) * IZR n <= 1); [|lra].
  apply Rmult_le_reg_l with (IZR (2 ^ 53)); [exact P|]. rewrite <- Rmult_assoc, Rinv_r by lra. lra.
Qed.

(** ** C285 *)
Lemma frac_exact x : F64 x -> 0 <= x -> F64 (x - IZR (Zfloor x)).
Proof.
  intros Fx Hx. destruct (FLT_format_generic radix2 (-1074) 53 x Fx) as [[m e] E1 E2 E3]. cbn [Fnum Fexp] in *.
  pose proof (Zfloor_lb x) as LB. pose proof (Zfloor_ub x) as UB. assert (Z0 : (0 <= Zfloor x)%Z) by (apply Zfloor_lub; exact Hx).
  destruct (Z_le_gt_dec 0 e) as [He|He].
  - assert (EX : x = IZR (m * 2 ^ e)) by (rewrite E1; unfold F2R; cbn [Fnum Fexp]; rewrite mult_IZR, bpow_pow by lia; reflexivity).
    rewrite EX, Zfloor_IZR, Rminus_diag_eq by reflexivity. apply F64_0.
  - assert (P : 0 < IZR (2 ^ (- e))) by (apply IZR_lt, Z.pow_pos_nonneg; lia).
    assert (EX : x = IZR m / IZR (2 ^ (- e))).
    { rewrite E1. unfold F2R, Rdiv; cbn [Fnum Fexp]. rewrite <- (bpow_pow (- e)) by lia. rewrite <- bpow_opp, Z.opp_involutive. reflexivity. }
    replace (x - IZR (Zfloor x)) with (IZR (m - Zfloor x * 2 ^ (- e)) / IZR (2 ^ (- e))) by (rewrite minus_IZR, mult_IZR; replace (IZR m) with (x * IZR (2 ^ (- e))) by (rewrite EX at 1; field; lra); field; lra).
    apply F64_dyadic; [|lia].
    assert (D : IZR (m - Zfloor x * 2 ^ (- e)) = (x - IZR (Zfloor x)) * IZR (2 ^ (- e))) by (rewrite minus_IZR, mult_IZR; replace (IZR m) with (x * IZR (2 ^ (- e))) by (rewrite EX at 1; field; lra); ring).
    assert (D0 : (0 <= m - Zfloor x * 2 ^ (- e))%Z). { apply le_IZR. rewrite D. apply Rmult_le_pos; lra. }
    assert (P0 : (0 < 2 ^ (- e))%Z) by (apply Z.pow_pos_nonneg; lia). rewrite Z.abs_eq by exact D0.
    assert (Hm : (Z.abs m < 2 ^ 53)%Z) by exact E2. set (q := (2 ^ (- e))%Z) in *. clearbody q. assert (0 <= Zfloor x * q)%Z by nia. lia.
Qed.
(** The second texel's weight is between 0 and 1; first texel plus weight is the position, exactly from the first texel on
    and up to 2^-53 before it. *)
Theorem C285_weight_partial (res : Z) (s : R) : (1 <= res <= 2 ^ 53)%Z -> F64 s ->
  0 <= f_tex_weight res s <= 1 /\ IZR (f_tex_first res s) <= f_tex_pos res s < IZR (f_tex_first res s) + 1 /\
  (0 <= f_tex_pos res s -> IZR (f_tex_first res s) + f_tex_weight res s = f_tex_pos res s) /\
  Rabs (IZR (f_tex_first res s) + f_tex_weight res s - f_tex_pos res s) <= bpow radix2 (-52).
Proof.
  intros Hr Fs. unfold f_tex_weight, f_tex_first. set (x := f_tex_pos res s). assert (Fx : F64 x) by apply fl_F64. clearbody x.
  pose proof (Zfloor_lb x) as LB. pose proof (Zfloor_ub x) as UB.
  split; [|split; [lra|split]].
  - unfold fsub. split; [apply fl_nonneg; lra|apply fl_le_r; [apply F64_1|lra]].
  - intros Hx. unfold fsub. rewrite fl_id by (now apply frac_exact). lra.
  - unfold fsub. pose proof (fl_dist (x - IZR (Zfloor x))) as D. rewrite (Rabs_right (x - _)) in D by lra.
    assert (B2 : bpow radix2 (-52) = 2 * bpow radix2 (-53)) by (change (-52)%Z with (1 + -53)%Z; rewrite bpow_plus; reflexivity).
    assert (H0 : bpow radix2 (-1075) <= bpow radix2 (-53)) by (apply bpow_le; lia). pose proof (bpow_gt_0 radix2 (-53)) as W.
    rewrite B2. replace (IZR (Zfloor x) + fl (x - IZR (Zfloor x)) - x) with (fl (x - IZR (Zfloor x)) - (x - IZR (Zfloor x))) by ring.
    eapply Rle_trans; [exact D|]. nra.
Qed.
Print Assumptions C285_weight_partial.

(** the interpolation in exact arithmetic *)
Definition bilinear (ds dt t00 t01 t10 t11 : R) : R :=
  (1 - ds) * (1 - dt) * t00 + (1 - ds) * dt * t01 + ds * (1 - dt) * t10 + ds * dt * t11.
Section Bil.
  Variables u h : R.
  Hypotheses (U : 0 < u <= /1000) (H : 0 < h <= u).
  Lemma wt_err a b a' b' w : 0 <= a <= 1 -> 0 <= b <= 1 -> 0 <= a' <= 1 -> 0 <= b' <= 1 -> Rabs (a' - a) <= 2 * u -> Rabs (b' - b) <= 2 * u ->
    Rabs (w - a' * b') <= u * (a' * b') + h -> Rabs (w - a * b) <= 6 * u.
  Proof.
    intros A B A' B' EA EB EW. apply Rabs_le_inv in EA, EB, EW. assert (0 <= a' * b' <= 1) by nra.
    assert (Rabs (a' * b' - a * b) <= 4 * u).
    { replace (a' * b' - a * b) with ((a' - a) * b' + a * (b' - b)) by ring. apply Rabs_le. split; nra. }
    apply Rabs_le_inv in H1. apply Rabs_le. split; nra.
  Qed.
  Lemma tm_err w w' t p M : 0 <= w' <= 1 -> Rabs t <= M -> Rabs (w' - w) <= 6 * u -> Rabs (p - w' * t) <= u * Rabs (w' * t) + h ->
    Rabs (p - w * t) <= 7 * u * M + h.
  Proof.
    intros W T E P. assert (X : Rabs (w' * t) <= M). { rewrite Rabs_mult, (Rabs_right w') by lra. pose proof (Rabs_pos t). nra. }
    replace (p - w * t) with ((p - w' * t) + (w' - w) * t) by ring. eapply Rle_trans; [apply Rabs_triang|]. rewrite Rabs_mult.
    pose proof (Rabs_pos t). pose proof (Rabs_pos (w' - w)). assert (Rabs (w' - w) * Rabs t <= 6 * u * M) by (apply Rmult_le_compat; auto). nra.
  Qed.
  Lemma sum_err M p q r v p' q' r' v' s1 s2 s3 : 0 <= M ->
    Rabs (p' - p) <= 7 * u * M + h -> Rabs (q' - q) <= 7 * u * M + h -> Rabs (r' - r) <= 7 * u * M + h -> Rabs (v' - v) <= 7 * u * M + h ->
    Rabs (p + q) <= M -> Rabs (p + q + r) <= M -> Rabs (p + q + r + v) <= M ->
    Rabs (s1 - (p' + q')) <= u * Rabs (p' + q') + h -> Rabs (s2 - (s1 + r')) <= u * Rabs (s1 + r') + h -> Rabs (s3 - (s2 + v')) <= u * Rabs (s2 + v') + h ->
    Rabs (s3 - (p + q + r + v)) <= 32 * u * M + 8 * h.
  Proof.
    intros HM P Q R0 V M1 M2 M3 S1 S2 S3. apply Rabs_le_inv in P, Q, R0, V.
    assert (UM : 0 <= u * M) by nra. assert (UU : 0 <= u * (u * M) <= u * M / 1000) by (split; nra).
    assert (UH : 0 <= u * h <= h / 1000) by (split; nra).
    assert (A1 : Rabs (p' + q') <= M + 14 * (u * M) + 2 * h). { apply Rabs_le. apply Rabs_le_inv in M1. lra. }
    assert (B1 : Rabs (s1 - (p' + q')) <= u * M + 14 * (u * (u * M)) + 2 * (u * h) + h).
    { eapply Rle_trans; [exact S1|]. apply (Rmult_le_compat_l u) in A1; lra. }
    apply Rabs_le_inv in B1. clear S1 A1.
    assert (A2 : Rabs (s1 + r') <= M + 23 * (u * M) + 5 * h). { apply Rabs_le. apply Rabs_le_inv in M2. lra. }
    assert (B2 : Rabs (s2 - (s1 + r')) <= u * M + 23 * (u * (u * M)) + 5 * (u * h) + h).
    { eapply Rle_trans; [exact S2|]. apply (Rmult_le_compat_l u) in A2; lra. }
    apply Rabs_le_inv in B2. clear S2 A2.
    assert (A3 : Rabs (s2 + v') <= M + 32 * (u * M) + 8 * h). { apply Rabs_le. apply Rabs_le_inv in M3. lra. }
    assert (B3 : Rabs (s3 - (s2 + v')) <= u * M + 32 * (u * (u * M)) + 8 * (u * h) + h).
    { eapply Rle_trans; [exact S3|]. apply (Rmult_le_compat_l u) in A3; lra. }
    apply Rabs_le_inv in B3. apply Rabs_le. lra.
  Qed.
End Bil.
(** The interpolated value is the exact interpolation between the four texels up to 2^-48 of the largest of them; it is never
    below the least or above the greatest by more than that. *)
Theorem C285_value_partial (ds dt t00 t01 t10 t11 M lo hi : R) : F64 ds -> F64 dt -> 0 <= ds <= 1 -> 0 <= dt <= 1 ->
  (forall t, t = t00 \/ t = t01 \/ t = t10 \/ t = t11 -> Rabs t <= M /\ lo <= t <= hi) ->
  let v := f_bilinear ds dt t00 t01 t10 t11 in let err := bpow radix2 (-48) * M + bpow radix2 (-1072) in
  Rabs (v - bilinear ds dt t00 t01 t10 t11) <= err /\ lo - err <= v <= hi + err.
Proof.
  intros Fs Ft Hs Ht HT v err. set (u := bpow radix2 (-53)). set (h := bpow radix2 (-1075)).
  assert (E1 : err = 32 * u * M + 8 * h).
  { unfold err, u, h. change (-48)%Z with (5 + -53)%Z. change (-1072)%Z with (3 + -1075)%Z. rewrite !bpow_plus. reflexivity. }
  assert (U : 0 < u <= / 1000). { split; [apply bpow_gt_0|]. unfold u. apply Rle_trans with (bpow radix2 (-10)); [apply bpow_le; lia|]. change (bpow radix2 (-10)) with (/1024). lra. }
  assert (H : 0 < h <= u) by (split; [apply bpow_gt_0|apply bpow_le; lia]).
  destruct (HT t00 ltac:(auto)) as [A0 L0]. destruct (HT t01 ltac:(auto)) as [A1 L1]. destruct (HT t10 ltac:(auto)) as [A2 L2]. destruct (HT t11 ltac:(auto)) as [A3 L3].
  assert (HM : 0 <= M) by (pose proof (Rabs_pos t00); lra).
  assert (D : forall x, Rabs (fl x - x) <= u * Rabs x + h) by (intros; apply fl_dist).
  assert (C : forall d, 0 <= d <= 1 -> 0 <= fsub 1 d <= 1 /\ Rabs (fsub 1 d - (1 - d)) <= 2 * u).
  { intros d Hd. unfold fsub. split; [split; [apply fl_nonneg; lra|apply fl_le_r; [apply F64_1|lra]]|]. eapply Rle_trans; [apply D|]. rewrite Rabs_right by lra. nra. }
  assert (C0 : forall d : R, Rabs (d - d) <= 2 * u) by (intros; rewrite Rminus_diag_eq, Rabs_R0 by reflexivity; lra).
  assert (W : forall a b a' b', 0 <= a <= 1 -> 0 <= b <= 1 -> 0 <= a' <= 1 -> 0 <= b' <= 1 -> Rabs (a' - a) <= 2 * u -> Rabs (b' - b) <= 2 * u ->
    0 <= fmul a' b' <= 1 /\ Rabs (fmul a' b' - a * b) <= 6 * u).
  { intros a b a' b' Ha Hb Ha' Hb' Ea Eb. split; [unfold fmul; split; [apply fl_nonneg; nra|apply fl_le_r; [apply F64_1|nra]]|].
    apply (wt_err u h U H a b a' b'); auto. eapply Rle_trans; [apply D|]. rewrite Rabs_right by nra. lra. }
  destruct (C ds Hs) as [Cs Es]. destruct (C dt Ht) as [Ct Et].
  destruct (W (1 - ds) (1 - dt) (fsub 1 ds) (fsub 1 dt)) as [W0 X0]; auto; try lra.
  destruct (W (1 - ds) dt (fsub 1 ds) dt) as [W1 X1]; auto; try lra.
  destruct (W ds (1 - dt) ds (fsub 1 dt)) as [W2 X2]; auto; try lra.
  destruct (W ds dt ds dt) as [W3 X3]; auto.
  assert (T : forall w w' t, 0 <= w' <= 1 -> Rabs (w' - w) <= 6 * u -> Rabs t <= M -> Rabs (fmul w' t - w * t) <= 7 * u * M + h).
  { intros w w' t Hw' E Ht'. eapply tm_err; eauto. }
  assert (Q0 : 0 <= (1 - ds) * (1 - dt)) by nra. assert (Q1 : 0 <= (1 - ds) * dt) by nra. assert (Q2 : 0 <= ds * (1 - dt)) by nra. assert (Q3 : 0 <= ds * dt) by nra.
  assert (QS : (1 - ds) * (1 - dt) + (1 - ds) * dt + ds * (1 - dt) + ds * dt = 1) by ring.
  assert (MAIN : Rabs (v - bilinear ds dt t00 t01 t10 t11) <= err).
  { rewrite E1. unfold v, f_bilinear, bilinear.
    pose proof (T _ _ _ W0 X0 A0) as Y0. pose proof (T _ _ _ W1 X1 A1) as Y1. pose proof (T _ _ _ W2 X2 A2) as Y2. pose proof (T _ _ _ W3 X3 A3) as Y3.
    apply Rabs_le_inv in A0, A1, A2, A3.
    eapply (sum_err u h U H M); [exact HM|exact Y0|exact Y1|exact Y2|exact Y3| | | |apply D|apply D|apply D]; clear - HM A0 A1 A2 A3 Q0 Q1 Q2 Q3 QS; apply Rabs_le;
      set (q0 := (1 - ds) * (1 - dt)) in *; set (q1 := (1 - ds) * dt) in *; set (q2 := ds * (1 - dt)) in *; set (q3 := ds * dt) in *; clearbody q0 q1 q2 q3;
      assert (- (q0 * M) <= q0 * t00 <= q0 * M) by (split; nra); assert (- (q1 * M) <= q1 * t01 <= q1 * M) by (split; nra);
      assert (- (q2 * M) <= q2 * t10 <= q2 * M) by (split; nra); assert (- (q3 * M) <= q3 * t11 <= q3 * M) by (split; nra);
      assert (ES : M = q0 * M + q1 * M + q2 * M + q3 * M) by (rewrite <- !Rmult_plus_distr_r, QS; ring);
      assert (0 <= q2 * M) by nra; assert (0 <= q3 * M) by nra; lra. }
  split; [exact MAIN|]. apply Rabs_le_inv in MAIN. unfold bilinear in MAIN.
  set (q0 := (1 - ds) * (1 - dt)) in *; set (q1 := (1 - ds) * dt) in *; set (q2 := ds * (1 - dt)) in *; set (q3 := ds * dt) in *; clearbody q0 q1 q2 q3 v err.
  assert (q0 * lo <= q0 * t00 <= q0 * hi) by (split; nra). assert (q1 * lo <= q1 * t01 <= q1 * hi) by (split; nra).
  assert (q2 * lo <= q2 * t10 <= q2 * hi) by (split; nra). assert (q3 * lo <= q3 * t11 <= q3 * hi) by (split; nra).
  assert (lo = q0 * lo + q1 * lo + q2 * lo + q3 * lo) by (rewrite <- !Rmult_plus_distr_r, QS; ring).
  assert (hi = q0 * hi + q1 * hi + q2 * hi + q3 * hi) by (rewrite <- !Rmult_plus_distr_r, QS; ring). lra.
Qed.
Print Assumptions C285_value_partial.
(** a lookup at the centre of a texel gives that texel *)
Theorem C285_centre_partial (t00 t01 t10 t11 : R) : F64 t00 -> F64 t01 -> F64 t10 -> F64 t11 ->
  f_bilinear 0 0 t00 t01 t10 t11 = t00 /\ f_bilinear 0 1 t00 t01 t10 t11 = t01 /\ f_bilinear 1 0 t00 t01 t10 t11 = t10 /\ f_bilinear 1 1 t00 t01 t10 t11 = t11.
Proof.
  intros F0 F1 F2 F3. unfold f_bilinear, fsub, fmul, fadd. replace (1 - 0) with 1 by ring. replace (1 - 1) with 0 by ring.
  rewrite (fl_id 1 F64_1), fl_0.
  repeat (rewrite ?Rmult_1_l, ?Rmult_0_l, ?Rmult_0_r, ?Rplus_0_l, ?Rplus_0_r, ?(fl_id 1 F64_1), ?fl_0, ?(fl_id t00 F0), ?(fl_id t01 F1), ?(fl_id t10 F2), ?(fl_id t11 F3)). auto.
Qed.
Print Assumptions C285_centre_partial.
(** A texture of one constant value is not reproduced exactly. *)
Theorem C285_constant_refuted : exists (res : Z) (s t c : R), (1 <= res)%Z /\ F64 s /\ F64 t /\ F64 c /\ 0 <= s <= 1 /\ 0 <= t <= 1 /\
  f_bilinear (f_tex_weight res s) (f_tex_weight res t) c c c c <> c.
Proof.
  set (c := IZR (2 ^ 52 + 3) / IZR (2 ^ 52)). assert (Fc : F64 c) by (apply F64_dyadic; lia).
  exists 2%Z, (3/8), (5/8), c. split; [lia|].
  assert (D8 : forall m, (Z.abs m <= 2 ^ 53)%Z -> F64 (IZR m / 8)) by (intros m Hm; exact (F64_dyadic m 3 Hm ltac:(lia))).
  assert (D4 : forall m, (Z.abs m <= 2 ^ 53)%Z -> F64 (IZR m / 4)) by (intros m Hm; exact (F64_dyadic m 2 Hm ltac:(lia))).
  assert (D16 : forall m, (Z.abs m <= 2 ^ 53)%Z -> F64 (IZR m / 16)) by (intros m Hm; exact (F64_dyadic m 4 Hm ltac:(lia))).
  split; [apply D8; lia|]. split; [apply D8; lia|]. split; [exact Fc|]. split; [lra|]. split; [lra|].
  assert (W1 : f_tex_weight 2 (3/8) = 1/4).
  { assert (P : f_tex_pos 2 (3/8) = 1/4).
    { unfold f_tex_pos, fmul, fsub. replace (3/8 * 2) with (3/4) by field. rewrite (fl_id (3/4)) by (apply D4; lia). replace (3/4 - 1/2) with (1/4) by field. apply fl_id, D4. lia. }
    unfold f_tex_weight, f_tex_first. rewrite P. replace (Zfloor (1/4)) with 0%Z by (symmetry; apply Zfloor_imp; cbn; lra). unfold fsub. rewrite Rminus_0_r. apply fl_id, D4. lia. }
  assert (W2 : f_tex_weight 2 (5/8) = 3/4).
  { assert (P : f_tex_pos 2 (5/8) = 3/4).
    { unfold f_tex_pos, fmul, fsub. replace (5/8 * 2) with (5/4) by field. rewrite (fl_id (5/4)) by (apply D4; lia). replace (5/4 - 1/2) with (3/4) by field. apply fl_id, D4. lia. }
    unfold f_tex_weight, f_tex_first. rewrite P. replace (Zfloor (3/4)) with 0%Z by (symmetry; apply Zfloor_imp; cbn; lra). unfold fsub. rewrite Rminus_0_r. apply fl_id, D4. lia. }
  rewrite W1, W2. unfold f_bilinear, fadd, fsub.
  replace (1 - 1/4) with (3/4) by field. replace (1 - 3/4) with (1/4) by field. rewrite (fl_id (3/4)), (fl_id (1/4)) by (apply D4; lia).
  assert (M1 : fmul (3/4) (1/4) = 3/16) by (unfold fmul; replace (3/4 * (1/4)) with (3/16) by field; apply fl_id, D16; lia).
  assert (M2 : fmul (3/4) (3/4) = 9/16) by (unfold fmul; replace (3/4 * (3/4)) with (9/16) by field; apply fl_id, D16; lia).
  assert (M3 : fmul (1/4) (1/4) = 1/16) by (unfold fmul; replace (1/4 * (1/4)) with (1/16) by field; apply fl_id, D16; lia).
  assert (M4 : fmul (1/4) (3/4) = 3/16) by (unfold fmul; replace (1/4 * (3/4)) with (3/16) by field; apply fl_id, D16; lia).
  rewrite M1, M2, M3, M4. clear M1 M2 M3 M4 W1 W2.
  Ltac big := unfold Rdiv; repeat match goal with |- context [IZR ?z] => lazymatch z with (_ ^ _)%Z => let v := eval vm_compute in z in change z with v | (_ + _)%Z => let v := eval vm_compute in z in change z with v | (_ * _)%Z => let v := eval vm_compute in z in change z with v end end; try (apply Rabs_def1); lra.
  assert (N1 : fmul (3/16) c = IZR (3 * 2 ^ 51 + 4) / IZR (2 ^ 55)) by (unfold fmul, c; rewrite (fl_tie (3 * 2 ^ 51 + 4) 55); [reflexivity|lia|big..]).
  assert (N2 : fmul (9/16) c = IZR (9 * 2 ^ 49 + 3) / IZR (2 ^ 53)) by (unfold fmul, c; apply fl_eval; [lia|big..]).
  assert (N3 : fmul (1/16) c = IZR (2 ^ 52 + 3) / IZR (2 ^ 56)) by (unfold fmul, c; apply fl_eval; [lia|big..]).
  rewrite N1, N2, N3. clear N1 N2 N3.
  assert (S1 : fl (IZR (3 * 2 ^ 51 + 4) / IZR (2 ^ 55) + IZR (9 * 2 ^ 49 + 3) / IZR (2 ^ 53)) = IZR (3 * 2 ^ 51 + 4) / IZR (2 ^ 53)) by (apply fl_eval; [lia|big..]).
  rewrite S1. clear S1.
  assert (S2 : fl (IZR (3 * 2 ^ 51 + 4) / IZR (2 ^ 53) + IZR (2 ^ 52 + 3) / IZR (2 ^ 56)) = IZR (13 * 2 ^ 49 + 4) / IZR (2 ^ 53)) by (apply fl_eval; [lia|big..]).
  rewrite S2. clear S2.
  assert (S3 : fl (IZR (13 * 2 ^ 49 + 4) / IZR (2 ^ 53) + IZR (3 * 2 ^ 51 + 4) / IZR (2 ^ 55)) = IZR (2 ^ 52 + 2) / IZR (2 ^ 52)).
  { rewrite (fl_tie (2 ^ 52 + 2) 52); [reflexivity|lia|big..]. }
  rewrite S3. unfold c. intros Q. assert (P : 0 < IZR (2 ^ 52)) by (apply IZR_lt; reflexivity).
  apply (f_equal (fun x => x * IZR (2 ^ 52))) in Q. unfold Rdiv in Q. rewrite !Rmult_assoc, Rinv_l, !Rmult_1_r in Q by lra. apply eq_IZR in Q. lia.
Qed.
Print Assumptions C285_constant_refuted.
Example C285_meets : (1 <= 2 <= 2 ^ 53)%Z /\ F64 (3/4) /\ F64 (1/2) /\ 0 <= 3/4 <= 1 /\ (forall t, t = 1/2 \/ t = 1 \/ t = 1/2 \/ t = 0 -> Rabs t <= 1 /\ 0 <= t <= 1).
Proof.
  split; [lia|]. split; [exact (F64_dyadic 3 2 ltac:(lia) ltac:(lia))|]. split; [apply F64_half|]. split; [lra|].
  intros t [->|[->|[->| ->]]]; (split; [apply Rabs_le; lra|lra]).
Qed.
