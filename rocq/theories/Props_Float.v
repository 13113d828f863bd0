(** C246-C256: the code under float64 rounding *)
From Coq Require Import Reals ZArith List Bool Lra Lia.
From Flocq Require Import Core.
From Verif Require Import M_Float P_Float.
Import ListNotations.
Open Scope R_scope.

Ltac pow2 := change (2 ^ 51)%Z with 2251799813685248%Z in *; change (2 ^ 52)%Z with 4503599627370496%Z in *; change (2 ^ 53)%Z with 9007199254740992%Z in *.

(** ** C246 stratified samples *)
(** Sample i of n lies between the rounded ends of its stratum, within [0, 1], and the samples are in order; a single
    sample is the draw itself. *)
Theorem C246_strata_partial (n i j : Z) (u v : R) :
  (1 <= n <= 2 ^ 53)%Z -> (0 <= i < j)%Z -> (j < n)%Z -> 0 <= u < 1 -> 0 <= v < 1 -> F64 u ->
  fl (IZR i / IZR n) <= f_stratum n i u <= fl (IZR (i + 1) / IZR n) /\ 0 <= f_stratum n i u <= 1 /\ 0 <= f_stratum n j v <= 1 /\
  f_stratum n i u <= f_stratum n j v /\ f_stratum 1 0 u = u.
Proof.
  intros Hn Hi Hj Hu Hv Fu. assert (N0 : 0 < IZR n) by (apply IZR_lt; lia).
  assert (B : forall k w, (0 <= k < n)%Z -> 0 <= w < 1 -> IZR k <= fadd (IZR k) w <= IZR (k + 1)).
  { intros k w Hk Hw. unfold fadd. split; [apply fl_le_l|apply fl_le_r]; try (apply F64_IZR; lia); rewrite ?plus_IZR; lra. }
  assert (ST : forall k w, (0 <= k < n)%Z -> 0 <= w < 1 -> fl (IZR k / IZR n) <= f_stratum n k w <= fl (IZR (k + 1) / IZR n)).
  { intros k w Hk Hw. destruct (B k w Hk Hw). unfold f_stratum, fdiv. split; apply fl_le; apply div_le; auto. }
  assert (B0 : forall k, (0 <= k)%Z -> 0 <= fl (IZR k / IZR n)) by (intros k Hk; apply fl_nonneg, div_ge0; [auto|apply IZR_le; lia]).
  assert (B1 : forall k, (k <= n)%Z -> fl (IZR k / IZR n) <= 1) by (intros k Hk; apply fl_le_r; [apply F64_1|]; apply div_le1; [auto|apply IZR_le; lia]).
  pose proof (ST i u ltac:(lia) Hu) as SI. pose proof (ST j v ltac:(lia) Hv) as SJ.
  split; [exact SI|]. split; [split; [eapply Rle_trans; [apply (B0 i); lia|apply SI]|eapply Rle_trans; [apply SI|apply B1; lia]]|].
  split; [split; [eapply Rle_trans; [apply (B0 j); lia|apply SJ]|eapply Rle_trans; [apply SJ|apply B1; lia]]|].
  split. { eapply Rle_trans; [apply SI|]. eapply Rle_trans; [|apply SJ]. apply fl_le, div_le; [auto|apply IZR_le; lia]. }
  unfold f_stratum, fadd, fdiv. rewrite Rplus_0_l, (fl_id u Fu). replace (u / 1) with u by field. now apply fl_id.
Qed.
Print Assumptions C246_strata_partial.
(** With two samples or more the last one can be 1: the largest draw gives it. *)
Theorem C246_below_one_refuted (n : Z) : (2 <= n <= 2 ^ 53)%Z -> exists u, F64 u /\ 0 <= u < 1 /\ f_stratum n (n - 1) u = 1.
Proof.
  intros Hn. exists u_top. split; [apply u_top_F|]. split; [apply u_top_range|]. unfold f_stratum. rewrite add_top by lia.
  replace (n - 1 + 1)%Z with n by lia. unfold fdiv. replace (IZR n / IZR n) with 1; [apply fl_id, F64_1|]. field. apply not_0_IZR. lia.
Qed.
Print Assumptions C246_below_one_refuted.

(** ** C247 positions of image samples *)
Theorem C247_pixel_partial (n i p : Z) (u : R) :
  (1 <= n <= 2 ^ 53)%Z -> (0 <= i < n)%Z -> (Z.abs p < 2 ^ 53)%Z -> 0 <= u < 1 -> F64 u ->
  IZR p <= f_image n i p u <= IZR (p + 1).
Proof.
  intros Hn Hi Hp Hu Fu. assert (N0 : 0 < IZR n) by (apply IZR_lt; lia).
  assert (A : IZR i <= fadd (IZR i) u <= IZR (i + 1)).
  { unfold fadd. split; [apply fl_le_l|apply fl_le_r]; try (apply F64_IZR; lia); rewrite ?plus_IZR; lra. }
  assert (I0 : 0 <= IZR i) by (apply IZR_le; lia). assert (I1 : IZR (i + 1) <= IZR n) by (apply IZR_le; lia).
  assert (S : 0 <= f_stratum n i u <= 1).
  { unfold f_stratum, fdiv. split; [apply fl_nonneg, div_ge0; lra|apply fl_le_r; [apply F64_1|]; apply div_le1; lra]. }
  unfold f_image, fadd. split; [apply fl_le_l|apply fl_le_r]; try (apply F64_IZR; lia); rewrite ?plus_IZR; lra.
Qed.
Print Assumptions C247_pixel_partial.
(** In every column but the first the position can be that of the next column. *)
Theorem C247_next_pixel_refuted (p : Z) : (1 <= p < 2 ^ 53)%Z -> exists u, F64 u /\ 0 <= u < 1 /\ f_image 1 0 p u = IZR (p + 1).
Proof.
  intros Hp. exists u_top. split; [apply u_top_F|]. split; [apply u_top_range|]. unfold f_image, f_stratum.
  unfold fadd at 2. rewrite Rplus_0_l, (fl_id _ u_top_F). unfold fdiv. replace (u_top / 1) with u_top by field. rewrite (fl_id _ u_top_F).
  unfold fadd. rewrite Rplus_comm. exact (add_top p Hp).
Qed.
Print Assumptions C247_next_pixel_refuted.

(** ** C248 which pixels a sample reaches *)
(** The pixels stay on the film, the table entries in the table; a sample of pixel p always reaches pixel p when the
    filter is at least half a pixel wide, whatever the rounding did to its position. *)
Theorem C248_reached (w winv x : R) (start cnt p : Z) :
  (Z.abs p < 2 ^ 51)%Z -> IZR p <= x <= IZR (p + 1) -> 1/2 <= w -> (start <= p < start + cnt)%Z ->
  (fst (f_reach w x start cnt) <= p <= snd (f_reach w x start cnt))%Z.
Proof.
  intros Hp Hx Hw HF. pose proof (plus_IZR p 1) as PI. pose proof F64_half as FH.
  assert (D : IZR p - 1/2 <= fsub x (1/2) <= IZR p + 1/2).
  { unfold fsub. split; [apply fl_le_l|apply fl_le_r]; try lra.
    - replace (IZR p - 1/2) with (IZR (2 * p - 1) / 2) by (rewrite minus_IZR, mult_IZR; lra). apply F64_halves. lia.
    - replace (IZR p + 1/2) with (IZR (2 * p + 1) / 2) by (rewrite plus_IZR, mult_IZR; lra). apply F64_halves. lia. }
  unfold f_reach. set (d := fsub x (1/2)) in *. cbn [fst snd].
  assert (A : (Zceil (fsub d w) <= p)%Z). { apply Zceil_glb. unfold fsub at 1. apply fl_le_r; [apply F64_IZR; lia|lra]. }
  assert (B : (p <= Zfloor (fadd d w))%Z). { apply Zfloor_lub. unfold fadd. apply fl_le_l; [apply F64_IZR; lia|lra]. }
  lia.
Qed.
Print Assumptions C248_reached.
Theorem C248_in_bounds (w winv x : R) (start cnt k : Z) :
  (fst (f_reach w x start cnt) <= k <= snd (f_reach w x start cnt) -> 0 <= k - start < cnt)%Z /\ (0 <= f_entry winv x k <= 15)%Z.
Proof.
  split.
  - unfold f_reach. cbn [fst snd]. lia.
  - unfold f_entry. assert (0 <= Zfloor (Rabs (fmul (fmul (fsub (IZR k) (fsub x (1/2))) 16) winv)))%Z by (apply Zfloor_lub, Rabs_pos). lia.
Qed.
Print Assumptions C248_in_bounds.
(** the whole way from a draw to the pixel it was made for *)
Theorem C248_own_pixel (n i p start cnt : Z) (u w : R) :
  (1 <= n <= 2 ^ 53)%Z -> (0 <= i < n)%Z -> (Z.abs p < 2 ^ 51)%Z -> 0 <= u < 1 -> F64 u -> 1/2 <= w -> (start <= p < start + cnt)%Z ->
  (fst (f_reach w (f_image n i p u) start cnt) <= p <= snd (f_reach w (f_image n i p u) start cnt))%Z.
Proof. intros. apply C248_reached; auto. apply C247_pixel_partial; auto. lia. Qed.
Print Assumptions C248_own_pixel.
Example C246_meets : (2 <= 4 <= 2 ^ 53)%Z /\ F64 (1/2) /\ 0 <= 1/2 < 1 /\ (0 <= 1 < 2)%Z /\ (Z.abs 7 < 2 ^ 51)%Z.
Proof. split; [lia|]. split; [apply F64_half|]. split; [lra|]. lia. Qed.

(** ** C249 interpolation and sample times *)
Theorem C249_ends_partial (a b : R) : F64 a -> F64 b -> f_lerp 0 a b = a /\ f_lerp 1 a b = b.
Proof.
  intros Fa Fb. unfold f_lerp, fadd, fsub, fmul. split.
  - rewrite Rminus_0_r, (fl_id 1 F64_1), Rmult_1_l, (fl_id a Fa), Rmult_0_l, fl_0, Rplus_0_r. now apply fl_id.
  - replace (1 - 1) with 0 by ring. rewrite fl_0, Rmult_0_l, fl_0, Rmult_1_l, (fl_id b Fb), Rplus_0_l. now apply fl_id.
Qed.
(** between end points on both sides of zero (a shutter opening at time 0, say) the result stays in range, and so do the
    times of stratified samples *)
Theorem C249_zero_partial (t a b : R) : F64 a -> F64 b -> 0 <= t <= 1 -> a <= 0 <= b -> a <= f_lerp t a b <= b.
Proof.
  intros Fa Fb Ht Hab. unfold f_lerp, fadd, fsub, fmul.
  assert (S : 0 <= fl (1 - t) <= 1) by (split; [apply fl_nonneg; lra|apply fl_le_r; [apply F64_1|lra]]).
  assert (A : a <= fl (fl (1 - t) * a) <= 0) by (split; [apply fl_le_l; [auto|nra]|apply fl_nonpos; nra]).
  assert (B : 0 <= fl (t * b) <= b) by (split; [apply fl_nonneg; nra|apply fl_le_r; [auto|nra]]).
  split; [apply fl_le_l|apply fl_le_r]; auto; lra.
Qed.
Theorem C249_times_partial (n i : Z) (u a b : R) : F64 a -> F64 b -> a <= 0 <= b ->
  (1 <= n <= 2 ^ 53)%Z -> (0 <= i < n)%Z -> 0 <= u < 1 -> a <= f_time n i u a b <= b.
Proof.
  intros Fa Fb Hab Hn Hi Hu. unfold f_time. apply C249_zero_partial; auto.
  assert (N0 : 0 < IZR n) by (apply IZR_lt; lia).
  assert (A : IZR i <= fadd (IZR i) u <= IZR (i + 1)).
  { unfold fadd. split; [apply fl_le_l|apply fl_le_r]; try (apply F64_IZR; lia); rewrite ?plus_IZR; lra. }
  assert (I0 : 0 <= IZR i) by (apply IZR_le; lia). assert (I1 : IZR (i + 1) <= IZR n) by (apply IZR_le; lia).
  unfold f_stratum, fdiv. split; [apply fl_nonneg, div_ge0; lra|apply fl_le_r; [apply F64_1|]; apply div_le1; lra].
Qed.
Print Assumptions C249_ends_partial.
Print Assumptions C249_zero_partial.
Print Assumptions C249_times_partial.
(** always, it is within a few units in the last place of the exact value *)
Theorem C249_error_partial (t a b M : R) : F64 a -> F64 b -> 0 <= t <= 1 -> Rabs a <= M -> Rabs b <= M ->
  Rabs (f_lerp t a b - ((1 - t) * a + t * b)) <= bpow radix2 (-50) * M + bpow radix2 (-1073).
Proof.
  intros Fa Fb Ht Ha Hb. set (eps := bpow radix2 (-53)). set (eta := bpow radix2 (-1075)).
  assert (E0 : 0 < eps) by apply bpow_gt_0. assert (H0 : 0 < eta) by apply bpow_gt_0.
  assert (HE : eta <= eps) by (apply bpow_le; lia). assert (M0 : 0 <= M) by (pose proof (Rabs_pos a); lra).
  assert (B50 : bpow radix2 (-50) = 8 * eps). { unfold eps. change (-50)%Z with (3 + -53)%Z. rewrite bpow_plus. change (bpow radix2 3) with 8. reflexivity. }
  assert (B73 : bpow radix2 (-1073) = 4 * eta). { unfold eta. change (-1073)%Z with (2 + -1075)%Z. rewrite bpow_plus. change (bpow radix2 2) with 4. reflexivity. }
  rewrite B50, B73. unfold f_lerp, fadd, fsub, fmul. set (s := fl (1 - t)). set (p := fl (s * a)). set (q := fl (t * b)).
  assert (S : 0 <= s <= 1) by (split; [apply fl_nonneg; lra|apply fl_le_r; [apply F64_1|lra]]).
  assert (S1 : Rabs (s - (1 - t)) <= eps + eta).
  { eapply Rle_trans; [apply fl_dist|]. fold eps eta. rewrite (Rabs_right (1 - t)) by lra. nra. }
  assert (PA : Rabs p <= Rabs a). { apply fl_abs_le; [now apply F64_abs|]. rewrite Rabs_mult, (Rabs_right s) by lra. pose proof (Rabs_pos a). nra. }
  assert (QB : Rabs q <= Rabs b). { apply fl_abs_le; [now apply F64_abs|]. rewrite Rabs_mult, (Rabs_right t) by lra. pose proof (Rabs_pos b). nra. }
  assert (P1 : Rabs (p - s * a) <= eps * M + eta).
  { eapply Rle_trans; [apply fl_dist|]. fold eps eta. rewrite Rabs_mult, (Rabs_right s) by lra. pose proof (Rabs_pos a). assert (s * Rabs a <= M) by nra. nra. }
  assert (Q1 : Rabs (q - t * b) <= eps * M + eta).
  { eapply Rle_trans; [apply fl_dist|]. fold eps eta. rewrite Rabs_mult, (Rabs_right t) by lra. pose proof (Rabs_pos b). assert (t * Rabs b <= M) by nra. nra. }
  assert (R1 : Rabs (fl (p + q) - (p + q)) <= eps * (2 * M) + eta).
  { eapply Rle_trans; [apply fl_dist|]. fold eps eta. pose proof (Rabs_triang p q). assert (Rabs (p + q) <= 2 * M) by lra. nra. }
  replace (fl (p + q) - ((1 - t) * a + t * b)) with ((fl (p + q) - (p + q)) + (p - s * a) + (q - t * b) + (s - (1 - t)) * a) by ring.
  eapply Rle_trans; [apply Rabs_triang|]. eapply Rle_trans; [apply Rplus_le_compat_r; eapply Rle_trans; [apply Rabs_triang|apply Rplus_le_compat_r, Rabs_triang]|].
  assert (X : Rabs ((s - (1 - t)) * a) <= (eps + eta) * M). { rewrite Rabs_mult. apply Rmult_le_compat; try apply Rabs_pos; lra. }
  assert (eta * M <= eps * M) by nra. assert (0 <= eps * M) by nra. lra.
Qed.
Print Assumptions C249_error_partial.
(** otherwise it can leave the interval: between 3 and 3, at one fifth, it is not 3 *)
Theorem C249_range_refuted : exists t, F64 t /\ 0 < t < 1 /\ F64 3 /\ 3 < f_lerp t 3 3.
Proof.
  set (t := IZR 3602879701896397 / IZR (2 ^ 54)). assert (ET : t = 3602879701896397 / 18014398509481984) by reflexivity.
  assert (FT : F64 t) by (apply F64_dyadic; lia). exists t. split; [exact FT|]. split; [rewrite ET; lra|]. split; [apply F64_IZR; lia|].
  unfold f_lerp, fadd, fsub, fmul.
  assert (E1 : fl (1 - t) = 7205759403792794 / 9007199254740992).
  { change (7205759403792794 / 9007199254740992) with (IZR (if Z.even 7205759403792793 then 7205759403792793 else 7205759403792793 + 1) / IZR (2 ^ 53)).
    apply fl_tie; [lia| | |]; pow2; rewrite ET; lra. }
  assert (E2 : fl (7205759403792794 / 9007199254740992 * 3) = 5404319552844596 / 2251799813685248).
  { change (5404319552844596 / 2251799813685248) with (IZR (if Z.even 5404319552844595 then 5404319552844595 else 5404319552844595 + 1) / IZR (2 ^ 51)).
    apply fl_tie; [lia| | |]; pow2; lra. }
  assert (E3 : fl (t * 3) = 5404319552844596 / 9007199254740992).
  { change (5404319552844596 / 9007199254740992) with (IZR (if Z.even 5404319552844595 then 5404319552844595 else 5404319552844595 + 1) / IZR (2 ^ 53)).
    apply fl_tie; [lia| | |]; pow2; rewrite ?ET; lra. }
  rewrite E1, E2, E3. replace (5404319552844596 / 2251799813685248 + 5404319552844596 / 9007199254740992) with (IZR 6755399441055745 / IZR (2 ^ 51)) by (pow2; lra).
  rewrite fl_id by (apply F64_dyadic; lia). pow2. lra.
Qed.
Print Assumptions C249_range_refuted.

(** ** C250 image bytes *)
Lemma byte_quotient c x : F64 c -> 0 < c -> 0 <= x <= c -> 0 <= fdiv (fmul 255 x) c <= 511/2.
Proof.
  intros Fc Hc Hx. unfold fdiv, fmul. split.
  - apply fl_nonneg, div_ge0; [auto|]. apply fl_nonneg. lra.
  - apply Rle_trans with (fl (fl (255 * c) / c)); [apply fl_le, div_le; [auto|]; apply fl_le; lra|].
    apply fl_le_r; [apply (F64_dyadic 511 1); lia|]. destruct (scale8 c Fc Hc) as (e & A & B). unfold fmul in B. rewrite B.
    replace (255 * c * (1 + e) / c) with (255 * (1 + e)) by (field; lra). apply Rabs_le_inv in A. change (-53)%Z with (Z.opp 53) in A. rewrite bpow_opp, bpow_pow in A by lia. pow2. lra.
Qed.
Lemma byte_eq c x : F64 c -> 0 < c -> 0 <= x <= c -> f_byte c x = Zfloor (fdiv (fmul 255 x) c) /\ (0 <= Zfloor (fdiv (fmul 255 x) c) <= 255)%Z.
Proof.
  intros Fc Hc Hx. destruct (byte_quotient c x Fc Hc Hx) as [A B]. unfold f_byte. rewrite Ztrunc_floor by auto.
  assert (C : (0 <= Zfloor (fdiv (fmul 255 x) c) <= 255)%Z).
  { split; [apply Zfloor_lub; exact A|]. apply Z.lt_succ_r. apply lt_IZR. eapply Rle_lt_trans; [apply Zfloor_lb|]. eapply Rle_lt_trans; [exact B|]. change (IZR (Z.succ 255)) with 256. lra. }
  split; [|exact C]. apply Z.mod_small. lia.
Qed.
(** No value wraps around, the order of the values is kept, zero stays zero and the brightest value gets 254 or 255. *)
Theorem C250_bytes_partial (c x y : R) : F64 c -> 0 < c -> 0 <= x <= y -> y <= c ->
  f_byte c x = Ztrunc (fdiv (fmul 255 x) c) /\ (0 <= f_byte c x <= f_byte c y)%Z /\ (f_byte c y <= 255)%Z /\ f_byte c 0 = 0%Z /\
  (f_byte c c = 254 \/ f_byte c c = 255)%Z.
Proof.
  intros Fc Hc Hx Hy. destruct (byte_eq c x Fc Hc ltac:(lra)) as [A1 A2]. destruct (byte_eq c y Fc Hc ltac:(lra)) as [B1 B2].
  destruct (byte_eq c 0 Fc Hc ltac:(lra)) as [C1 C2]. destruct (byte_eq c c Fc Hc ltac:(lra)) as [D1 D2].
  split. { rewrite A1. symmetry. apply Ztrunc_floor. apply (byte_quotient c x Fc Hc). lra. }
  split. { rewrite A1, B1. split; [lia|]. apply Zfloor_le. unfold fdiv, fmul. apply fl_le, div_le; [auto|]. apply fl_le. lra. }
  split; [lia|]. split. { rewrite C1. unfold fdiv, fmul. rewrite Rmult_0_r, fl_0. unfold Rdiv. rewrite Rmult_0_l, fl_0. apply (Zfloor_IZR 0). }
  assert (254 <= f_byte c c)%Z; [|lia]. rewrite D1. apply Zfloor_lub. unfold fdiv. apply fl_le_l; [apply F64_IZR; lia|].
  destruct (scale8 c Fc Hc) as (e & A & B). rewrite B. replace (255 * c * (1 + e) / c) with (255 * (1 + e)) by (field; lra). apply Rabs_le_inv in A. change (-53)%Z with (Z.opp 53) in A. rewrite bpow_opp, bpow_pow in A by lia. pow2. lra.
Qed.
Print Assumptions C250_bytes_partial.
(** The brightest value of a channel can get 254. *)
Theorem C250_brightest_refuted : exists c, F64 c /\ 0 < c /\ f_byte c c = 254%Z.
Proof.
  set (c := 60739238668659 / 1024). assert (EC : c = 60739238668659 / 1024) by reflexivity.
  assert (FC : F64 c) by (apply (F64_dyadic 60739238668659 10); lia). exists c. split; [exact FC|]. split; [rewrite EC; lra|].
  destruct (byte_eq c c FC) as [-> _]; try (rewrite EC; lra).
  assert (E : fmul 255 c = 7744252930254022 / 512).
  { unfold fmul. change (7744252930254022 / 512) with (IZR (if Z.even 7744252930254022 then 7744252930254022 else 7744252930254022 + 1) / IZR (2 ^ 9)).
    apply fl_tie; [lia| | |]; pow2; change (2 ^ 9)%Z with 512%Z; rewrite EC; lra. }
  assert (E2 : fdiv (fmul 255 c) c = 8972014882652159 / 35184372088832).
  { rewrite E. unfold fdiv. change (8972014882652159 / 35184372088832) with (IZR 8972014882652159 / IZR (2 ^ 45)).
    replace (7744252930254022 / 512 / c) with (15488505860508044 / 60739238668659) by (rewrite EC; field).
    apply fl_eval; [lia| | |]; pow2; change (2 ^ 45)%Z with 35184372088832%Z; try lra. apply Rabs_def1; lra. }
  rewrite E2. apply Zfloor_imp. change (IZR (254 + 1)) with 255. lra.
Qed.
Print Assumptions C250_brightest_refuted.
