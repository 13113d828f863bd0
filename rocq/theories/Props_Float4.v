(** Float64 arithmetic, continued: C262, C268: normalisation. *)
From Coq Require Import Reals ZArith List Bool Lra Lia.
From Flocq Require Import Core.
From Verif Require Base.
Import Base(V3, vec, vneg, vzero, vdot, mkV, vx, vy, vz, Rltb, Reqb, Rleb).
From Verif Require Import M_Float M_Float2 P_Float Props_Float3.
Import ListNotations.
Open Scope R_scope.

Section Rel.
  Variables u h : R.
  Hypotheses (U : 0 < u <= /1000) (H : 0 < h).
  Lemma p1 : 1 - 4 * u <= (1 - u * (101/100)) * ((1 - u) * (1 - u)). Proof. clear h H. nra. Qed.
  Lemma p2 : (1 + u * (101/100)) * ((1 + u) * (1 + u)) <= 1 + 4 * u.
  Proof. clear h H. assert (0 <= u * u <= u / 1000) by nra. replace ((1 + u * (101/100)) * ((1 + u) * (1 + u))) with (1 + 301/100 * u + 302/100 * (u * u) + (101/100) * (u * (u * u))) by field. assert (u * (u * u) <= u * u) by nra. lra. Qed.
  Lemma p3 : 1 - 7 * u <= (1 - 4 * u) * ((1 - u) * (1 - u)). Proof. clear h H. nra. Qed.
  Lemma p4 : (1 + 4 * u) * ((1 + u) * (1 + u)) <= 1 + 7 * u.
  Proof. clear h H. assert (0 <= u * u <= u / 1000) by nra. assert (u * (u * u) <= u * u) by nra. replace ((1 + 4 * u) * ((1 + u) * (1 + u))) with (1 + 6 * u + 9 * (u * u) + 4 * (u * (u * u))) by ring. lra. Qed.
  Lemma p5 : 0 < (1 - u) * (1 - u) /\ 0 < (1 + u) * (1 + u). Proof. clear h H. split; nra. Qed.
  (** three rounded squares, added in turn *)
  Lemma sq_bound S tx ty tz x y z p s : S = x * x + y * y + z * z -> h * 300 <= u * S -> 
    Rabs (tx - x * x) <= u * (x * x) + h -> Rabs (ty - y * y) <= u * (y * y) + h -> Rabs (tz - z * z) <= u * (z * z) + h ->
    0 <= tx -> 0 <= ty -> 0 <= tz -> Rabs (p - (tx + ty)) <= u * (tx + ty) -> Rabs (s - (p + tz)) <= u * (p + tz) ->
    S * (1 - 4 * u) <= s <= S * (1 + 4 * u).
  Proof.
    intros E B X Y Z TX TY TZ P Q. apply Rabs_le_inv in X, Y, Z, P, Q. assert (HS : 0 < S) by nra.
    set (T := tx + ty + tz). assert (T1 : S * (1 - u) - 3 * h <= T <= S * (1 + u) + 3 * h) by (unfold T; rewrite E; lra).
    assert (T2 : T * (1 - u) <= p + tz <= T * (1 + u)) by (unfold T; nra).
    assert (T0 : 0 <= T) by (unfold T; lra).
    assert (Q1 : (p + tz) * (1 - u) <= s <= (p + tz) * (1 + u)) by lra.
    assert (A1 : (T * (1 - u)) * (1 - u) <= (p + tz) * (1 - u)) by (apply Rmult_le_compat_r; lra).
    assert (A2 : (p + tz) * (1 + u) <= (T * (1 + u)) * (1 + u)) by (apply Rmult_le_compat_r; lra).
    assert (B1 : S * (1 - u * (101/100)) <= T <= S * (1 + u * (101/100))) by lra.
    assert (C1 : (1 - 4 * u) <= (1 - u * (101/100)) * ((1 - u) * (1 - u))) by apply p1.
    assert (C2 : (1 + u * (101/100)) * ((1 + u) * (1 + u)) <= 1 + 4 * u) by apply p2.
    destruct p5 as (K1 & K2).
    assert (D1 : S * (1 - u * (101/100)) * ((1 - u) * (1 - u)) <= T * ((1 - u) * (1 - u))) by (apply Rmult_le_compat_r; lra).
    assert (D2 : T * ((1 + u) * (1 + u)) <= S * (1 + u * (101/100)) * ((1 + u) * (1 + u))) by (apply Rmult_le_compat_r; lra).
    assert (F1 : S * (1 - 4 * u) <= S * ((1 - u * (101/100)) * ((1 - u) * (1 - u)))) by (apply Rmult_le_compat_l; lra).
    assert (F2 : S * ((1 + u * (101/100)) * ((1 + u) * (1 + u))) <= S * (1 + 4 * u)) by (apply Rmult_le_compat_l; lra).
    lra.
  Qed.
  Lemma len_bound S s r l : 0 < S -> S * (1 - 4 * u) <= s <= S * (1 + 4 * u) -> 0 <= r -> r * r = s -> Rabs (l - r) <= u * r ->
    0 < l /\ S * (1 - 7 * u) <= l * l <= S * (1 + 7 * u).
  Proof.
    intros HS B R0 E P. apply Rabs_le_inv in P. assert (0 < s) by nra. assert (0 < r) by nra. assert (L : 0 < l) by nra. split; [exact L|].
    assert (A1 : (r * (1 - u)) * (r * (1 - u)) <= l * l) by (apply Rmult_le_compat; nra). assert (A2 : l * l <= (r * (1 + u)) * (r * (1 + u))) by (apply Rmult_le_compat; lra).
    replace ((r * (1 - u)) * (r * (1 - u))) with (s * ((1 - u) * (1 - u))) in A1 by (rewrite <- E; ring).
    replace ((r * (1 + u)) * (r * (1 + u))) with (s * ((1 + u) * (1 + u))) in A2 by (rewrite <- E; ring).
    destruct p5 as (K1 & K2).
    assert (D1 : S * (1 - 4 * u) * ((1 - u) * (1 - u)) <= s * ((1 - u) * (1 - u))) by (apply Rmult_le_compat_r; lra).
    assert (D2 : s * ((1 + u) * (1 + u)) <= S * (1 + 4 * u) * ((1 + u) * (1 + u))) by (apply Rmult_le_compat_r; lra).
    assert (C1 : 1 - 7 * u <= (1 - 4 * u) * ((1 - u) * (1 - u))) by apply p3.
    assert (C2 : (1 + 4 * u) * ((1 + u) * (1 + u)) <= 1 + 7 * u) by apply p4.
    assert (F1 : S * (1 - 7 * u) <= S * ((1 - 4 * u) * ((1 - u) * (1 - u)))) by (apply Rmult_le_compat_l; lra).
    assert (F2 : S * ((1 + 4 * u) * ((1 + u) * (1 + u))) <= S * (1 + 7 * u)) by (apply Rmult_le_compat_l; lra).
    lra.
  Qed.
  (** the quotient of one component *)
  Lemma comp_bound L l x n : 0 < L -> 0 < l -> L * L * (1 - 7 * u) <= l * l <= L * L * (1 + 7 * u) -> Rabs x <= L ->
    Rabs (n - x / l) <= u * Rabs (x / l) + h -> h * 100 <= u -> Rabs (n - x / L) <= 10 * u.
  Proof.
    intros HL Hl B X N T.
    assert (B1 : L * (1 - 7 * u) <= l) by (destruct (Rle_dec (L * (1 - 7 * u)) l) as [?|G]; [assumption|apply Rnot_le_lt in G; exfalso; assert (l * l < (L * (1 - 7 * u)) * (L * (1 - 7 * u))) by nra; assert ((L * (1 - 7 * u)) * (L * (1 - 7 * u)) <= L * L * (1 - 7 * u)) by (replace ((L * (1 - 7 * u)) * (L * (1 - 7 * u))) with (L * L * ((1 - 7 * u) * (1 - 7 * u))) by ring; apply Rmult_le_compat_l; nra); lra]).
    assert (B2 : l <= L * (1 + 7 * u)) by (destruct (Rle_dec l (L * (1 + 7 * u))) as [?|G]; [assumption|apply Rnot_le_lt in G; exfalso; assert ((L * (1 + 7 * u)) * (L * (1 + 7 * u)) < l * l) by nra; assert (L * L * (1 + 7 * u) <= (L * (1 + 7 * u)) * (L * (1 + 7 * u))) by (replace ((L * (1 + 7 * u)) * (L * (1 + 7 * u))) with (L * L * ((1 + 7 * u) * (1 + 7 * u))) by ring; apply Rmult_le_compat_l; nra); lra]).
    set (a := x / l) in *. assert (Ex : x = a * l) by (unfold a; field; lra). set (b := x / L) in *. assert (Eb : x = b * L) by (unfold b; field; lra).
    assert (Ab : Rabs b <= 1). { unfold b. unfold Rdiv. rewrite Rabs_mult, Rabs_inv, (Rabs_right L) by lra. apply (div_le1 (Rabs x) L); lra. }
    assert (Aa : Rabs a <= 1 + 8 * u). { assert (E : Rabs a * l = Rabs b * L). { rewrite <- (Rabs_right l) at 1 by lra. rewrite <- (Rabs_right L) at 1 by lra. rewrite <- !Rabs_mult, <- Ex, <- Eb. reflexivity. }
      destruct (Rle_dec (Rabs a) (1 + 8 * u)) as [?|G]; [assumption|apply Rnot_le_lt in G; exfalso].
      assert ((1 + 8 * u) * (L * (1 - 7 * u)) < Rabs a * l) by (assert (0 < L * (1 - 7 * u)) by nra; nra). assert (L <= (1 + 8 * u) * (L * (1 - 7 * u))) by (replace ((1 + 8 * u) * (L * (1 - 7 * u))) with (L * ((1 + 8 * u) * (1 - 7 * u))) by ring; rewrite <- (Rmult_1_r L) at 1; apply Rmult_le_compat_l; nra). nra. }
    (* |a - b| L = |a||L - l| *)
    assert (D : Rabs (a - b) <= 8 * u).
    { assert (E : (a - b) * L = a * (L - l)) by (replace ((a - b) * L) with (a * L - b * L) by ring; rewrite <- Eb, Ex; ring).
      assert (E' : Rabs (a - b) * L = Rabs a * Rabs (L - l)) by (rewrite <- (Rabs_right L) at 1 by lra; rewrite <- !Rabs_mult; now f_equal).
      assert (G : Rabs (L - l) <= 7 * u * L) by (apply Rabs_le; lra). pose proof (Rabs_pos a). pose proof (Rabs_pos (L - l)).
      assert (Rabs a * Rabs (L - l) <= (1 + 8 * u) * (7 * u * L)) by (apply Rmult_le_compat; lra). assert ((1 + 8 * u) * (7 * u * L) <= 8 * u * L) by (replace ((1 + 8 * u) * (7 * u * L)) with (((1 + 8 * u) * (7 * u)) * L) by ring; apply Rmult_le_compat_r; nra).
      apply Rmult_le_reg_r with L; lra. }
    replace (n - b) with ((n - a) + (a - b)) by ring. eapply Rle_trans; [apply Rabs_triang|]. nra.
  Qed.
  Lemma unit_bound a b c x y z : a * a + b * b + c * c = 1 -> Rabs (x - a) <= 10 * u -> Rabs (y - b) <= 10 * u -> Rabs (z - c) <= 10 * u ->
    Rabs (sqrt (x * x + y * y + z * z) - 1) <= 64 * u.
  Proof.
    intros E X Y Z. set (q := x * x + y * y + z * z).
    assert (D : Rabs (q - 1) <= 63 * u).
    { unfold q. replace (x * x + y * y + z * z - 1) with ((x - a) * (2 * a + (x - a)) + (y - b) * (2 * b + (y - b)) + (z - c) * (2 * c + (z - c))) by (rewrite <- E; ring).
      assert (K : forall d e, Rabs d <= 10 * u -> Rabs e <= 1 -> Rabs (d * (2 * e + d)) <= 21 * u).
      { intros d e D G. rewrite Rabs_mult. pose proof (Rabs_triang (2 * e) d) as T. rewrite Rabs_mult, (Rabs_right 2) in T by lra. pose proof (Rabs_pos d). pose proof (Rabs_pos (2 * e + d)).
        assert (Rabs d * Rabs (2 * e + d) <= (10 * u) * (2 + 10 * u)) by (apply Rmult_le_compat; lra). nra. }
      assert (A : Rabs a <= 1) by (apply Rabs_le; nra). assert (B : Rabs b <= 1) by (apply Rabs_le; nra). assert (C : Rabs c <= 1) by (apply Rabs_le; nra).
      pose proof (K _ _ X A) as KX. pose proof (K _ _ Y B) as KY. pose proof (K _ _ Z C) as KZ.
      eapply Rle_trans; [apply Rabs_triang|]. eapply Rle_trans; [apply Rplus_le_compat_r, Rabs_triang|]. lra. }
    apply Rabs_le_inv in D. assert (Q0 : 0 <= q) by (unfold q; nra). pose proof (sqrt_pos q) as P. pose proof (sqrt_sqrt q Q0) as W. set (r := sqrt q) in *. clearbody r. apply Rabs_le. split; nra.
  Qed.
End Rel.

Definition big (x : R) : Prop := bpow radix2 (-500) <= Rabs x.
Lemma fl_dist2 x : Rabs (fl (x * x) - x * x) <= bpow radix2 (-53) * (x * x) + bpow radix2 (-1075).
Proof. pose proof (fl_dist (x * x)) as D. rewrite (Rabs_right (x * x)) in D by nra. exact D. Qed.
Lemma scale_tiny S : bpow radix2 (-1000) <= S -> bpow radix2 (-1075) * 300 <= bpow radix2 (-53) * S.
Proof.
  intros HS. assert (A : bpow radix2 (-53) * bpow radix2 (-1000) <= bpow radix2 (-53) * S) by (apply Rmult_le_compat_l; [apply bpow_ge_0|exact HS]).
  eapply Rle_trans; [|exact A]. rewrite <- bpow_plus. replace (-53 + -1000)%Z with (-1075 + 22)%Z by reflexivity. rewrite bpow_plus. apply Rmult_le_compat_l; [apply bpow_ge_0|]. rewrite bpow_pow by lia. apply IZR_le. vm_compute. discriminate.
Qed.
Lemma u_small : 0 < bpow radix2 (-53) <= / 1000. Proof. rewrite u53. bignum. lra. Qed.

(** ** C262: a vector with at least one component of size 2^-500 or more is brought to length 1, up to 2^-47, in its own
    direction; the zero vector is left as it is *)
Theorem C262_unit (v : vec) : F64v v -> big (vx v) \/ big (vy v) \/ big (vz v) ->
  let L := sqrt (vdot v v) in let n := f_normalize v in
  Rabs (sqrt (vdot n n) - 1) <= / IZR (2 ^ 47) /\
  Rabs (vx n - vx v / L) <= / IZR (2 ^ 49) /\ Rabs (vy n - vy v / L) <= / IZR (2 ^ 49) /\ Rabs (vz n - vz v / L) <= / IZR (2 ^ 49).
Proof.
  intros _ HB. destruct v as [x y z]. cbn [vx vy vz] in *. cbv zeta.
  replace (vdot (mkV x y z) (mkV x y z)) with (x * x + y * y + z * z) by (unfold vdot; cbn [vx vy vz]; ring).
  set (S := x * x + y * y + z * z).
  assert (HS : bpow radix2 (-1000) <= S).
  { assert (K : forall w, big w -> bpow radix2 (-1000) <= w * w).
    { intros w W. replace (-1000)%Z with (-500 + -500)%Z by reflexivity. rewrite bpow_plus. replace (w * w) with (Rabs w * Rabs w) by (rewrite <- Rabs_mult, Rabs_right; nra). pose proof (bpow_ge_0 radix2 (-500)). unfold big in W. apply Rmult_le_compat; assumption. }
    unfold S. destruct HB as [B|[B|B]]; apply K in B; nra. }
  pose proof u_small as U. pose proof (bpow_gt_0 radix2 (-1075)) as H0. pose proof (scale_tiny S HS) as T. pose proof (bpow_gt_0 radix2 (-1000)) as P1000.
  set (u := bpow radix2 (-53)) in *. set (h := bpow radix2 (-1075)) in *.
  assert (NN : forall w, 0 <= fmul w w) by (intros w; apply fl_nonneg; nra).
  assert (AR : forall p q, F64 p -> F64 q -> 0 <= p -> 0 <= q -> Rabs (fadd p q - (p + q)) <= u * (p + q)).
  { intros p q P Q P0 Q0. pose proof (fadd_rel p q P Q) as D. rewrite (Rabs_right (p + q)) in D by lra. exact D. }
  assert (SB : S * (1 - 4 * u) <= f_sqlen (mkV x y z) <= S * (1 + 4 * u)).
  { unfold f_sqlen. cbn [vx vy vz].
    apply (sq_bound u h U H0 S (fmul x x) (fmul y y) (fmul z z) x y z (fadd (fmul x x) (fmul y y))); try apply fl_dist2; try apply NN; [reflexivity|exact T| |].
    - apply AR; try apply fmul_F; apply NN.
    - apply AR; [apply fadd_F|apply fmul_F| |apply NN]. apply fl_nonneg. pose proof (NN x). pose proof (NN y). lra. }
  set (s := f_sqlen (mkV x y z)) in *. assert (HS0 : 0 < S) by lra. assert (s0 : bpow radix2 (-1001) <= s).
  { replace (-1001)%Z with (-1000 + -1)%Z by reflexivity. rewrite bpow_plus. replace (bpow radix2 (-1)) with (/ 2) by (cbn; lra). nra. }
  assert (s00 : 0 < s) by (pose proof (bpow_gt_0 radix2 (-1001)); lra).
  assert (LB : Rabs (f_len (mkV x y z) - sqrt s) <= u * sqrt s).
  { unfold f_len. fold s. unfold fsqrt. destruct (fl_rel (sqrt s)) as (e & E & F).
    - rewrite Rabs_right by (apply Rle_ge, sqrt_pos). apply Rle_trans with (sqrt (bpow radix2 (-1002))).
      + replace (-1002)%Z with (-501 + -501)%Z by reflexivity. rewrite bpow_plus, sqrt_square by apply bpow_ge_0. apply bpow_le. lia.
      + apply sqrt_le_1_alt. eapply Rle_trans; [|exact s0]. apply bpow_le. lia.
    - rewrite F. replace (sqrt s * (1 + e) - sqrt s) with (e * sqrt s) by ring. rewrite Rabs_mult, (Rabs_right (sqrt s)) by (apply Rle_ge, sqrt_pos). apply Rmult_le_compat_r; [apply sqrt_pos|exact E]. }
  destruct (len_bound u U S s (sqrt s) (f_len (mkV x y z)) HS0 SB (sqrt_pos s) (sqrt_sqrt s (Rlt_le _ _ s00)) LB) as (L0 & L2).
  unfold f_normalize. cbv zeta. set (l := f_len (mkV x y z)) in *. destruct (Reqb l 0) eqn:Z0; [apply Base.Reqb_true in Z0; lra|].
  cbn [vx vy vz].
  assert (SS : sqrt S * sqrt S = S) by (apply sqrt_sqrt; lra). assert (SP : 0 < sqrt S) by (apply sqrt_lt_R0; lra). set (L := sqrt S) in *.
  rewrite <- SS in L2.
  assert (T2 : h * 100 <= u). { unfold h, u. replace (-53)%Z with (-1075 + 1022)%Z by reflexivity. rewrite bpow_plus. apply Rmult_le_compat_l; [apply bpow_ge_0|]. rewrite bpow_pow by lia. apply IZR_le. vm_compute. discriminate. }
  assert (CB : forall w, Rabs w <= L -> Rabs (fdiv w l - w / L) <= 10 * u).
  { intros w W. apply (comp_bound u h U H0 L l w (fdiv w l) SP L0 L2 W); [apply fl_dist|exact T2]. }
  assert (IN : forall w, w * w <= S -> Rabs w <= L). { intros w W. unfold L. rewrite <- sqrt_Rsqr_abs. apply sqrt_le_1_alt. unfold Rsqr. exact W. }
  assert (BX : Rabs (fdiv x l - x / L) <= 10 * u) by (apply CB, IN; unfold S; nra).
  assert (BY : Rabs (fdiv y l - y / L) <= 10 * u) by (apply CB, IN; unfold S; nra).
  assert (BZ : Rabs (fdiv z l - z / L) <= 10 * u) by (apply CB, IN; unfold S; nra).
  assert (E1 : x / L * (x / L) + y / L * (y / L) + z / L * (z / L) = 1).
  { replace (x / L * (x / L) + y / L * (y / L) + z / L * (z / L)) with (S / (L * L)) by (unfold S; field; lra). rewrite SS. field. lra. }
  pose proof (unit_bound u U _ _ _ _ _ _ E1 BX BY BZ) as UB.
  assert (Eu : u = / IZR (2 ^ 53)) by apply u53. 
  split; [|split; [|split]].
  - replace (vdot (mkV (fdiv x l) (fdiv y l) (fdiv z l)) (mkV (fdiv x l) (fdiv y l) (fdiv z l))) with (fdiv x l * fdiv x l + fdiv y l * fdiv y l + fdiv z l * fdiv z l) by (unfold vdot; cbn [vx vy vz]; ring).
    eapply Rle_trans; [exact UB|]. rewrite Eu. change (2 ^ 47)%Z with 140737488355328%Z. bignum. lra.
  - eapply Rle_trans; [exact BX|]. rewrite Eu. bignum. lra.
  - eapply Rle_trans; [exact BY|]. rewrite Eu. bignum. lra.
  - eapply Rle_trans; [exact BZ|]. rewrite Eu. bignum. lra.
Qed.
Print Assumptions C262_unit.
Lemma reqb00 : Reqb 0 0 = true. Proof. now apply Base.Reqb_true. Qed.
Theorem C262_zero : f_normalize vzero = vzero.
Proof.
  unfold f_normalize, f_len, f_sqlen, vzero. cbn [vx vy vz]. rewrite !fmul_0, !fadd_0_l by apply F64_0. unfold fsqrt. rewrite sqrt_0, fl_0, reqb00. reflexivity.
Qed.
Print Assumptions C262_zero.
(** ** C268: a vector so short that its square is lost keeps its length *)
Lemma square_lost t : Rabs t <= bpow radix2 (-538) -> fmul t t = 0.
Proof.
  intros H. assert (E : t * t = Rabs t * Rabs t) by (rewrite <- Rabs_mult, Rabs_right; nra). unfold fmul. rewrite E. pose proof (Rabs_pos t) as P. set (a := Rabs t) in *. clearbody a. clear E.
  assert (B : a * a <= bpow radix2 (-1076)) by (replace (-1076)%Z with (-538 + -538)%Z by reflexivity; rewrite bpow_plus; apply Rmult_le_compat; assumption).
  destruct (Req_dec (a * a) 0) as [Z|Z]; [rewrite Z; apply fl_0|]. assert (Q : 0 < a * a) by nra.
  destruct (mag radix2 (a * a)) as [e He]. specialize (He Z). rewrite (Rabs_right (a * a)) in He by lra.
  unfold fl. apply (round_N_small_pos radix2 fexp64 (fun x => negb (Z.even x)) (a * a) e He).
  assert (e - 1 <= -1076)%Z by (apply (le_bpow radix2); lra). unfold fexp64, FLT_exp. lia.
Qed.
Theorem C268_short_partial (v : vec) : Rabs (vx v) <= bpow radix2 (-538) -> Rabs (vy v) <= bpow radix2 (-538) -> Rabs (vz v) <= bpow radix2 (-538) ->
  f_normalize v = v.
Proof.
  intros X Y Z. unfold f_normalize, f_len, f_sqlen. rewrite !square_lost by assumption. rewrite !fadd_0_l by apply F64_0. unfold fsqrt. rewrite sqrt_0, fl_0, reqb00. reflexivity.
Qed.
Print Assumptions C268_short_partial.
Theorem C268_short_refuted : exists v : vec, F64v v /\ v <> vzero /\ f_normalize v = v /\ sqrt (vdot v v) < / 2.
Proof.
  set (t := bpow radix2 (-600)). exists (mkV t 0 0). assert (Tp : 0 < t) by apply bpow_gt_0.
  assert (Ft : F64 t) by (unfold t, F64; apply generic_format_bpow; unfold fexp64, FLT_exp; cbn; lia).
  split; [|split; [|split]].
  - split; [exact Ft|split; apply F64_0].
  - intros H. apply (f_equal (@vx R)) in H. cbn in H. lra.
  - assert (E : fmul t t = 0).
    { unfold fmul, t. rewrite <- bpow_plus. change (-600 + -600)%Z with (-1200)%Z. unfold fl. 
      apply (round_N_small_pos radix2 fexp64 (fun x => negb (Z.even x)) (bpow radix2 (-1200)) (-1199)).
      - split; [apply bpow_le; lia|apply bpow_lt; lia].
      - unfold fexp64, FLT_exp. cbn. lia. }
    unfold f_normalize, f_len, f_sqlen. cbn [vx vy vz]. rewrite E, !fmul_0, !fadd_0_l by apply F64_0. unfold fsqrt. rewrite sqrt_0, fl_0, reqb00. reflexivity.
  - unfold vdot. cbn [vx vy vz]. replace (t * t + 0 * 0 + 0 * 0) with (t * t) by ring. rewrite sqrt_square by lra. unfold t. replace (/ 2) with (bpow radix2 (-1)) by (cbn; lra). apply bpow_lt. lia.
Qed.
Print Assumptions C268_short_refuted.
Example C262_ex : F64v (mkV 1 (-3) (1/2)) /\ big 1.
Proof. split; [apply C261_ex|]. unfold big. rewrite Rabs_R1. change 1 with (bpow radix2 0). apply bpow_le. lia. Qed.
