(** Float64 arithmetic, continued: C294 (rays and triangles, cracks between neighbours). *)
From Coq Require Import Reals ZArith List Bool Lra Lia Psatz.
From Flocq Require Import Core.
From Verif Require Import Base M_Geometry M_Float M_Float2 M_Float4 P_Float S_Shapes.
Open Scope R_scope.
Local Opaque fl.

(** whole numbers of size at most B *)
Definition whole (B : Z) (x : R) : Prop := exists z, x = IZR z /\ (Z.abs z <= B)%Z.
Definition whole_v (B : Z) (v : vec) : Prop := whole B (vx v) /\ whole B (vy v) /\ whole B (vz v).
Lemma whole_F B x : (B <= 2 ^ 53)%Z -> whole B x -> fl x = x.
Proof. intros L (z & -> & H). apply fl_id, F64_IZR. lia. Qed.
Lemma whole_add A B x y : whole A x -> whole B y -> whole (A + B) (x + y).
Proof. intros (a & -> & H) (b & -> & K). exists (a + b)%Z. split; [now rewrite plus_IZR|lia]. Qed.
Lemma whole_sub A B x y : whole A x -> whole B y -> whole (A + B) (x - y).
Proof. intros (a & -> & H) (b & -> & K). exists (a - b)%Z. split; [now rewrite minus_IZR|lia]. Qed.
Lemma whole_mul A B x y : whole A x -> whole B y -> whole (A * B) (x * y).
Proof. intros (a & -> & H) (b & -> & K). exists (a * b)%Z. split; [now rewrite mult_IZR|]. rewrite Z.abs_mul. apply Z.mul_le_mono_nonneg; lia. Qed.
Lemma whole_le A B x : (A <= B)%Z -> whole A x -> whole B x.
Proof. intros L (z & E & H). exists z. split; [exact E|lia]. Qed.
Lemma f_vsub_whole A a b : (0 <= A)%Z -> (2 * A <= 2 ^ 53)%Z -> whole_v A a -> whole_v A b -> f_vsub a b = vsub a b /\ whole_v (2 * A) (vsub a b).
Proof.
  intros P L (X1 & Y1 & Z1) (X2 & Y2 & Z2).
  pose proof (whole_sub _ _ _ _ X1 X2) as X. pose proof (whole_sub _ _ _ _ Y1 Y2) as Y. pose proof (whole_sub _ _ _ _ Z1 Z2) as Z.
  replace (A + A)%Z with (2 * A)%Z in * by lia. split; [|split; [exact X|split; [exact Y|exact Z]]].
  unfold f_vsub, fsub, vsub, vmap2. now rewrite (whole_F _ _ L X), (whole_F _ _ L Y), (whole_F _ _ L Z).
Qed.
Lemma f_cross_whole A B a b : (0 <= A)%Z -> (0 <= B)%Z -> (2 * (A * B) <= 2 ^ 53)%Z -> whole_v A a -> whole_v B b ->
  f_cross a b = vcross a b /\ whole_v (2 * (A * B)) (vcross a b).
Proof.
  intros PA PB L (X1 & Y1 & Z1) (X2 & Y2 & Z2). assert (L1 : (A * B <= 2 ^ 53)%Z) by nia.
  assert (Q : forall x y z w, whole A x -> whole B y -> whole A z -> whole B w -> fsub (fmul x y) (fmul z w) = x * y - z * w /\ whole (2 * (A * B)) (x * y - z * w)).
  { intros x y z w HX HY HZ HW. pose proof (whole_mul _ _ _ _ HX HY) as M1. pose proof (whole_mul _ _ _ _ HZ HW) as M2.
    pose proof (whole_sub _ _ _ _ M1 M2) as M3. replace (A * B + A * B)%Z with (2 * (A * B))%Z in M3 by lia.
    unfold fsub, fmul. rewrite (whole_F _ _ L1 M1), (whole_F _ _ L1 M2), (whole_F _ _ L M3). now split. }
  destruct (Q _ _ _ _ Y1 Z2 Z1 Y2) as (E1 & W1). destruct (Q _ _ _ _ Z1 X2 X1 Z2) as (E2 & W2). destruct (Q _ _ _ _ X1 Y2 Y1 X2) as (E3 & W3).
  unfold f_cross. rewrite E1, E2, E3. split; [reflexivity|]. split; [exact W1|split; [exact W2|exact W3]].
Qed.
Lemma f_dot_whole A B a b : (0 <= A)%Z -> (0 <= B)%Z -> (3 * (A * B) <= 2 ^ 53)%Z -> whole_v A a -> whole_v B b ->
  f_dot a b = vdot a b /\ whole (3 * (A * B)) (vdot a b).
Proof.
  intros PA PB L (X1 & Y1 & Z1) (X2 & Y2 & Z2). assert (L1 : (A * B <= 2 ^ 53)%Z) by nia. assert (L2 : (A * B + A * B <= 2 ^ 53)%Z) by nia.
  pose proof (whole_mul _ _ _ _ X1 X2) as M1. pose proof (whole_mul _ _ _ _ Y1 Y2) as M2. pose proof (whole_mul _ _ _ _ Z1 Z2) as M3.
  pose proof (whole_add _ _ _ _ M1 M2) as M4. pose proof (whole_add _ _ _ _ M4 M3) as M5. replace (A * B + A * B + A * B)%Z with (3 * (A * B))%Z in M5 by lia.
  unfold f_dot, fadd, fmul. rewrite (whole_F _ _ L1 M1), (whole_F _ _ L1 M2), (whole_F _ _ L1 M3), (whole_F _ _ L2 M4), (whole_F _ _ L M5). now split.
Qed.

Notation u53 := (/ IZR 9007199254740992).
Definition BIG : Z := (2 ^ 48)%Z.
Lemma rel x : / IZR (2 ^ 100) <= Rabs x -> exists e, Rabs e <= u53 /\ fl x = x * (1 + e).
Proof.
  intros H. apply fl_rel. eapply Rle_trans; [|exact H]. rewrite <- bpow_pow by lia. rewrite <- bpow_opp. apply bpow_le. lia.
Qed.
(** N * (1/D) with two roundings *)
Lemma quot N D : whole BIG N -> whole BIG D -> D <> 0 -> exists e, Rabs e <= 3 * u53 /\ fmul N (fdiv 1 D) = N / D * (1 + e).
Proof.
  intros (n & -> & Hn) (d & -> & Hd) NZ. assert (D0 : d <> 0%Z) by (intros ->; now apply NZ).
  assert (SD : 1 <= Rabs (IZR d) <= IZR (2 ^ 48)). { rewrite <- abs_IZR. split; apply IZR_le; unfold BIG in *; lia. }
  assert (I1 : / IZR (2 ^ 48) <= Rabs (1 / IZR d)).
  { unfold Rdiv. rewrite Rmult_1_l, Rabs_inv. apply Rinv_le; lra. }
  change (2 ^ 48)%Z with 281474976710656%Z in *.
  destruct (rel (1 / IZR d)) as (e1 & A1 & E1). { eapply Rle_trans; [|exact I1]. apply Rinv_le; [lra|]. apply IZR_le. lia. }
  unfold fmul, fdiv. rewrite E1. apply Rabs_le_inv in A1.
  destruct (Z.eq_dec n 0) as [->|Nn].
  - exists 0. split; [rewrite Rabs_R0; lra|]. rewrite Rmult_0_l, fl_0. unfold Rdiv. ring.
  - assert (SN : 1 <= Rabs (IZR n)). { rewrite <- abs_IZR. apply IZR_le. lia. }
    destruct (rel (IZR n * (1 / IZR d * (1 + e1)))) as (e2 & A2 & E2).
    { rewrite !Rabs_mult. rewrite (Rabs_pos_eq (1 + e1)) by lra.
      apply Rle_trans with (1 * (/ 281474976710656 * (1 / 2))).
      - apply Rle_trans with (/ 1267650600228229401496703205376); [right; reflexivity|lra].
      - apply Rmult_le_compat; try lra. apply Rmult_le_compat; lra. }
    apply Rabs_le_inv in A2. exists (e1 + e2 + e1 * e2). split.
    + apply Rabs_le. nra.
    + rewrite E2. field. exact NZ.
Qed.
Lemma gap N D : whole BIG N -> whole BIG D -> D <> 0 -> (N / D < 1 -> N / D <= 1 - / IZR BIG) /\ (1 < N / D -> 1 + / IZR BIG <= N / D).
Proof.
  assert (P : forall n d, (0 < d <= BIG)%Z -> (IZR n / IZR d < 1 -> IZR n / IZR d <= 1 - / IZR BIG) /\ (1 < IZR n / IZR d -> 1 + / IZR BIG <= IZR n / IZR d)).
  { intros n d H. assert (K : 0 < IZR d) by (apply IZR_lt; lia). assert (K2 : / IZR BIG <= / IZR d) by (apply Rinv_le; [exact K|apply IZR_le; lia]).
    split; intros Q.
    - assert (n <= d - 1)%Z. { assert (n < d)%Z; [|lia]. apply lt_IZR. apply (Rmult_lt_compat_r _ _ _ K) in Q. unfold Rdiv in Q. rewrite Rmult_assoc, Rinv_l in Q by lra. lra. }
      apply Rle_trans with (1 - / IZR d); [|lra]. apply Rmult_le_reg_r with (IZR d); [exact K|]. unfold Rdiv. rewrite Rmult_assoc, Rinv_l by lra.
      rewrite Rmult_minus_distr_r, Rinv_l by lra. rewrite Rmult_1_l, Rmult_1_r. rewrite <- minus_IZR. now apply IZR_le.
    - assert (d + 1 <= n)%Z. { assert (d < n)%Z; [|lia]. apply lt_IZR. apply (Rmult_lt_compat_r _ _ _ K) in Q. unfold Rdiv in Q. rewrite Rmult_assoc, Rinv_l in Q by lra. lra. }
      apply Rle_trans with (1 + / IZR d); [lra|]. apply Rmult_le_reg_r with (IZR d); [exact K|]. unfold Rdiv. rewrite Rmult_assoc, Rinv_l by lra.
      rewrite Rmult_plus_distr_r, Rinv_l by lra. rewrite Rmult_1_l, Rmult_1_r. rewrite <- plus_IZR. now apply IZR_le. }
  intros (n & -> & Hn) (d & -> & Hd) NZ. assert (D0 : d <> 0%Z) by (intros ->; now apply NZ).
  destruct (Z_lt_le_dec 0 d) as [L|L]; [apply P; unfold BIG in *; lia|].
  replace (IZR n / IZR d) with (IZR (- n) / IZR (- d)) by (rewrite !opp_IZR; field; auto). apply P. unfold BIG in *. lia.
Qed.

(** [p] as p1 + w1 (p2 - p1) + w2 (p3 - p1) *)
Definition blend (p1 p2 p3 : vec) (w1 w2 : R) : vec := vadd p1 (vadd (vscale w1 (vsub p2 p1)) (vscale w2 (vsub p3 p1))).
Definition along (o d : vec) (t : R) : vec := vadd o (vscale t d).
Lemma solve_s (o d p1 e1 e2 : vec) t w1 w2 : vadd o (vscale t d) = vadd p1 (vadd (vscale w1 e1) (vscale w2 e2)) ->
  vsub o p1 = vsub (vadd (vscale w1 e1) (vscale w2 e2)) (vscale t d).
Proof.
  intros E. pose proof (f_equal vx E) as X. pose proof (f_equal vy E) as Y. pose proof (f_equal vz E) as Q.
  unfold vsub, vadd, vscale, vmap2, vmap in *; cbn [vx vy vz] in *. apply V3_eq; cbn [vx vy vz]; lra.
Qed.
(** Corners, origin and direction with whole-number coordinates up to 16384, the line crossing the triangle's plane at the given weights *)
Theorem C294_whole_partial (o d p1 p2 p3 : vec) (t w1 w2 : R) :
  whole_v (2 ^ 14) o -> whole_v (2 ^ 14) d -> whole_v (2 ^ 14) p1 -> whole_v (2 ^ 14) p2 -> whole_v (2 ^ 14) p3 ->
  vdot d (vcross (vsub p2 p1) (vsub p3 p1)) <> 0 -> along o d t = blend p1 p2 p3 w1 w2 ->
  (0 <= w1 -> 0 <= w2 -> w1 + w2 < 1 -> exists t' b1 b2, f_triangle o d p1 p2 p3 = Some (t', b1, b2)
     /\ Rabs (t' - t) <= 3 * u53 * Rabs t /\ Rabs (b1 - w1) <= 3 * u53 * w1 /\ Rabs (b2 - w2) <= 3 * u53 * w2)
  /\ (w1 < 0 \/ w2 < 0 \/ 1 < w1 + w2 -> f_triangle o d p1 p2 p3 = None).
Proof.
  intros Wo Wd W1 W2 W3 ND EQ.
  destruct (f_vsub_whole (2 ^ 14) p2 p1 ltac:(lia) ltac:(lia) W2 W1) as (Ea & Wa).
  destruct (f_vsub_whole (2 ^ 14) p3 p1 ltac:(lia) ltac:(lia) W3 W1) as (Eb & Wb).
  destruct (f_vsub_whole (2 ^ 14) o p1 ltac:(lia) ltac:(lia) Wo W1) as (Es & Ws).
  set (e1 := vsub p2 p1) in *. set (e2 := vsub p3 p1) in *. set (s := vsub o p1) in *.
  destruct (f_cross_whole (2 ^ 14) (2 * 2 ^ 14) d e2 ltac:(lia) ltac:(lia) ltac:(lia) Wd Wb) as (E1 & V1).
  destruct (f_cross_whole (2 * 2 ^ 14) (2 * 2 ^ 14) s e1 ltac:(lia) ltac:(lia) ltac:(lia) Ws Wa) as (E2 & V2).
  destruct (f_dot_whole (2 * (2 ^ 14 * (2 * 2 ^ 14))) (2 * 2 ^ 14) (vcross d e2) e1 ltac:(lia) ltac:(lia) ltac:(lia) V1 Wa) as (ED & WD).
  destruct (f_dot_whole (2 * 2 ^ 14) (2 * (2 ^ 14 * (2 * 2 ^ 14))) s (vcross d e2) ltac:(lia) ltac:(lia) ltac:(lia) Ws V1) as (EN1 & WN1).
  destruct (f_dot_whole (2 ^ 14) (2 * (2 * 2 ^ 14 * (2 * 2 ^ 14))) d (vcross s e1) ltac:(lia) ltac:(lia) ltac:(lia) Wd V2) as (EN2 & WN2).
  destruct (f_dot_whole (2 * 2 ^ 14) (2 * (2 * 2 ^ 14 * (2 * 2 ^ 14))) e2 (vcross s e1) ltac:(lia) ltac:(lia) ltac:(lia) Wb V2) as (ET & WT).
  set (D := vdot (vcross d e2) e1) in *.
  assert (S0 : s = vsub (vadd (vscale w1 e1) (vscale w2 e2)) (vscale t d)).
  { apply solve_s, EQ. }
  assert (D0 : D <> 0).
  { intros H. apply ND. transitivity (- D); [unfold D, vdot, vcross; cbn [vx vy vz]; ring|rewrite H; ring]. }
  assert (N1 : vdot s (vcross d e2) = w1 * D) by (rewrite S0; unfold D, vdot, vcross, vsub, vadd, vscale, vmap2, vmap; cbn [vx vy vz]; ring).
  assert (N2 : vdot d (vcross s e1) = w2 * D) by (rewrite S0; unfold D, vdot, vcross, vsub, vadd, vscale, vmap2, vmap; cbn [vx vy vz]; ring).
  assert (T0 : vdot e2 (vcross s e1) = t * D) by (rewrite S0; unfold D, vdot, vcross, vsub, vadd, vscale, vmap2, vmap; cbn [vx vy vz]; ring).
  unfold f_triangle. cbv zeta. rewrite Ea, Eb, Es, E1, ED. rewrite EN1, E2, EN2, ET.
  assert (B0 : Reqb D 0 = false) by (unfold Reqb; destruct (Req_EM_T D 0); [contradiction|reflexivity]). rewrite B0.
  assert (WDb : whole BIG D) by (eapply whole_le; [|exact WD]; unfold BIG; lia).
  destruct (quot _ D ltac:(eapply whole_le; [|exact WN1]; unfold BIG; lia) WDb D0) as (x1 & A1 & Q1).
  destruct (quot _ D ltac:(eapply whole_le; [|exact WN2]; unfold BIG; lia) WDb D0) as (x2 & A2 & Q2).
  destruct (quot _ D ltac:(eapply whole_le; [|exact WT]; unfold BIG; lia) WDb D0) as (x3 & A3 & Q3).
  destruct (gap (vdot s (vcross d e2) + vdot d (vcross s e1)) D ltac:(eapply whole_le; [|exact (whole_add _ _ _ _ WN1 WN2)]; unfold BIG; lia) WDb D0) as (G1 & G2).
  rewrite N1, N2, T0 in *. replace ((w1 * D + w2 * D) / D) with (w1 + w2) in * by (field; exact D0).
  replace (w1 * D / D) with w1 in * by (field; exact D0). replace (w2 * D / D) with w2 in * by (field; exact D0).
  replace (t * D / D) with t in * by (field; exact D0). rewrite Q1, Q2, Q3.
  unfold BIG in G1, G2. change (2 ^ 48)%Z with 281474976710656%Z in *.
  pose proof (Rabs_le_inv _ _ A1) as B1. pose proof (Rabs_le_inv _ _ A2) as B2.
  clear Q1 Q2 Q3 E1 E2 ED EN1 EN2 ET Ea Eb Es S0 N1 N2 T0.
  split.
  - intros P1 P2 PS. specialize (G1 PS). clear G2.
    assert (L1 : 0 <= w1 * (1 + x1)) by (apply Rmult_le_pos; lra). assert (L2 : 0 <= w2 * (1 + x2)) by (apply Rmult_le_pos; lra).
    assert (U1 : w1 * (1 + x1) <= w1 * (1 + 3 * u53)) by (apply Rmult_le_compat_l; lra).
    assert (U2 : w2 * (1 + x2) <= w2 * (1 + 3 * u53)) by (apply Rmult_le_compat_l; lra).
    assert (US : w1 * (1 + x1) + w2 * (1 + x2) <= 1) by lra.
    rewrite (proj2 (Rltb_false (w1 * (1 + x1)) 0)) by lra. rewrite (proj2 (Rltb_false 1 (w1 * (1 + x1)))) by lra. cbn [orb].
    rewrite (proj2 (Rltb_false (w2 * (1 + x2)) 0)) by lra.
    rewrite (proj2 (Rltb_false 1 (fadd (w1 * (1 + x1)) (w2 * (1 + x2))))) by (unfold fadd; apply fl_le_r; [apply F64_1|exact US]). cbn [orb].
    exists (t * (1 + x3)), (w1 * (1 + x1)), (w2 * (1 + x2)). split; [reflexivity|].
    assert (Z : forall w x, Rabs x <= 3 * u53 -> Rabs (w * (1 + x) - w) <= 3 * u53 * Rabs w).
    { intros w x H. replace (w * (1 + x) - w) with (x * w) by ring. rewrite Rabs_mult. apply Rmult_le_compat_r; [apply Rabs_pos|exact H]. }
    split; [apply Z, A3|]. split; [rewrite <- (Rabs_pos_eq w1) at 3 by exact P1; apply Z, A1|rewrite <- (Rabs_pos_eq w2) at 3 by exact P2; apply Z, A2].
  - intros C.
    destruct (Rltb (w1 * (1 + x1)) 0) eqn:K1; [reflexivity|]. apply Rltb_false in K1. destruct (Rltb 1 (w1 * (1 + x1))); [reflexivity|]. cbn [orb].
    destruct (Rltb (w2 * (1 + x2)) 0) eqn:K2; [reflexivity|]. apply Rltb_false in K2.
    assert (P1 : 0 <= w1). { apply Rnot_lt_le. intros H. apply (Rmult_lt_compat_r (1 + x1)) in H; lra. }
    assert (P2 : 0 <= w2). { apply Rnot_lt_le. intros H. apply (Rmult_lt_compat_r (1 + x2)) in H; lra. }
    assert (PS : 1 < w1 + w2) by (destruct C as [C|[C|C]]; lra). specialize (G2 PS).
    assert (U1 : w1 * (1 - 3 * u53) <= w1 * (1 + x1)) by (apply Rmult_le_compat_l; lra).
    assert (U2 : w2 * (1 - 3 * u53) <= w2 * (1 + x2)) by (apply Rmult_le_compat_l; lra).
    rewrite (proj2 (Rltb_true 1 (fadd (w1 * (1 + x1)) (w2 * (1 + x2))))); [reflexivity|].
    apply Rlt_le_trans with (IZR 562949953421313 / IZR (2 ^ 49)).
    + change (2 ^ 49)%Z with 562949953421312%Z. lra.
    + unfold fadd. apply fl_le_l; [apply F64_dyadic; lia|]. change (2 ^ 49)%Z with 562949953421312%Z. lra.
Qed.
Print Assumptions C294_whole_partial.
(** and the range of the ray is respected up to that error in t *)
Theorem C294_range (o d p1 p2 p3 : vec) (mint maxt : R) :
  f_triangle_hit o d p1 p2 p3 mint maxt = true <-> exists t b1 b2, f_triangle o d p1 p2 p3 = Some (t, b1, b2) /\ mint <= t <= maxt.
Proof.
  unfold f_triangle_hit. destruct (f_triangle o d p1 p2 p3) as [[[t b1] b2]|].
  - rewrite negb_true_iff, orb_false_iff, !Rltb_false. split.
    + intros (A & B). now exists t, b1, b2.
    + intros (t' & c1 & c2 & E & A & B). injection E as -> _ _. now split.
  - split; [discriminate|]. intros (t & b1 & b2 & E & _). discriminate.
Qed.
(** with whole numbers only the reciprocal, its products and the last sum are rounded *)
Lemma f_triangle_whole (o d p1 p2 p3 : vec) D N1 N2 :
  whole_v (2 ^ 14) o -> whole_v (2 ^ 14) d -> whole_v (2 ^ 14) p1 -> whole_v (2 ^ 14) p2 -> whole_v (2 ^ 14) p3 ->
  vdot (vcross d (vsub p3 p1)) (vsub p2 p1) = D -> vdot (vsub o p1) (vcross d (vsub p3 p1)) = N1 ->
  vdot d (vcross (vsub o p1) (vsub p2 p1)) = N2 -> 1 < fadd (fmul N1 (fdiv 1 D)) (fmul N2 (fdiv 1 D)) -> f_triangle o d p1 p2 p3 = None.
Proof.
  intros Wo Wd W1 W2 W3 HD H1 H2 G.
  destruct (f_vsub_whole (2 ^ 14) p2 p1 ltac:(lia) ltac:(lia) W2 W1) as (Ea & Wa).
  destruct (f_vsub_whole (2 ^ 14) p3 p1 ltac:(lia) ltac:(lia) W3 W1) as (Eb & Wb).
  destruct (f_vsub_whole (2 ^ 14) o p1 ltac:(lia) ltac:(lia) Wo W1) as (Es & Ws).
  set (e1 := vsub p2 p1) in *. set (e2 := vsub p3 p1) in *. set (s := vsub o p1) in *.
  destruct (f_cross_whole (2 ^ 14) (2 * 2 ^ 14) d e2 ltac:(lia) ltac:(lia) ltac:(lia) Wd Wb) as (E1 & V1).
  destruct (f_cross_whole (2 * 2 ^ 14) (2 * 2 ^ 14) s e1 ltac:(lia) ltac:(lia) ltac:(lia) Ws Wa) as (E2 & V2).
  destruct (f_dot_whole (2 * (2 ^ 14 * (2 * 2 ^ 14))) (2 * 2 ^ 14) (vcross d e2) e1 ltac:(lia) ltac:(lia) ltac:(lia) V1 Wa) as (ED & WD).
  destruct (f_dot_whole (2 * 2 ^ 14) (2 * (2 ^ 14 * (2 * 2 ^ 14))) s (vcross d e2) ltac:(lia) ltac:(lia) ltac:(lia) Ws V1) as (EN1 & WN1).
  destruct (f_dot_whole (2 ^ 14) (2 * (2 * 2 ^ 14 * (2 * 2 ^ 14))) d (vcross s e1) ltac:(lia) ltac:(lia) ltac:(lia) Wd V2) as (EN2 & WN2).
  unfold f_triangle. cbv zeta. rewrite Ea, Eb, Es, E1, ED, EN1, E2, EN2, HD, H1, H2.
  rewrite (proj2 (Rltb_true 1 _) G), orb_true_r. destruct (Reqb D 0); [reflexivity|]. destruct (_ || _)%bool; reflexivity.
Qed.
(** the weights 3/91 and 88/91 *)
Lemma crack_sum : fl (fl (3 * fl (1 / 91)) + fl (88 * fl (1 / 91))) = IZR 4503599627370497 / IZR (2 ^ 52).
Proof.
  assert (I1 : fl (1 / 91) = IZR 6334733541795863 / IZR (2 ^ 59)).
  { apply fl_eval; [lia| | |]; change (2 ^ 59)%Z with 576460752303423488%Z; change (2 ^ 52)%Z with 4503599627370496%Z; change (2 ^ 53)%Z with 9007199254740992%Z; try lra. apply Rabs_def1; lra. }
  rewrite I1. change (2 ^ 59)%Z with 576460752303423488%Z.
  assert (A : fl (3 * (6334733541795863 / 576460752303423488)) = IZR 4751050156346897 / IZR (2 ^ 57)).
  { apply fl_eval; [lia| | |]; change (2 ^ 57)%Z with 144115188075855872%Z; change (2 ^ 52)%Z with 4503599627370496%Z; change (2 ^ 53)%Z with 9007199254740992%Z; try lra. apply Rabs_def1; lra. }
  assert (B : fl (88 * (6334733541795863 / 576460752303423488)) = IZR 8710258619969312 / IZR (2 ^ 53)).
  { apply fl_eval; [lia| | |]; change (2 ^ 52)%Z with 4503599627370496%Z; change (2 ^ 53)%Z with 9007199254740992%Z; try lra. apply Rabs_def1; lra. }
  rewrite A, B. apply fl_eval; [lia| | |]; change (2 ^ 57)%Z with 144115188075855872%Z; change (2 ^ 52)%Z with 4503599627370496%Z; change (2 ^ 53)%Z with 9007199254740992%Z; try lra. apply Rabs_def1; lra.
Qed.
(** two triangles of a parallelogram, and a ray through a point of the edge they share that neither sees *)
Theorem C294_crack_refuted : exists o d a b c e t, whole_v 100 o /\ whole_v 100 d /\ whole_v 100 a /\ whole_v 100 b /\ whole_v 100 c /\ whole_v 100 e
  /\ 0 < t /\ along o d t = vadd (vscale (3 / 91) b) (vscale (88 / 91) c)
  /\ vdot d (vcross (vsub b a) (vsub c a)) <> 0 /\ vdot d (vcross (vsub c e) (vsub b e)) <> 0
  /\ f_triangle o d a b c = None /\ f_triangle o d e c b = None.
Proof.
  exists (mkV 3 1 (-1)), (mkV 0 0 1), (mkV 0 0 0), (mkV 91 1 0), (mkV 0 1 0), (mkV 91 2 0), 1.
  assert (K : forall B x y z, (Z.abs x <= B /\ Z.abs y <= B /\ Z.abs z <= B)%Z -> whole_v B (mkV (IZR x) (IZR y) (IZR z))).
  { intros B x y z (X & Y & Q). split; [exists x|split; [exists y|exists z]]; now split. }
  do 6 (split; [apply K; lia|]). split; [lra|].
  split; [unfold along, vadd, vscale, vmap2, vmap; cbn [vx vy vz]; apply V3_eq; cbn [vx vy vz]; lra|].
  split; [unfold vdot, vcross, vsub, vmap2; cbn [vx vy vz]; lra|]. split; [unfold vdot, vcross, vsub, vmap2; cbn [vx vy vz]; lra|].
  assert (G : 1 < IZR 4503599627370497 / IZR (2 ^ 52)) by (change (2 ^ 52)%Z with 4503599627370496%Z; lra).
  assert (NI : fdiv 1 (-91) = - fl (1 / 91)). { unfold fdiv. rewrite <- fl_opp. f_equal. lra. }
  assert (H3 : fmul (-3) (fdiv 1 (-91)) = fl (3 * fl (1 / 91))). { rewrite NI. unfold fmul. f_equal. ring. }
  assert (H88 : fmul (-88) (fdiv 1 (-91)) = fl (88 * fl (1 / 91))). { rewrite NI. unfold fmul. f_equal. ring. }
  split.
  - apply (f_triangle_whole _ _ _ _ _ (-91) (-3) (-88)); try (apply K; lia); try (unfold vdot, vcross, vsub, vmap2; cbn [vx vy vz]; lra).
    rewrite H3, H88. unfold fadd. rewrite crack_sum. exact G.
  - apply (f_triangle_whole _ _ _ _ _ (-91) (-88) (-3)); try (apply K; lia); try (unfold vdot, vcross, vsub, vmap2; cbn [vx vy vz]; lra).
    rewrite H3, H88. unfold fadd. rewrite Rplus_comm, crack_sum. exact G.
Qed.
Print Assumptions C294_crack_refuted.
(** a triangle with whole-number corners up to 100 and a ray through its inside, at weights 1/4 and 1/2 *)
Example C294_ex : whole_v (2 ^ 14) (mkV 1 2 (-7)) /\ along (mkV 1 2 (-7)) (mkV 0 0 2) (7 / 2) = blend (mkV 0 0 0) (mkV 4 0 0) (mkV 0 4 0) (1 / 4) (1 / 2)
  /\ vdot (mkV 0 0 2) (vcross (vsub (mkV 4 0 0) (mkV 0 0 0)) (vsub (mkV 0 4 0) (mkV 0 0 0))) <> 0.
Proof.
  split; [split; [exists 1%Z|split; [exists 2%Z|exists (-7)%Z]]; split; reflexivity || lia|]. split.
  - unfold along, blend, vadd, vscale, vsub, vmap2, vmap; cbn [vx vy vz]; apply V3_eq; cbn [vx vy vz]; lra.
  - unfold vdot, vcross, vsub, vmap2; cbn [vx vy vz]. lra.
Qed.

