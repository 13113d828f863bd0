(** Float64 arithmetic, continued: C261-C266.  Numbers are float64 numbers (F64), operations round (M_Float2). *)
From Coq Require Import Reals ZArith List Bool Lra Lia Permutation.
From Flocq Require Import Core.
From Flocq Require Import Mult_error Plus_error Relative.
From Verif Require Base M_Transform.
Import Base(V3, vec, vneg, vzero, vdot, mkV, vx, vy, vz, vmap, vmap2, Rltb, Reqb, Rleb).
From Verif Require M_Geometry.
From Verif Require Import M_Float M_Float2 P_Float.
Import M_Transform(mkM, mkV4, q0, q1, q2, q3, row0, row1, row2, row3, I4, t_translate, t_scale, tm, t_inverse, t_point, ne_unity).
Import ListNotations.
Open Scope R_scope.

(** ** basic facts *)
Lemma fmul_1 x : F64 x -> fmul 1 x = x. Proof. intros H. unfold fmul. rewrite Rmult_1_l. now apply fl_id. Qed.
Lemma fmul_0 x : fmul 0 x = 0. Proof. unfold fmul. rewrite Rmult_0_l. apply fl_0. Qed.
Lemma fadd_0_r x : F64 x -> fadd x 0 = x. Proof. intros H. unfold fadd. rewrite Rplus_0_r. now apply fl_id. Qed.
Lemma fadd_0_l x : F64 x -> fadd 0 x = x. Proof. intros H. unfold fadd. rewrite Rplus_0_l. now apply fl_id. Qed.
Lemma fadd_comm x y : fadd x y = fadd y x. Proof. unfold fadd. now rewrite Rplus_comm. Qed.
Lemma fmul_comm x y : fmul x y = fmul y x. Proof. unfold fmul. now rewrite Rmult_comm. Qed.
Lemma fsub_swap x y : fsub x y = - fsub y x. Proof. unfold fsub. rewrite <- fl_opp. f_equal. ring. Qed.
Lemma fmul_opp_r x y : fmul x (- y) = - fmul x y. Proof. unfold fmul. rewrite <- fl_opp. f_equal. ring. Qed.
Lemma fadd_opp x y : fadd (- x) (- y) = - fadd x y. Proof. unfold fadd. rewrite <- fl_opp. f_equal. ring. Qed.
Lemma fmul_F x y : F64 (fmul x y). Proof. apply fl_F64. Qed.
Lemma fadd_F x y : F64 (fadd x y). Proof. apply fl_F64. Qed.
Lemma unity_1 : ne_unity 1 = false.
Proof.
  unfold ne_unity. assert (0 < Base.EPS) by (unfold Base.EPS; lra).
  destruct (Base.Rltb 1 (1 - Base.EPS)) eqn:A; [apply Base.Rltb_true in A; lra|].
  destruct (Base.Rltb (1 + Base.EPS) 1) eqn:B; [apply Base.Rltb_true in B; lra|]. reflexivity.
Qed.

(** ** C261: transforms which are exact.  The identity returns every point and vector unchanged, bit for bit; so does a
    translation with vectors, and with points it gives the float64 point nearest to the true one; scaling by powers of two
    (not below 1) is exact. *)
Lemma row_last x d : f_row (mkV4 0 0 0 d) x = 0.
Proof. unfold f_row. cbn [q0 q1 q2]. rewrite !fmul_0, !fadd_0_l by apply F64_0. reflexivity. Qed.
Lemma row_x s d p : f_row (mkV4 s 0 0 d) p = fmul s (vx p).
Proof. unfold f_row. cbn [q0 q1 q2]. rewrite !fmul_0, !fadd_0_r by first [apply fmul_F|apply fadd_F|apply F64_0]. reflexivity. Qed.
Lemma row_y s d p : f_row (mkV4 0 s 0 d) p = fmul s (vy p).
Proof. unfold f_row. cbn [q0 q1 q2]. rewrite !fmul_0, fadd_0_l, fadd_0_r by first [apply fmul_F|apply fadd_F|apply F64_0]. reflexivity. Qed.
Lemma row_z s d p : f_row (mkV4 0 0 s d) p = fmul s (vz p).
Proof. unfold f_row. cbn [q0 q1 q2]. rewrite !fmul_0, (fadd_0_l 0), fadd_0_l by first [apply fmul_F|apply fadd_F|apply F64_0]. reflexivity. Qed.
Lemma last_row p : fadd (f_row (mkV4 0 0 0 1) p) (q3 (mkV4 0 0 0 1)) = 1.
Proof. rewrite row_last. cbn [q3]. apply fadd_0_l, F64_1. Qed.

(** the number nearest to [x] *)
Definition nearest_to (x y : R) : Prop := F64 y /\ forall g, F64 g -> Rabs (y - x) <= Rabs (g - x).
Theorem C261_identity (p : vec) : F64v p -> f_point I4 p = p /\ f_vector I4 p = p.
Proof.
  intros (X & Y & Z). destruct p as [x y z]. cbn [vx vy vz] in *. unfold f_point, f_vector, I4. cbn [row0 row1 row2 row3].
  rewrite last_row, unity_1, row_x, row_y, row_z. cbn [vx vy vz q3]. rewrite !fmul_1, !fadd_0_r by assumption. split; reflexivity.
Qed.
Print Assumptions C261_identity.
Theorem C261_translate (d p : vec) : F64v d -> F64v p ->
  let q := f_point (tm (t_translate d)) p in let e := t_point (t_translate d) p in
  nearest_to (vx e) (vx q) /\ nearest_to (vy e) (vy q) /\ nearest_to (vz e) (vz q) /\
  f_vector (tm (t_translate d)) p = p.
Proof.
  intros _ (X & Y & Z). destruct p as [x y z], d as [a b c]. cbn [vx vy vz] in *.
  assert (E : t_point (t_translate (mkV a b c)) (mkV x y z) = mkV (x + a) (y + b) (z + c)).
  { unfold t_point, t_translate, M_Transform.dot4. cbn [tm row0 row1 row2 row3 q0 q1 q2 q3 vx vy vz].
    replace (0 * x + 0 * y + 0 * z + 1 * 1) with 1 by ring.
    assert (U : M_Transform.ne_unity 1 = false) by apply unity_1. rewrite U. f_equal; ring. }
  cbv zeta. rewrite E. unfold f_point, f_vector, t_translate. cbn [tm row0 row1 row2 row3].
  rewrite last_row, unity_1, row_x, row_y, row_z. cbn [vx vy vz q3]. rewrite !fmul_1 by assumption.
  split; [|split; [|split; [|reflexivity]]]; (split; [apply fadd_F|intros g G; unfold fadd; apply fl_nearest; exact G]).
Qed.
Print Assumptions C261_translate.
Theorem C261_scale (i j k : Z) (p : vec) : (0 <= i)%Z -> (0 <= j)%Z -> (0 <= k)%Z -> F64v p ->
  let m := tm (t_scale (bpow radix2 i) (bpow radix2 j) (bpow radix2 k)) in
  let e := mkV (bpow radix2 i * vx p) (bpow radix2 j * vy p) (bpow radix2 k * vz p) in
  f_point m p = e /\ f_vector m p = e.
Proof.
  intros I J K (X & Y & Z). destruct p as [x y z]. cbn [vx vy vz] in *. cbv zeta.
  assert (M : forall e c, (0 <= e)%Z -> F64 c -> fmul (bpow radix2 e) c = bpow radix2 e * c).
  { intros e c E C. unfold fmul. apply fl_id. rewrite Rmult_comm. apply mult_bpow_pos_exact_FLT; [exact C|exact E]. }
  unfold f_point, f_vector, t_scale. cbn [tm row0 row1 row2 row3].
  rewrite last_row, unity_1, row_x, row_y, row_z. cbn [vx vy vz q3]. rewrite !fadd_0_r by first [apply fmul_F|apply fadd_F|apply F64_0]. rewrite !M by assumption.
  split; reflexivity.
Qed.
Print Assumptions C261_scale.
Example C261_ex : F64v (mkV 1 (-3) (1/2)).
Proof. split; [|split]; cbn [vx vy vz]; [apply F64_1|apply (F64_IZR (-3)); lia|apply F64_half]. Qed.

(** ** C263: symmetries that rounding keeps *)
Theorem C263_symmetries (a b : vec) :
  f_dot a b = f_dot b a /\ f_dot a (vneg b) = - f_dot a b /\ f_cross b a = vneg (f_cross a b) /\ f_cross a a = vzero /\
  f_len (vneg a) = f_len a /\ 0 <= f_sqlen a /\ 0 <= f_len a /\ f_sqlen a = f_dot a a.
Proof.
  destruct a as [ax ay az], b as [bx by_ bz].
  assert (FS : forall x, fsub x x = 0) by (intros x; unfold fsub; rewrite Rminus_diag_eq by reflexivity; apply fl_0).
  assert (SQ : forall x, fmul (- x) (- x) = fmul x x) by (intros x; unfold fmul; f_equal; ring).
  assert (NN : forall x, 0 <= fmul x x) by (intros x; apply fl_nonneg; nra).
  assert (S0 : forall v, 0 <= f_sqlen v).
  { intros v. unfold f_sqlen. apply fl_nonneg. apply Rplus_le_le_0_compat; [|apply NN]. apply fl_nonneg. apply Rplus_le_le_0_compat; apply NN. }
  split; [|split; [|split; [|split; [|split; [|split; [|split]]]]]].
  - unfold f_dot. cbn [vx vy vz]. now rewrite (fmul_comm ax), (fmul_comm ay), (fmul_comm az).
  - unfold f_dot, vneg, vmap. cbn [vx vy vz]. now rewrite !fmul_opp_r, !fadd_opp.
  - unfold f_cross, vneg, vmap. cbn [vx vy vz]. rewrite (fmul_comm by_ az), (fmul_comm bz ay), (fmul_comm bz ax), (fmul_comm bx az), (fmul_comm bx ay), (fmul_comm by_ ax).
    f_equal; apply fsub_swap.
  - unfold f_cross, vzero. cbn [vx vy vz]. rewrite (fmul_comm az ay), (fmul_comm ax az), (fmul_comm ay ax). now rewrite !FS.
  - unfold f_len, f_sqlen, vneg, vmap. cbn [vx vy vz]. now rewrite !SQ.
  - apply S0.
  - apply fl_nonneg, sqrt_pos.
  - reflexivity.
Qed.
Print Assumptions C263_symmetries.

(** ** C267: what is lost: a translation and its inverse do not cancel, unless the coordinates are whole numbers *)
Lemma fl_52 x : 0 <= x -> x < / 2 -> fl (IZR (2 ^ 52) + x) = IZR (2 ^ 52).
Proof.
  intros A B. replace (IZR (2 ^ 52)) with (IZR (2 ^ 52) / IZR (2 ^ 0)) at 2 by (change (2 ^ 0)%Z with 1%Z; lra).
  change (2 ^ 52)%Z with 4503599627370496%Z. apply fl_eval; [lia| | |]; change (2 ^ 0)%Z with 1%Z; change (2 ^ 52)%Z with 4503599627370496%Z; change (2 ^ 53)%Z with 9007199254740992%Z; [lra|lra|].
  apply Rabs_def1; lra.
Qed.
Lemma translate_point (d p : vec) : t_point (t_translate d) p = mkV (vx p + vx d) (vy p + vy d) (vz p + vz d).
Proof.
  destruct p as [x y z], d as [a b c]. unfold t_point, t_translate, M_Transform.dot4. cbn [tm row0 row1 row2 row3 q0 q1 q2 q3 vx vy vz].
  replace (0 * x + 0 * y + 0 * z + 1 * 1) with 1 by ring. rewrite unity_1. f_equal; ring.
Qed.
Lemma translate_back (d p : vec) : t_point (t_inverse (t_translate d)) (mkV (vx p + vx d) (vy p + vy d) (vz p + vz d)) = p.
Proof.
  destruct p as [x y z], d as [a b c]. unfold t_point, t_translate, t_inverse, M_Transform.dot4. cbn [tm M_Transform.tinv row0 row1 row2 row3 q0 q1 q2 q3 vx vy vz].
  match goal with |- context [ne_unity ?w] => replace w with 1 by ring end. rewrite unity_1. f_equal; ring.
Qed.
Theorem C267_whole_partial (a b c x y z : Z) : (Z.abs x + Z.abs a <= 2 ^ 53)%Z -> (Z.abs y + Z.abs b <= 2 ^ 53)%Z -> (Z.abs z + Z.abs c <= 2 ^ 53)%Z ->
  let d := mkV (IZR a) (IZR b) (IZR c) in let p := mkV (IZR x) (IZR y) (IZR z) in
  f_point (tm (t_inverse (t_translate d))) (f_point (tm (t_translate d)) p) = p.
Proof.
  intros X Y Z0. cbv zeta. assert (FI : forall k, (Z.abs k <= 2 ^ 53)%Z -> F64 (IZR k)) by exact F64_IZR.
  unfold f_point, t_translate, t_inverse. cbn [tm M_Transform.tinv row0 row1 row2 row3 vx vy vz].
  rewrite !last_row, !unity_1, !row_x, !row_y, !row_z. cbn [vx vy vz q3]. rewrite !fmul_1 by first [apply fadd_F|apply FI; lia].
  assert (K : forall k m, (Z.abs k + Z.abs m <= 2 ^ 53)%Z -> fadd (fadd (IZR k) (IZR m)) (- IZR m) = IZR k).
  { intros k m M. assert (E : fadd (IZR k) (IZR m) = IZR (k + m)) by (unfold fadd; rewrite <- plus_IZR; apply fl_id, FI; lia). rewrite E.
    unfold fadd. rewrite plus_IZR. replace (IZR k + IZR m + - IZR m) with (IZR k) by ring. apply fl_id, FI. lia. }
  rewrite !K by assumption. reflexivity.
Qed.
Print Assumptions C267_whole_partial.
Theorem C267_round_trip_refuted : exists d p : vec, F64v d /\ F64v p /\
  f_point (tm (t_inverse (t_translate d))) (f_point (tm (t_translate d)) p) <> p /\
  t_point (t_inverse (t_translate d)) (t_point (t_translate d) p) = p.
Proof.
  exists (mkV (IZR (2 ^ 52)) 0 0), (mkV (/ 4) 0 0).
  assert (F4 : F64 (/ 4)) by (replace (/ 4) with (IZR 1 / IZR (2 ^ 2)) by (cbn; lra); apply F64_dyadic; lia).
  assert (Fb : F64 (IZR (2 ^ 52))) by (apply F64_IZR; lia).
  split; [|split; [|split]].
  - split; [exact Fb|split; apply F64_0].
  - split; [exact F4|split; apply F64_0].
  - unfold f_point, t_translate, t_inverse. cbn [tm M_Transform.tinv row0 row1 row2 row3 vx vy vz].
    rewrite !last_row, !unity_1, !row_x, !row_y, !row_z. cbn [vx vy vz q3]. rewrite !fmul_1 by first [exact F4|exact Fb|apply F64_0|apply fadd_F].
    unfold fadd at 2. replace (/ 4 + IZR (2 ^ 52)) with (IZR (2 ^ 52) + / 4) by ring. rewrite fl_52 by lra.
    unfold fadd at 1. replace (IZR (2 ^ 52) + - IZR (2 ^ 52)) with 0 by ring. rewrite fl_0. intros H. apply (f_equal (@vx R)) in H. cbn [vx] in H. lra.
  - rewrite translate_point. apply (translate_back (mkV (IZR (2 ^ 52)) 0 0)).
Qed.
Print Assumptions C267_round_trip_refuted.

(** ** C264: sums of contributions *)
Fixpoint total (l : list R) : R := match l with [] => 0 | x :: r => x + total r end.
Lemma fadd_rel x y : F64 x -> F64 y -> Rabs (fadd x y - (x + y)) <= bpow radix2 (-53) * Rabs (x + y).
Proof.
  intros X Y. destruct (FLT_plus_error_N_ex radix2 (-1074) 53 (fun x => negb (Z.even x)) x y X Y) as (e & A & B).
  assert (C : Rabs e <= bpow radix2 (-53)).
  { eapply Rle_trans; [exact A|]. unfold Relative.u_ro. change (- (53) + 1)%Z with (-53 + 1)%Z.
    replace (/ 2 * bpow radix2 (-53 + 1)) with (bpow radix2 (-53)).
    - assert (P : 0 < bpow radix2 (-53)) by apply bpow_gt_0. set (b := bpow radix2 (-53)) in *. clearbody b. unfold Rdiv. assert (Q : / (1 + b) <= 1) by (rewrite <- Rinv_1; apply Rinv_le_contravar; lra). nra.
    - change (-53 + 1)%Z with (Z.opp 52). change (-53)%Z with (Z.opp 53). rewrite !bpow_opp, !bpow_pow by lia. change (2 ^ 52)%Z with 4503599627370496%Z. change (2^53)%Z with 9007199254740992%Z. lra. }
  change (fadd x y) with (round radix2 (FLT_exp (-1074) 53) (Znearest (fun x => negb (Z.even x))) (x + y)). rewrite B.
  replace ((x + y) * (1 + e) - (x + y)) with ((x + y) * e) by ring. rewrite Rabs_mult, Rmult_comm. apply Rmult_le_compat_r; [apply Rabs_pos|exact C].
Qed.
Lemma total_acc (u : R) : u = bpow radix2 (-53) -> forall l a, F64 a -> List.Forall F64 l ->
  Rabs (fold_left fadd l a - (a + total l)) <= ((1 + u) ^ length l - 1) * (Rabs a + total (map Rabs l)).
Proof.
  intros U. assert (U0 : 0 < u) by (rewrite U; apply bpow_gt_0).
  induction l as [|x l IH]; intros a Fa Fl; cbn [fold_left total map length pow].
  - rewrite Rplus_0_r, Rminus_diag_eq, Rabs_R0 by reflexivity. lra.
  - inversion Fl as [|? ? Fx Fl']; subst x0 l0. specialize (IH (fadd a x) (fadd_F _ _) Fl').
    pose proof (fadd_rel a x Fa Fx) as E. rewrite <- U in E. set (a' := fadd a x) in *. set (n := length l) in *.
    assert (P : 1 <= (1 + u) ^ n) by (apply pow_R1_Rle; lra). set (w := (1 + u) ^ n) in *. set (L := total (map Rabs l)) in *.
    assert (L0 : 0 <= L). { unfold L. clear. induction l as [|y l IH]; cbn [map total]; [lra|]. pose proof (Rabs_pos y). lra. }
    pose proof (Rabs_triang a x) as T. set (A := Rabs a + Rabs x) in *. assert (A0 : 0 <= A) by (unfold A; pose proof (Rabs_pos a); pose proof (Rabs_pos x); lra).
    assert (D : Rabs (a' - (a + x)) <= u * A) by nra.
    assert (B : Rabs a' <= (1 + u) * A). { replace a' with ((a' - (a + x)) + (a + x)) by ring. eapply Rle_trans; [apply Rabs_triang|]. nra. }
    replace (fold_left fadd l a' - (a + (x + total l))) with ((fold_left fadd l a' - (a' + total l)) + (a' - (a + x))) by ring.
    eapply Rle_trans; [apply Rabs_triang|]. replace (Rabs a + (Rabs x + L)) with (A + L) by (unfold A; ring).
    assert ((w - 1) * (Rabs a' + L) <= (w - 1) * ((1 + u) * A + L)) by (apply Rmult_le_compat_l; lra).
    assert (0 <= u * w * L) by (apply Rmult_le_pos; [nra|exact L0]). nra.
Qed.
(** the stored total is within the usual bound of the exact one; of non-negative contributions it is non-negative and at
    least each of them; integer contributions (the weights of a box filter) are counted exactly below 2^53 *)
Theorem C264_error (l : list R) : List.Forall F64 l ->
  Rabs (f_total l - total l) <= ((1 + bpow radix2 (-53)) ^ length l - 1) * total (map Rabs l).
Proof.
  intros F. pose proof (total_acc _ eq_refl l 0 F64_0 F) as H. rewrite Rplus_0_l, Rabs_R0, Rplus_0_l in H. exact H.
Qed.
Print Assumptions C264_error.
Lemma acc_grows l : List.Forall F64 l -> List.Forall (fun x => 0 <= x) l -> forall a, F64 a -> 0 <= a -> a <= fold_left fadd l a.
Proof.
  induction 1 as [|x l Fx Fl IH]; intros P a Fa A; cbn [fold_left]; [lra|]. inversion P; subst x0 l0.
  assert (a <= fadd a x) by (apply fl_le_l; [exact Fa|lra]). eapply Rle_trans; [eassumption|]. apply IH; [assumption|apply fadd_F|lra].
Qed.
Theorem C264_at_least (l : list R) (x : R) : List.Forall F64 l -> List.Forall (fun x => 0 <= x) l -> In x l -> 0 <= x <= f_total l.
Proof.
  unfold f_total. intros F P I. split; [rewrite List.Forall_forall in P; now apply P|].
  assert (G : forall a, F64 a -> 0 <= a -> x <= fold_left fadd l a); [|apply G; [apply F64_0|lra]].
  revert P I. induction F as [|y l Fy Fl IH]; intros P I a Fa A; [destruct I|]. inversion P; subst x0 l0. cbn [fold_left].
  assert (y <= fadd a y) by (apply fl_le_l; [exact Fy|lra]). assert (a <= fadd a y) by (apply fl_le_l; [exact Fa|lra]).
  destruct I as [->|I].
  - eapply Rle_trans; [eassumption|]. apply acc_grows; try assumption; [apply fadd_F|lra].
  - apply IH; try assumption; [apply fadd_F|lra].
Qed.
Print Assumptions C264_at_least.
Theorem C264_counts (l : list Z) : List.Forall (fun z => (0 <= z)%Z) l -> (fold_right Z.add 0 l <= 2 ^ 53)%Z ->
  f_total (map IZR l) = IZR (fold_right Z.add 0%Z l).
Proof.
  unfold f_total. intros P B. assert (G : forall a, (0 <= a)%Z -> (a + fold_right Z.add 0 l <= 2 ^ 53)%Z ->
    fold_left fadd (map IZR l) (IZR a) = IZR (a + fold_right Z.add 0%Z l)); [|rewrite (G 0%Z) by lia; f_equal; lia].
  clear B. induction P as [|z l Hz P IH]; intros a A B; cbn [map fold_left fold_right] in *.
  - f_equal. lia.
  - assert (0 <= fold_right Z.add 0 l)%Z by (clear - P; induction P; cbn; lia).
    replace (fadd (IZR a) (IZR z)) with (IZR (a + z)) by (unfold fadd; rewrite <- plus_IZR, fl_id; [reflexivity|apply F64_IZR; lia]).
    rewrite IH by lia. f_equal. lia.
Qed.
Print Assumptions C264_counts.
(** ** C269: the order of the samples can matter, within twice the bound above *)
Lemma total_perm l l' : Permutation l l' -> total l = total l'.
Proof. induction 1; cbn [total]; lra. Qed.
Theorem C269_order_partial (l l' : list R) : Permutation l l' -> List.Forall F64 l ->
  Rabs (f_total l - f_total l') <= 2 * (((1 + bpow radix2 (-53)) ^ length l - 1) * total (map Rabs l)).
Proof.
  intros P F. assert (F' : List.Forall F64 l') by (rewrite List.Forall_forall in *; intros x I; apply F; eapply Permutation_in; [apply Permutation_sym; exact P|exact I]).
  pose proof (C264_error l F) as A. pose proof (C264_error l' F') as B. rewrite <- (Permutation_length P), <- (total_perm l l' P), <- (total_perm _ _ (Permutation_map Rabs P)) in B.
  replace (f_total l - f_total l') with ((f_total l - total l) - (f_total l' - total l)) by ring. eapply Rle_trans; [apply Rabs_triang|]. rewrite Rabs_Ropp. lra.
Qed.
Print Assumptions C269_order_partial.
Theorem C269_order_refuted : exists l l', Permutation l l' /\ List.Forall F64 l /\ List.Forall (fun x => 0 <= x) l /\ f_total l <> f_total l'.
Proof.
  assert (F3 : F64 (3/8)) by (replace (3/8) with (IZR 3 / IZR (2 ^ 3)) by (cbn; lra); apply F64_dyadic; lia).
  assert (F4 : F64 (3/4)) by (replace (3/4) with (IZR 3 / IZR (2 ^ 2)) by (cbn; lra); apply F64_dyadic; lia).
  assert (Fb : F64 (IZR (2 ^ 52))) by (apply F64_IZR; lia).
  exists [IZR (2 ^ 52); 3/8; 3/8], [3/8; 3/8; IZR (2 ^ 52)]. split; [|split; [|split]].
  - eapply perm_trans; [apply perm_swap|]. apply perm_skip. apply perm_swap.
  - repeat constructor; assumption.
  - change (2 ^ 52)%Z with 4503599627370496%Z. repeat constructor; lra.
  - unfold f_total. cbn [fold_left]. rewrite !fadd_0_l by assumption. unfold fadd. rewrite !fl_52 by lra.
    replace (3/8 + 3/8) with (3/4) by lra. rewrite (fl_id (3/4)) by assumption.
    rewrite (fl_eval (2 ^ 52 + 1) 0); change (2 ^ 0)%Z with 1%Z; [|lia| | |]; change (2 ^ 52)%Z with 4503599627370496%Z; change (2 ^ 53)%Z with 9007199254740992%Z; cbn [Z.add Pos.add Pos.succ]; [lra|lra|lra|].
    apply Rabs_def1; lra.
Qed.
Print Assumptions C269_order_refuted.
Example C264_ex : List.Forall F64 [1; 1/2] /\ List.Forall (fun z => (0 <= z)%Z) [1;1;1]%Z.
Proof. split; repeat constructor; try lia; [apply F64_1|apply F64_half]. Qed.

(** ** C265: the weights of a sampled triangle *)
Lemma u53 : bpow radix2 (-53) = / IZR (2 ^ 53). Proof. change (-53)%Z with (Z.opp 53). rewrite bpow_opp, bpow_pow by lia. reflexivity. Qed.
Lemma tiny : 0 < bpow radix2 (-1075) <= bpow radix2 (-200).
Proof. split; [apply bpow_gt_0|apply bpow_le; lia]. Qed.
Lemma tiny' : 0 < bpow radix2 (-1075) <= / IZR (2 ^ 200).
Proof. destruct tiny as (A & B). split; [exact A|]. eapply Rle_trans; [exact B|]. change (-200)%Z with (Z.opp 200). rewrite bpow_opp, bpow_pow by lia. apply Rle_refl. Qed.
Ltac bignum := repeat (change (2 ^ 52)%Z with 4503599627370496%Z || change (2 ^ 53)%Z with 9007199254740992%Z || change (2 ^ 50)%Z with 1125899906842624%Z || change (2 ^ 51)%Z with 2251799813685248%Z || change (2 ^ 49)%Z with 562949953421312%Z ||
  change (2 ^ 200)%Z with 1606938044258990275541962092341162602522202993782792835301376%Z).
Lemma fl_near x : Rabs x <= 1 -> Rabs (fl x - x) <= / IZR (2 ^ 53) + / IZR (2 ^ 200).
Proof. intros H. pose proof (fl_dist x) as D. rewrite u53 in D. pose proof tiny' as T. assert (0 < / IZR (2 ^ 53)) by (bignum; lra). set (k := / IZR (2 ^ 53)) in *. set (h := / IZR (2 ^ 200)) in *. clearbody k h. pose proof (Rabs_pos x). nra. Qed.
Lemma sqrt01 x : 0 <= x <= 1 -> 0 <= sqrt x <= 1.
Proof. intros (A & B). split; [apply sqrt_pos|]. rewrite <- sqrt_1. now apply sqrt_le_1_alt. Qed.
Lemma fl01 x : 0 <= x <= 1 -> 0 <= fl x <= 1.
Proof. intros (A & B). split; [now apply fl_nonneg|apply fl_le_r; [apply F64_1|exact B]]. Qed.
Theorem C265_weights_partial (u1 u2 : R) : 0 <= u1 <= 1 -> 0 <= u2 <= 1 -> let '(b0, b1, b2) := f_bary u1 u2 in
  0 <= b0 <= 1 /\ 0 <= b1 <= 1 /\ - / IZR (2 ^ 51) <= b2 <= 1 /\ Rabs (b0 + b1 + b2 - 1) <= / IZR (2 ^ 51).
Proof.
  intros H1 H2. unfold f_bary. cbv zeta. unfold fsqrt. pose proof (fl01 _ (sqrt01 _ H1)) as Hs. set (s := fl (sqrt u1)) in *.
  assert (Fs : F64 s) by apply fl_F64.
  assert (B0 : 0 <= fsub 1 s <= 1) by (apply fl01; lra). pose proof (fl_near (1 - s) ltac:(apply Rabs_le; lra)) as D0. change (fl (1 - s)) with (fsub 1 s) in D0. set (b0 := fsub 1 s) in *.
  assert (B1 : 0 <= fmul u2 s <= s) by (split; [apply fl_nonneg; nra|apply fl_le_r; [exact Fs|nra]]). set (b1 := fmul u2 s) in *.
  assert (B2 : 0 <= fsub 1 b0 <= 1) by (apply fl01; lra). pose proof (fl_near (1 - b0) ltac:(apply Rabs_le; lra)) as D2. change (fl (1 - b0)) with (fsub 1 b0) in D2. set (c := fsub 1 b0) in *.
  apply Rabs_le_inv in D0. apply Rabs_le_inv in D2.
  pose proof (fl_near (c - b1) ltac:(apply Rabs_le; lra)) as D3. change (fl (c - b1)) with (fsub c b1) in D3. apply Rabs_le_inv in D3.
  assert (U : fsub c b1 <= 1) by (apply fl_le_r; [apply F64_1|lra]).
  revert D0 D2 D3; bignum; intros.
  split; [lra|split; [lra|split; [lra|]]]. apply Rabs_le. lra.
Qed.
Print Assumptions C265_weights_partial.
Theorem C265_outside_refuted : exists u1 u2, 0 <= u1 < 1 /\ 0 <= u2 < 1 /\ F64 u1 /\ F64 u2 /\ let '(b0, b1, b2) := f_bary u1 u2 in b2 < 0.
Proof.
  set (s := / IZR (2 ^ 60)). assert (S0 : 0 < s < 1/100) by (unfold s; change (2 ^ 60)%Z with 1152921504606846976%Z; lra).
  assert (Fs : F64 s) by (replace s with (IZR 1 / IZR (2 ^ 60)) by (unfold s; lra); apply F64_dyadic; lia).
  assert (Fh : F64 (s / 2)). { replace (s / 2) with (IZR 1 / IZR (2 ^ 61)); [apply F64_dyadic; lia|]. unfold s. change (2 ^ 60)%Z with 1152921504606846976%Z. change (2 ^ 61)%Z with 2305843009213693952%Z. lra. }
  exists (s * s), (1/2). split; [nra|split; [lra|split; [|split; [apply F64_half|]]]].
  - replace (s * s) with (IZR 1 / IZR (2 ^ 120)); [apply F64_dyadic; lia|]. unfold s. change (2 ^ 60)%Z with 1152921504606846976%Z. change (2 ^ 120)%Z with (1152921504606846976 * 1152921504606846976)%Z. rewrite mult_IZR. field.
  - unfold f_bary. cbv zeta. unfold fsqrt. rewrite sqrt_square by lra. rewrite (fl_id s Fs).
    assert (E : fsub 1 s = 1). { unfold fsub. rewrite (fl_eval (2 ^ 53) 53); unfold s; [field; apply not_0_IZR; lia|lia| | |]; change (2 ^ 60)%Z with 1152921504606846976%Z; bignum; [lra|lra|apply Rabs_def1; lra]. }
    rewrite E. assert (E1 : fmul (1/2) s = s / 2) by (unfold fmul; replace (1/2 * s) with (s / 2) by lra; now apply fl_id). rewrite E1.
    unfold fsub. replace (1 - 1) with 0 by ring. rewrite fl_0. replace (0 - s / 2) with (- (s / 2)) by ring. rewrite fl_opp, (fl_id _ Fh). lra.
Qed.
Print Assumptions C265_outside_refuted.

(** ** C266: directions in a cone: the cosine is in range, so the square root exists *)
Lemma fl_le_1 x : x <= 1 + / IZR (2 ^ 53) -> fl x <= 1.
Proof.
  intros H. apply fl_le in H. eapply Rle_trans; [exact H|]. rewrite (fl_tie (2 ^ 52) 52); [|lia| | |]; bignum; [cbn [Z.even]; lra|lra|lra|lra].
Qed.
Lemma one_minus u : F64 u -> 0 <= u <= 1 -> 0 <= fsub 1 u <= 1 /\ fsub 1 u + u <= 1 + / IZR (2 ^ 53).
Proof.
  intros F H. assert (B : 0 <= fsub 1 u <= 1) by (apply fl01; lra). split; [exact B|].
  destruct (Rle_dec u (/ IZR (2 ^ 53))) as [L|L]; [lra|]. pose proof (fl_dist (1 - u)) as D. rewrite u53 in D. pose proof tiny' as T.
  change (fl (1 - u)) with (fsub 1 u) in D. rewrite (Rabs_right (1 - u)) in D by lra. apply Rabs_le_inv in D. revert D T L; bignum; intros. nra.
Qed.
Theorem C266_cone (framed : bool) (u ct_max : R) : F64 u -> F64 ct_max -> 0 <= u <= 1 -> -1 <= ct_max <= 1 ->
  -1 <= f_cone_cos framed u ct_max <= 1 /\ ct_max - / IZR (2 ^ 50) <= f_cone_cos framed u ct_max /\
  Rabs (f_cone_cos framed u ct_max - (if framed then (1 - u) * ct_max + u else (1 - u) + u * ct_max)) <= / IZR (2 ^ 50) /\
  0 <= f_cone_root framed u ct_max <= 1.
Proof.
  intros Fu Fc Hu Hc. destruct (one_minus u Fu Hu) as (A & B). set (v := fsub 1 u) in *. assert (Fv : F64 v) by apply fl_F64.
  assert (Dv : Rabs (v - (1 - u)) <= / IZR (2 ^ 53) + / IZR (2 ^ 200)) by (apply fl_near; apply Rabs_le; lra).
  assert (C : -1 <= f_cone_cos framed u ct_max <= 1 /\ Rabs (f_cone_cos framed u ct_max - (if framed then (1 - u) * ct_max + u else (1 - u) + u * ct_max)) <= / IZR (2 ^ 50)).
  { destruct framed; cbn [f_cone_cos].
    - unfold f_lerp. fold v. replace (fmul u 1) with u by (rewrite fmul_comm, fmul_1; auto).
      assert (M : - v <= fmul v ct_max <= v) by (split; [apply fl_le_l; [now apply F64_opp|nra]|apply fl_le_r; [exact Fv|nra]]).
      pose proof (fl_near (v * ct_max) ltac:(apply Rabs_le; nra)) as D1. change (fl (v * ct_max)) with (fmul v ct_max) in D1.
      assert (R1 : -1 <= fadd (fmul v ct_max) u <= 1) by (split; [apply fl_le_l; [apply F64_opp, F64_1|lra]|apply fl_le_1; lra]).
      split; [exact R1|].
      pose proof (fl_dist (fmul v ct_max + u)) as D2. rewrite u53 in D2. pose proof tiny' as T. change (fl (fmul v ct_max + u)) with (fadd (fmul v ct_max) u) in D2.
      assert (Q : Rabs (fmul v ct_max + u) <= 2) by (apply Rabs_le; lra).
      assert (D2' : Rabs (fadd (fmul v ct_max) u - (fmul v ct_max + u)) <= 2 * / IZR (2 ^ 53) + / IZR (2 ^ 200)).
      { eapply Rle_trans; [exact D2|]. assert (0 < / IZR (2 ^ 53)) by (bignum; lra). nra. }
      clear D2. apply Rabs_le_inv in D1, D2', Dv. apply Rabs_le.
      set (k := / IZR (2 ^ 53) + / IZR (2 ^ 200)) in *. assert (V : - k <= (v - (1 - u)) * ct_max <= k) by nra.
      unfold k in *. revert D1 D2' V; bignum; intros. lra.
    - fold v. assert (M : - u <= fmul u ct_max <= u) by (split; [apply fl_le_l; [now apply F64_opp|nra]|apply fl_le_r; [exact Fu|nra]]).
      pose proof (fl_near (u * ct_max) ltac:(apply Rabs_le; nra)) as D1. change (fl (u * ct_max)) with (fmul u ct_max) in D1.
      assert (R1 : -1 <= fadd v (fmul u ct_max) <= 1) by (split; [apply fl_le_l; [apply F64_opp, F64_1|lra]|apply fl_le_1; lra]).
      split; [exact R1|].
      pose proof (fl_dist (v + fmul u ct_max)) as D2. rewrite u53 in D2. pose proof tiny' as T. change (fl (v + fmul u ct_max)) with (fadd v (fmul u ct_max)) in D2.
      assert (Q : Rabs (v + fmul u ct_max) <= 2) by (apply Rabs_le; lra).
      assert (D2' : Rabs (fadd v (fmul u ct_max) - (v + fmul u ct_max)) <= 2 * / IZR (2 ^ 53) + / IZR (2 ^ 200)).
      { eapply Rle_trans; [exact D2|]. assert (0 < / IZR (2 ^ 53)) by (bignum; lra). nra. }
      clear D2. apply Rabs_le_inv in D1, D2', Dv. apply Rabs_le. revert D1 D2' Dv; bignum; intros. lra. }
  destruct C as (C1 & C2). split; [exact C1|split; [|split; [exact C2|]]].
  - apply Rabs_le_inv in C2. destruct framed; nra.
  - unfold f_cone_root. cbv zeta. set (ct := f_cone_cos framed u ct_max) in *. assert (0 <= fmul ct ct <= 1) by (apply fl01; nra). apply fl01. lra.
Qed.
Print Assumptions C266_cone.
