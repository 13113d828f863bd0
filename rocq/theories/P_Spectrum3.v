From Coq Require Import Reals Lra Lia List ZArith Bool Psatz.
From Verif Require Import Base M_Film S_Film P_Film P_Film2 M_Spectrum S_Spectrum P_Spectrum P_Spectrum2.
Import ListNotations.
Open Scope R_scope.

(** [overlap] of [a,b] with [p,q] *)
Definition cl (x p q : R) : R := Rmax p (Rmin x q).
Lemma seg_bounds l0 v0 l1 v1 a b m M : l0 <= l1 -> a <= b -> m <= v0 <= M -> m <= v1 <= M ->
  m * (cl b l0 l1 - cl a l0 l1) <= segment_area l0 v0 l1 v1 a b <= M * (cl b l0 l1 - cl a l0 l1).
Proof.
  intros L H A B. unfold segment_area. destruct Rle_dec as [Q|Q].
  - assert (E0 : cl b l0 l1 - cl a l0 l1 = 0).
    { unfold cl. revert Q. unfold Rmin, Rmax. repeat destruct Rle_dec; intros; lra. }
    rewrite E0. lra.
  - assert (E0 : cl b l0 l1 - cl a l0 l1 = Rmin b l1 - Rmax a l0).
    { unfold cl. revert Q. unfold Rmin, Rmax. repeat destruct Rle_dec; intros; lra. }
    rewrite E0. apply Rnot_le_lt in Q.
    assert (A1 : l0 <= Rmax a l0) by apply Rmax_r. assert (B1 : Rmin b l1 <= l1) by apply Rmin_r.
    set (p := Rmax a l0) in *. set (q := Rmin b l1) in *. clearbody p q.
    assert (LN : forall x, l0 <= x <= l1 -> m <= line l0 v0 l1 v1 x <= M).
    { intros x X. unfold line. set (t := (x - l0) / (l1 - l0)).
      assert (T : 0 <= t <= 1).
      { unfold t. assert (0 < l1 - l0) by lra. assert (0 < / (l1 - l0)) by (now apply Rinv_0_lt_compat).
        split; [unfold Rdiv; apply Rmult_le_pos; lra|]. apply (Rmult_le_reg_r (l1 - l0)); [lra|].
        unfold Rdiv. rewrite Rmult_assoc, Rinv_l by lra. lra. }
      clearbody t. replace (v0 + (v1 - v0) * t) with ((1 - t) * v0 + t * v1) by ring.
      assert (m * (1-t) <= v0 * (1-t)) by (apply Rmult_le_compat_r; lra).
      assert (v0 * (1-t) <= M * (1-t)) by (apply Rmult_le_compat_r; lra).
      assert (m * t <= v1 * t) by (apply Rmult_le_compat_r; lra).
      assert (v1 * t <= M * t) by (apply Rmult_le_compat_r; lra). lra. }
    pose proof (LN p ltac:(lra)) as P. pose proof (LN q ltac:(lra)) as P'.
    set (f := line l0 v0 l1 v1 p) in *. set (g := line l0 v0 l1 v1 q) in *. clearbody f g.
    assert (m * (q - p) <= (f + g) / 2 * (q - p)) by (apply Rmult_le_compat_r; lra).
    assert ((f + g) / 2 * (q - p) <= M * (q - p)) by (apply Rmult_le_compat_r; lra). lra.
Qed.
Lemma cl_join x p q r : p <= q <= r -> cl x p q + cl x q r - q = cl x p r.
Proof. intros. unfold cl, Rmin, Rmax. repeat destruct Rle_dec; lra. Qed.
Lemma inner_bounds lam : forall v a b m M, increasing lam -> length v = length lam -> a <= b -> lam <> [] ->
  (forall x, In x v -> m <= x <= M) ->
  m * (cl b (nth 0 lam 0) (last lam 0) - cl a (nth 0 lam 0) (last lam 0)) <= inner_area lam v a b
   <= M * (cl b (nth 0 lam 0) (last lam 0) - cl a (nth 0 lam 0) (last lam 0)).
Proof.
  induction lam as [|l0 [|l1 t] IH]; intros v a b m M INC LV H NE V; [congruence| |].
  - destruct v as [|v0 [|? ?]]; cbn in LV; try lia. cbn.
    replace (cl b l0 l0 - cl a l0 l0) with 0; [lra|]. unfold cl, Rmin, Rmax; repeat destruct Rle_dec; lra.
  - destruct v as [|v0 [|v1 w]]; cbn in LV; try lia.
    change (inner_area (l0 :: l1 :: t) (v0 :: v1 :: w) a b) with (segment_area l0 v0 l1 v1 a b + inner_area (l1 :: t) (v1 :: w) a b).
    assert (INC' : increasing (l1 :: t)) by (intros i j K; apply (INC (S i) (S j)); cbn in *; lia).
    assert (L01 : l0 <= l1) by (apply (INC 0%nat 1%nat); cbn; lia).
    assert (NE' : l1 :: t <> []) by discriminate.
    pose proof (first_le_last _ NE' INC') as L1n.
    pose proof (seg_bounds l0 v0 l1 v1 a b m M L01 H (V v0 ltac:(now left)) (V v1 ltac:(right; now left))) as S0.
    pose proof (IH (v1 :: w) a b m M INC' ltac:(cbn in *; lia) H NE' (fun x X => V x (or_intror X))) as S1.
    change (last (l0 :: l1 :: t) 0) with (last (l1 :: t) 0). cbn [nth] in *.
    rewrite <- (cl_join b l0 l1 (last (l1 :: t) 0)), <- (cl_join a l0 l1 (last (l1 :: t) 0)) by lra.
    set (x1 := cl b l0 l1) in *. set (x2 := cl a l0 l1) in *. set (x3 := cl b l1 _) in *. set (x4 := cl a l1 _) in *.
    clearbody x1 x2 x3 x4. 
    replace (x1 + x3 - l1 - (x2 + x4 - l1)) with ((x1 - x2) + (x3 - x4)) by ring. rewrite !Rmult_plus_distr_l. lra.
Qed.
Lemma curve_bounds lam v a b m M : increasing lam -> length v = length lam -> lam <> [] -> a <= b ->
  (forall x, In x v -> m <= x <= M) -> m * (b - a) <= curve_area lam v a b <= M * (b - a).
Proof.
  intros INC LV NE H V. pose proof (inner_bounds lam v a b m M INC LV H NE V) as IB.
  pose proof (first_le_last lam NE INC) as FL.
  assert (N1 : (1 <= length lam)%nat) by (destruct lam; [congruence|cbn; lia]).
  assert (V0 : m <= nth 0 v 0 <= M) by (apply V, nth_In; lia).
  assert (V1 : m <= last v 0 <= M) by (rewrite last_nth; apply V, nth_In; lia).
  unfold curve_area. set (f := nth 0 lam 0) in *. set (l := last lam 0) in *.
  set (p := Rmax 0 (Rmin b f - a)). set (q := Rmax 0 (b - Rmax a l)).
  assert (P : 0 <= p) by apply Rmax_l. assert (Q : 0 <= q) by apply Rmax_l.
  assert (S : b - a = p + (cl b f l - cl a f l) + q).
  { unfold p, q, cl, Rmin, Rmax. repeat destruct Rle_dec; lra. }
  rewrite S. clear S. set (c := cl b f l - cl a f l) in *. clearbody c p q f l.
  rewrite !Rmult_plus_distr_l.
  assert (m * p <= nth 0 v 0 * p) by (apply Rmult_le_compat_r; lra).
  assert (nth 0 v 0 * p <= M * p) by (apply Rmult_le_compat_r; lra).
  assert (m * q <= last v 0 * q) by (apply Rmult_le_compat_r; lra).
  assert (last v 0 * q <= M * q) by (apply Rmult_le_compat_r; lra). lra.
Qed.

(** the specification is additive in the interval *)
Lemma seg_add l0 v0 l1 v1 a b c : l0 <= l1 -> a <= b <= c ->
  segment_area l0 v0 l1 v1 a b + segment_area l0 v0 l1 v1 b c = segment_area l0 v0 l1 v1 a c.
Proof.
  intros L H. destruct (Rle_lt_or_eq_dec _ _ L) as [SL|SE].
  - unfold segment_area. destruct (Rle_dec b l0) as [B0|B0].
    + rewrite !(Rmax_right _ l0) by lra. rewrite (Rmin_left b) by lra.
      destruct (Rle_dec b l0); [|lra]. lra.
    + destruct (Rle_dec l1 b) as [B1|B1].
      * rewrite (Rmin_right b), (Rmin_right c) by lra. rewrite (Rmax_left b) by lra.
        destruct (Rle_dec l1 b); [|lra]. lra.
      * rewrite (Rmin_left b), (Rmax_left b) by lra.
        assert (X : Rmax a l0 <= b) by (apply Rmax_lub; lra). assert (Y : b <= Rmin c l1) by (apply Rmin_glb; lra).
        set (p := Rmax a l0) in *. set (q := Rmin c l1) in *. clearbody p q.
        unfold line. repeat destruct Rle_dec; try lra; try (field; lra).
        -- assert (p = b) by lra. subst. field; lra.
        -- assert (q = b) by lra. subst. field; lra.
  - subst l1. unfold segment_area. repeat destruct Rle_dec; try lra; exfalso;
    repeat match goal with H : ~ _ <= _ |- _ => revert H end; unfold Rmin, Rmax; repeat destruct Rle_dec; lra.
Qed.
Lemma curve_area_additive lam v a b c : increasing lam -> length v = length lam -> lam <> [] -> a <= b <= c ->
  curve_area lam v a b + curve_area lam v b c = curve_area lam v a c.
Proof.
  intros INC LV NE H.
  assert (IA : inner_area lam v a b + inner_area lam v b c = inner_area lam v a c).
  { clear NE. revert v LV. induction lam as [|l0 [|l1 t] IH]; intros [|v0 [|v1 w]] LV; cbn in LV; try lia; try (cbn; lra).
    assert (INC' : increasing (l1 :: t)) by (intros i j K; apply (INC (S i) (S j)); cbn in *; lia).
    assert (L01 : l0 <= l1) by (apply (INC 0%nat 1%nat); cbn; lia).
    specialize (IH INC' (v1 :: w) ltac:(cbn; lia)).
    assert (U : forall p q, inner_area (l0 :: l1 :: t) (v0 :: v1 :: w) p q =
      segment_area l0 v0 l1 v1 p q + inner_area (l1 :: t) (v1 :: w) p q) by reflexivity.
    rewrite !U, <- IH, <- (seg_add l0 v0 l1 v1 a b c) by lra. ring. }
  pose proof (first_le_last lam NE INC) as FL.
  unfold curve_area. rewrite <- IA.
  assert (P : Rmax 0 (Rmin b (nth 0 lam 0) - a) + Rmax 0 (Rmin c (nth 0 lam 0) - b) = Rmax 0 (Rmin c (nth 0 lam 0) - a)).
  { unfold Rmin, Rmax. repeat destruct Rle_dec; lra. }
  assert (Q : Rmax 0 (b - Rmax a (last lam 0)) + Rmax 0 (c - Rmax b (last lam 0)) = Rmax 0 (c - Rmax a (last lam 0))).
  { unfold Rmin, Rmax. repeat destruct Rle_dec; lra. }
  rewrite <- P, <- Q. ring.
Qed.

(** resampling *)
Lemma bin_start_val i : bin_start i = 400 + 10 * INR i.
Proof. unfold bin_start, lerp1, LAMBDA_START, LAMBDA_END, N_SPECTRAL. replace (INR 30) with 30 by (cbn; lra). lra. Qed.
Lemma bin_end_init_val i : bin_end_init i = 410 + 10 * INR i.
Proof. unfold bin_end_init, lerp1, LAMBDA_START, LAMBDA_END, N_SPECTRAL. rewrite S_INR. replace (INR 30) with 30 by (cbn; lra). lra. Qed.
Lemma bin_end_sampled_val i : bin_end_sampled i = 410 + 300 * INR i.
Proof. unfold bin_end_sampled, lerp1, LAMBDA_START, LAMBDA_END, N_SPECTRAL. replace (INR 30) with 30 by (cbn; lra). lra. Qed.
Lemma resample_main lam v bend is : increasing lam -> length v = length lam -> lam <> [] ->
  (forall i, bin_start i < bend i) ->
  exists s, resample bend lam v is = Ok s /\ length s = length is /\
    forall j i, nth_error is j = Some i -> exists a, nth_error s j = Some a /\
      average_spectrum_samples lam v (bin_start i) (bend i) = Ok (a, lam, v).
Proof.
  intros INC LV NE B. induction is as [|i is IH]; [exists []; repeat split; intros [|j] i; discriminate|].
  destruct IH as (s & S1 & S2 & S3). destruct (average_main lam v (bin_start i) (bend i) INC LV NE (B i)) as (a & A1 & _).
  exists (a :: s). cbn [resample]. rewrite A1. cbn [bind]. rewrite S1. cbn [bind]. split; [reflexivity|].
  split; [cbn; lia|]. intros [|j] i' J; cbn in J; [injection J as <-; exists a; auto|]. apply S3 in J. exact J.
Qed.
Lemma nth_error_seq n : forall s i, (i < n)%nat -> nth_error (seq s n) i = Some (s + i)%nat.
Proof.
  induction n; intros s i H; [lia|]. destruct i; cbn; [now rewrite Nat.add_0_r|]. rewrite IHn by lia. f_equal. lia.
Qed.

Lemma rgb_round_trip c : vclose (1e-6 * vabs1 c) (rgb_from_xyz (rgb_to_xyz c)) c.
Proof. exact (round_trip6 c). Qed.
