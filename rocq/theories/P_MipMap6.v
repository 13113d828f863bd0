(** Which level a lookup uses; periodicity; elliptical lookups. *)
From Coq Require Import Reals List ZArith Bool Lra Lia.
From Verif Require Import Base M_Utility M_Film M_MipMap S_Texture P_Film P_Utility P_MipMap1 P_MipMap2 P_MipMap3 P_MipMap4 P_MipMap5.
Import ListNotations.
Open Scope R_scope.

Lemma log2_lt x k : 0 < x -> (0 <= k)%Z -> (IZR k + log2R x < 0 <-> x * IZR (2 ^ k) < 1).
Proof.
  intros X K. pose proof ln2_pos as L. rewrite IZR_pow2 by exact K.
  assert (Q : x * exp (IZR k * ln 2) = exp ((IZR k + log2R x) * ln 2)).
  { rewrite Rmult_plus_distr_r, exp_plus, (exp_log2 x X). ring. }
  rewrite Q. split; intros H.
  - rewrite <- exp_0. apply exp_increasing. nra.
  - rewrite <- exp_0 in H. apply exp_lt_inv in H. nra.
Qed.
Lemma log2_ge0 x : 0 < x -> (0 <= log2R x <-> 1 <= x).
Proof.
  intros X. pose proof (log2_lt x 0 X ltac:(lia)) as H. cbn in H. rewrite Rplus_0_l, Rmult_1_r in H.
  split; intros Q; apply Rnot_lt_le; intros Q1; [assert (log2R x < 0) by tauto|assert (x < 1) by tauto]; lra.
Qed.
Lemma EPS_pos : 0 < EPS. Proof. unfold EPS; lra. Qed.

Section Lk.
Context {m : mip} {l0 : image} {a b : Z} (G : good m l0 a b).
Lemma fine_lookup s t width : Rmax width EPS * IZR (2 ^ Z.max a b) < 1 -> look_up3 m s t width = Ok (bil (m_wrap m) l0 (2 ^ a) (2 ^ b) s t).
Proof.
  intros H. unfold look_up3. cbv zeta. pose proof (top_eq G) as T. pose proof (g_a _ _ _ _ G). pose proof (g_b _ _ _ _ G).
  rewrite T. replace (1 + Z.max a b - 1)%Z with (Z.max a b) by lia.
  assert (P : 0 < Rmax width EPS) by (pose proof (Rmax_r width EPS); pose proof EPS_pos; lra).
  apply log2_lt in H; [|exact P|lia]. destruct (Rltb _ 0) eqn:Q; Rb; [|lra].
  assert (Z0 : zclip 0 0 (n_levels m - 1) = 0%Z) by (unfold zclip; lia).
  apply (triangle_ok G 0 s t l0); [rewrite Z0; exact (g_0 _ _ _ _ G)|].
  destruct (g_lv _ _ _ _ G 0%nat l0 (g_0 _ _ _ _ G)) as [Sh _]. exact Sh.
Qed.
Lemma coarse_lookup s t width : 1 <= width -> exists l, nth_error (m_pyr m) (Z.to_nat (Z.max a b)) = Some l /\ shaped l 1 1 /\
  look_up3 m s t width = Ok (bil (m_wrap m) l 1 1 0 0).
Proof.
  intros H. destruct (top_shape G) as (l & Hl & Sh). exists l. split; [exact Hl|]. split; [exact Sh|].
  unfold look_up3. cbv zeta. pose proof (top_eq G) as T. pose proof (g_a _ _ _ _ G). pose proof (g_b _ _ _ _ G).
  assert (Mx : Rmax width EPS = width) by (apply Rmax_left; unfold EPS; lra). rewrite Mx.
  assert (L : 0 <= log2R width) by (apply log2_ge0; lra).
  assert (N : 0 <= IZR (n_levels m - 1)) by (apply IZR_le; lia).
  destruct (Rltb _ 0) eqn:Q; Rb; [lra|]. destruct (Rleb _ _) eqn:Q1; Rb; [|lra].
  assert (C : zclip (n_levels m) 0 (n_levels m - 1) = Z.max a b) by (unfold zclip; lia).
  apply (triangle_ok G (n_levels m) 0 0 l 1 1); [rewrite C; exact Hl|exact Sh].
Qed.
Lemma floor_shift x k : Zfloor (x + IZR k) = (Zfloor x + k)%Z.
Proof. apply Zfloor_unique. rewrite plus_IZR. destruct (Zfloor_spec x). lra. Qed.
Lemma bil_period l r c s t i j : (0 < r)%Z -> (0 < c)%Z -> bil REPEAT l r c (s + IZR i) (t + IZR j) = bil REPEAT l r c s t.
Proof.
  intros R C. unfold bil. cbv zeta. cbn [tx].
  replace ((s + IZR i) * IZR r - / 2) with (s * IZR r - / 2 + IZR (i * r)) by (rewrite mult_IZR; ring).
  replace ((t + IZR j) * IZR c - / 2) with (t * IZR c - / 2 + IZR (j * c)) by (rewrite mult_IZR; ring).
  rewrite !floor_shift. rewrite !plus_IZR.
  set (x := s * IZR r - / 2). set (y := t * IZR c - / 2).
  replace (x + IZR (i * r) - (IZR (Zfloor x) + IZR (i * r))) with (x - IZR (Zfloor x)) by ring.
  replace (y + IZR (j * c) - (IZR (Zfloor y) + IZR (j * c))) with (y - IZR (Zfloor y)) by ring.
  replace (Zfloor x + i * r + 1)%Z with (Zfloor x + 1 + i * r)%Z by ring. replace (Zfloor y + j * c + 1)%Z with (Zfloor y + 1 + j * c)%Z by ring.
  rewrite !Z_mod_plus_full. reflexivity.
Qed.
Lemma triangle_period lv s t i j : m_wrap m = REPEAT -> triangle m lv (s + IZR i) (t + IZR j) = triangle m lv s t.
Proof.
  intros W. pose proof (top_eq G). pose proof (g_a _ _ _ _ G). pose proof (g_b _ _ _ _ G).
  pose proof (zclip_range lv 0 (n_levels m - 1) ltac:(lia)) as Bl.
  destruct (level_ex G (zclip lv 0 (n_levels m - 1)) ltac:(lia)) as (l & _ & Hl & Sh).
  rewrite !(triangle_ok G lv _ _ l _ _ Hl Sh). rewrite W. f_equal. destruct Sh as (R & C & _). apply bil_period; assumption.
Qed.
Lemma look_up_period s t width i j : m_wrap m = REPEAT -> look_up3 m (s + IZR i) (t + IZR j) width = look_up3 m s t width.
Proof. intros W. unfold look_up3. cbv zeta. rewrite !triangle_period by exact W. reflexivity. Qed.

(** elliptical footprints *)
Lemma ewa_low lv s t a0 b0 a1 b1 : (lv < n_levels m)%Z -> ewa m lv s t a0 b0 a1 b1 = Err AttributeError.
Proof. intros H. unfold ewa. destruct (n_levels m <=? lv)%Z eqn:Q; [lia|reflexivity]. Qed.
Lemma sqrt_sum_pos x y : 0 < sqrt (x * x + y * y) -> 0 < x * x + y * y.
Proof. intros H. destruct (Rle_lt_dec (x * x + y * y) 0) as [L|L]; [|exact L]. rewrite sqrt_neg_0 in H by exact L. lra. Qed.
Lemma ewa_fails s t a0 b0 a1 b1 : m_tri m = false ->
  let p := sqrt (a0 * a0 + b0 * b0) in let q := sqrt (a1 * a1 + b1 * b1) in
  0 < Rmin p q < 2 -> Rmax p q <= Rmin p q * m_aniso m -> look_up6 m s t a0 b0 a1 b1 = Err AttributeError.
Proof.
  intros T p q M An. unfold look_up6. rewrite T.
  assert (Main : forall x0 y0 x1 y1, sqrt (x1 * x1 + y1 * y1) = Rmin p q -> sqrt (x0 * x0 + y0 * y0) = Rmax p q ->
    (let '(ds0, dt0, ds1, dt1) := (x0, y0, x1, y1) in
    let major := sqrt (ds0 * ds0 + dt0 * dt0) in
    let minor := sqrt (ds1 * ds1 + dt1 * dt1) in
    let clampd := Rltb (minor * m_aniso m) major && Rltb 0 minor in
    let scale := if clampd then major / (minor * m_aniso m) else 1 in
    let ds0 := ds0 * scale in let ds1 := ds1 * scale in let minor := minor * scale in
    if Reqb minor 0 then triangle m 0 s t
    else
      let lod := Rmax 0 (IZR (n_levels m) - 1 + log2R minor) in
      let lodi := ftoi lod in let d := lod - IZR lodi in
      do x <- ewa m lodi s t ds0 dt0 ds1 dt1; do y <- ewa m (lodi + 1) s t ds0 dt0 ds1 dt1;
      Ok ((1 - d) * x + d * y)) = Err AttributeError).
  { intros x0 y0 x1 y1 E1 E0. cbv zeta. rewrite E1, E0.
    destruct (Rltb (Rmin p q * m_aniso m) (Rmax p q)) eqn:Q; Rb; [lra|]. cbn [andb]. rewrite !Rmult_1_r.
    destruct (Reqb (Rmin p q) 0) eqn:Q1; Rb; [lra|].
    rewrite ewa_low; [reflexivity|]. unfold ftoi. apply Zfloor_lt.
    pose proof (top_eq G). pose proof (g_a _ _ _ _ G). pose proof (g_b _ _ _ _ G). assert (0 < IZR (n_levels m)) by (apply IZR_lt; lia).
    apply Rmax_lub_lt; [lra|]. assert (log2R (Rmin p q) < 1); [|lra].
    pose proof ln2_pos. unfold log2R. apply (Rmult_lt_reg_r (ln 2)); [lra|]. unfold Rdiv. rewrite Rmult_assoc, Rinv_l, Rmult_1_r, Rmult_1_l by lra.
    apply ln_increasing; lra. }
  destruct (Rltb (a0 * a0 + b0 * b0) (a1 * a1 + b1 * b1)) eqn:Q; Rb; apply Main; fold p q.
  - symmetry. apply Rmin_left. apply sqrt_le_1_alt. lra.
  - symmetry. apply Rmax_right. apply sqrt_le_1_alt. lra.
  - symmetry. apply Rmin_right. apply sqrt_le_1_alt. lra.
  - symmetry. apply Rmax_left. apply sqrt_le_1_alt. lra.
Qed.
Lemma ewa_degenerate s t a0 b0 : m_tri m = false -> look_up6 m s t a0 b0 0 0 = Ok (bil (m_wrap m) l0 (2 ^ a) (2 ^ b) s t).
Proof.
  intros T. unfold look_up6. rewrite T. destruct (Rltb (a0 * a0 + b0 * b0) (0 * 0 + 0 * 0)) eqn:Q; Rb; [exfalso; nra|].
  replace (0 * 0 + 0 * 0) with 0 by ring. rewrite sqrt_0.
  assert (Z0 : Rltb 0 0 = false) by (unfold Rltb; destruct Rlt_dec; [lra|reflexivity]). cbv zeta. rewrite Z0, andb_false_r, !Rmult_0_l.
  destruct (Reqb 0 0) eqn:Q1; Rb; [|lra]. pose proof (top_eq G). pose proof (g_a _ _ _ _ G). pose proof (g_b _ _ _ _ G).
  assert (C0 : zclip 0 0 (n_levels m - 1) = 0%Z) by (unfold zclip; lia).
  apply (triangle_ok G 0 s t l0); [rewrite C0; exact (g_0 _ _ _ _ G)|].
  destruct (g_lv _ _ _ _ G 0%nat l0 (g_0 _ _ _ _ G)) as [Sh _]. exact Sh.
Qed.
(** the smaller axis of the footprint after the eccentricity clamp *)
Definition ewa_tail (s t x0 y0 x1 y1 : R) (minor : R) : res R :=
  if Reqb minor 0 then triangle m 0 s t
  else
    let lod := Rmax 0 (IZR (n_levels m) - 1 + log2R minor) in
    let lodi := ftoi lod in let d := lod - IZR lodi in
    do x <- ewa m lodi s t x0 y0 x1 y1; do y <- ewa m (lodi + 1) s t x0 y0 x1 y1;
    Ok ((1 - d) * x + d * y).
Lemma ewa_shape s t a0 b0 a1 b1 : m_tri m = false -> 0 < m_aniso m ->
  let p := sqrt (a0 * a0 + b0 * b0) in let q := sqrt (a1 * a1 + b1 * b1) in
  exists x0 y0 x1 y1, look_up6 m s t a0 b0 a1 b1 = ewa_tail s t x0 y0 x1 y1 (if Req_EM_T (Rmin p q) 0 then 0 else Rmax (Rmin p q) (Rmax p q / m_aniso m)).
Proof.
  intros T An p q. unfold look_up6. rewrite T.
  assert (P0 : 0 <= p) by apply sqrt_pos. assert (Q0 : 0 <= q) by apply sqrt_pos.
  assert (MM : 0 <= Rmin p q) by (apply Rmin_glb; assumption).
  assert (Main : forall x0 y0 x1 y1, sqrt (x1 * x1 + y1 * y1) = Rmin p q -> sqrt (x0 * x0 + y0 * y0) = Rmax p q ->
    exists u0 v0 u1 v1, (let '(ds0, dt0, ds1, dt1) := (x0, y0, x1, y1) in
    let major := sqrt (ds0 * ds0 + dt0 * dt0) in
    let minor := sqrt (ds1 * ds1 + dt1 * dt1) in
    let clampd := Rltb (minor * m_aniso m) major && Rltb 0 minor in
    let scale := if clampd then major / (minor * m_aniso m) else 1 in
    let ds0 := ds0 * scale in let ds1 := ds1 * scale in let minor := minor * scale in
    if Reqb minor 0 then triangle m 0 s t
    else
      let lod := Rmax 0 (IZR (n_levels m) - 1 + log2R minor) in
      let lodi := ftoi lod in let d := lod - IZR lodi in
      do x <- ewa m lodi s t ds0 dt0 ds1 dt1; do y <- ewa m (lodi + 1) s t ds0 dt0 ds1 dt1;
      Ok ((1 - d) * x + d * y)) = ewa_tail s t u0 v0 u1 v1 (if Req_EM_T (Rmin p q) 0 then 0 else Rmax (Rmin p q) (Rmax p q / m_aniso m))).
  { intros x0 y0 x1 y1 E1 E0. cbv zeta. rewrite E1, E0. set (mi := Rmin p q) in *. set (mj := Rmax p q) in *. clearbody mi mj. clear E1 E0.
    assert (EF : mi * (if Rltb (mi * m_aniso m) mj && Rltb 0 mi then mj / (mi * m_aniso m) else 1) = if Req_EM_T mi 0 then 0 else Rmax mi (mj / m_aniso m)).
    { destruct (Req_EM_T mi 0) as [-> |N0]; [ring|]. assert (Rltb 0 mi = true) as -> by (unfold Rltb; destruct Rlt_dec; [reflexivity|lra]). rewrite andb_true_r.
      assert (D : mj / m_aniso m * m_aniso m = mj) by (field; lra).
      destruct (Rltb (mi * m_aniso m) mj) eqn:Q; Rb.
      - rewrite Rmax_right; [field; split; lra|]. apply Rmult_le_reg_r with (m_aniso m); [lra|]. rewrite D. lra.
      - rewrite Rmax_left; [ring|]. apply Rmult_le_reg_r with (m_aniso m); [lra|]. rewrite D. lra. }
    rewrite EF. match goal with |- context [x0 * ?k] => exists (x0 * k), y0, (x1 * k), y1 end. reflexivity. }
  destruct (Rltb (a0 * a0 + b0 * b0) (a1 * a1 + b1 * b1)) eqn:Q; Rb; apply Main; fold p q.
  - symmetry. apply Rmin_left. apply sqrt_le_1_alt. lra.
  - symmetry. apply Rmax_right. apply sqrt_le_1_alt. lra.
  - symmetry. apply Rmin_right. apply sqrt_le_1_alt. lra.
  - symmetry. apply Rmax_left. apply sqrt_le_1_alt. lra.
Qed.
Lemma ewa_tail_zero s t x0 y0 x1 y1 : ewa_tail s t x0 y0 x1 y1 0 = Ok (bil (m_wrap m) l0 (2 ^ a) (2 ^ b) s t).
Proof.
  unfold ewa_tail. destruct (Reqb 0 0) eqn:Q1; Rb; [|lra]. pose proof (top_eq G). pose proof (g_a _ _ _ _ G). pose proof (g_b _ _ _ _ G).
  assert (C0 : zclip 0 0 (n_levels m - 1) = 0%Z) by (unfold zclip; lia).
  apply (triangle_ok G 0 s t l0); [rewrite C0; exact (g_0 _ _ _ _ G)|].
  destruct (g_lv _ _ _ _ G 0%nat l0 (g_0 _ _ _ _ G)) as [Sh _]. exact Sh.
Qed.
Lemma log2_one_lt x : 0 < x -> (log2R x < 1 <-> x < 2).
Proof.
  intros X. pose proof ln2_pos. unfold log2R.
  assert (E : ln x / ln 2 < 1 <-> ln x < ln 2).
  { split; intros H1.
    - apply (Rmult_lt_compat_r (ln 2)) in H1; [|lra]. unfold Rdiv in H1. rewrite Rmult_assoc, Rinv_l, Rmult_1_r, Rmult_1_l in H1 by lra. exact H1.
    - apply (Rmult_lt_reg_r (ln 2)); [lra|]. unfold Rdiv. rewrite Rmult_assoc, Rinv_l, Rmult_1_r, Rmult_1_l by lra. exact H1. }
  rewrite E. split; intros H1; [apply ln_lt_inv; lra|apply ln_increasing; lra].
Qed.
Lemma ewa_tail_small s t x0 y0 x1 y1 mi : 0 < mi < 2 -> ewa_tail s t x0 y0 x1 y1 mi = Err AttributeError.
Proof.
  intros H. unfold ewa_tail. destruct (Reqb mi 0) eqn:Q1; Rb; [lra|]. cbv zeta.
  rewrite ewa_low; [reflexivity|]. unfold ftoi. apply Zfloor_lt.
  pose proof (top_eq G). pose proof (g_a _ _ _ _ G). pose proof (g_b _ _ _ _ G). assert (0 < IZR (n_levels m)) by (apply IZR_lt; lia).
  apply Rmax_lub_lt; [lra|]. pose proof (proj2 (log2_one_lt mi ltac:(lra)) ltac:(lra)). lra.
Qed.
Lemma ewa_tail_large s t x0 y0 x1 y1 mi : 2 <= mi -> exists l, nth_error (m_pyr m) (Z.to_nat (Z.max a b)) = Some l /\ shaped l 1 1 /\
  ewa_tail s t x0 y0 x1 y1 mi = Ok (pixel l 0 0).
Proof.
  intros H. destruct (top_shape G) as (l & Hl & Sh). exists l. split; [exact Hl|]. split; [exact Sh|].
  pose proof (top_eq G). pose proof (g_a _ _ _ _ G). pose proof (g_b _ _ _ _ G).
  assert (L1 : 1 <= log2R mi) by (destruct (Rlt_le_dec (log2R mi) 1) as [L|L]; [apply log2_one_lt in L; lra|exact L]).
  unfold ewa_tail. destruct (Reqb mi 0) eqn:Q1; Rb; [lra|]. cbv zeta.
  set (lod := Rmax 0 (IZR (n_levels m) - 1 + log2R mi)). assert (LG : (n_levels m <= ftoi lod)%Z).
  { unfold ftoi. apply Zfloor_ge. unfold lod. eapply Rle_trans; [|apply Rmax_r]. lra. }
  assert (EW : forall lv u v w z, (n_levels m <= lv)%Z -> ewa m lv s t u v w z = Ok (pixel l 0 0)).
  { intros lv u v w z Hlv. unfold ewa. destruct (n_levels m <=? lv)%Z eqn:Q; [|lia].
    assert (G1 : get1 (m_pyr m) (n_levels m - 1) = Ok l).
    { replace (n_levels m - 1)%Z with (Z.max a b) by lia. destruct (level_ex G (Z.max a b) ltac:(lia)) as (l' & G2 & N2 & _). rewrite G2. f_equal. rewrite Hl in N2. now injection N2. }
    rewrite G1. cbn [bind]. rewrite (texel_ok _ l 1 1 0 0 Sh). f_equal. unfold tx. destruct (m_wrap m); reflexivity. }
  rewrite !EW by lia. cbn [bind]. f_equal. ring.
Qed.
End Lk.
