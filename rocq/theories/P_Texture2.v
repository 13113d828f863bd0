(** Turbulence, smooth steps, checkerboards and mappings. *)
From Coq Require Import Reals List ZArith Bool Lra Lia.
From Coquelicot Require Import Coquelicot.
From Verif Require Import Base M_Geometry M_Transform M_Utility M_Film M_Shapes M_Texture P_Film P_Utility P_MipMap1 P_Texture1.
Import ListNotations.
Open Scope R_scope.

(** ** discontinuity of noise *)
Lemma noise_left y : 63 / 64 <= y < 1 -> exists v, noise (mkV 0 y (/ 2)) = Ok v /\ Rabs v <= / 16.
Proof.
  intros H. rewrite noise_ok. cbn [vx vy vz].
  replace (Zfloor 0) with 0%Z by (symmetry; apply Zfloor_unique; lra).
  replace (Zfloor y) with 0%Z by (symmetry; apply Zfloor_unique; lra).
  replace (Zfloor (/ 2)) with 0%Z by (symmetry; apply Zfloor_unique; lra).
  rewrite !Rminus_0_r. eexists. split; [reflexivity|]. unfold cell. cbv zeta.
  change (0 mod 256)%Z with 0%Z. change (0 + 0)%Z with 0%Z. change (0 + 1)%Z with 1%Z.
  replace (hash 0 0 0) with 4%Z by reflexivity. replace (hash 0 0 1) with 7%Z by reflexivity.
  replace (hash 0 1 0) with 12%Z by reflexivity. replace (hash 0 1 1) with 14%Z by reflexivity.
  rewrite wt0. unfold M_Utility.lerp. rewrite !Rmult_0_l, !Rplus_0_r, !Rminus_0_r, !Rmult_1_l.
  unfold gradv. cbn. assert (W : noise_wt (/ 2) = / 2) by (unfold noise_wt; lra). rewrite W.
  assert (Y : 0 <= 1 - noise_wt y <= 10 * (1 - y)).
  { assert (Q : 1 - noise_wt y = (1 - y) * (1 - y) * (1 - y) * (6 * y * y + 3 * y + 1)) by (unfold noise_wt; ring). rewrite Q.
    set (d := 1 - y) in *. assert (D : 0 < d <= / 64) by (unfold d; lra). replace y with (1 - d) by (unfold d; ring).
    assert (0 <= d * d <= 1) by nra. assert (B : 0 <= 6 * (1 - d) * (1 - d) + 3 * (1 - d) + 1 <= 10) by nra. 
    assert (0 <= d * d * d <= d) by (split; [|]; nra). split; [apply Rmult_le_pos; lra|]. nra. }
  set (w := noise_wt y) in *. apply Rabs_le. split; nra.
Qed.
Lemma noise_right : noise (mkV 0 1 (/ 2)) = Ok (- / 8).
Proof.
  rewrite noise_ok. cbn [vx vy vz].
  replace (Zfloor 0) with 0%Z by (symmetry; apply Zfloor_unique; lra).
  replace (Zfloor 1) with 1%Z by (symmetry; apply Zfloor_unique; lra).
  replace (Zfloor (/ 2)) with 0%Z by (symmetry; apply Zfloor_unique; lra).
  rewrite !Rminus_0_r. f_equal. unfold cell. cbv zeta. replace (1 - 1) with 0 by ring.
  change (0 mod 256)%Z with 0%Z. change (1 mod 256)%Z with 1%Z. change (0 + 0)%Z with 0%Z. change (0 + 1)%Z with 1%Z. change (1 + 0)%Z with 1%Z. change (1 + 1)%Z with 2%Z.
  replace (hash 0 1 0) with 12%Z by reflexivity. replace (hash 0 1 1) with 14%Z by reflexivity. replace (hash 0 2 1) with 0%Z by reflexivity.
  rewrite wt0. unfold M_Utility.lerp. rewrite !Rmult_0_l, !Rplus_0_r, !Rminus_0_r, !Rmult_1_l.
  assert (W : noise_wt (/ 2) = / 2) by (unfold noise_wt; lra). rewrite W. unfold gradv. cbn. lra.
Qed.

(** ** smooth_step, FBm, turbulence *)
Lemma smooth_range lo hi x : 0 <= lo -> lo <= hi -> hi <= 1 -> 0 <= smooth_step lo hi x <= 1.
Proof.
  intros A B C. unfold smooth_step. cbv zeta. pose proof (clip_range x lo hi B). set (v := clip x lo hi) in *.
  assert (0 <= v <= 1) by lra. split; [apply Rmult_le_pos; nra|]. assert (1 - v * v * (3 - 2 * v) = (1 - v) * (1 - v) * (1 + 2 * v)) by ring.
  assert (0 <= (1 - v) * (1 - v) * (1 + 2 * v)) by (apply Rmult_le_pos; nra). lra.
Qed.
Lemma smooth_mono lo hi x y : 0 <= lo -> lo <= hi -> hi <= 1 -> x <= y -> smooth_step lo hi x <= smooth_step lo hi y.
Proof.
  intros A B C H. unfold smooth_step. cbv zeta. pose proof (clip_range x lo hi B). pose proof (clip_range y lo hi B).
  assert (M : clip x lo hi <= clip y lo hi) by (unfold clip, Rmin, Rmax; repeat destruct Rle_dec; lra).
  set (v := clip x lo hi) in *. set (w := clip y lo hi) in *.
  assert (Q : w * w * (3 - 2 * w) - v * v * (3 - 2 * v) = (w - v) * (3 * (w + v) - 2 * (w * w + w * v + v * v))) by ring.
  assert (0 <= (w - v) * (3 * (w + v) - 2 * (w * w + w * v + v * v))); [|lra]. apply Rmult_le_pos; [lra|]. nra.
Qed.
Fixpoint geo (w : R) (n : nat) : R := match n with O => 0 | S n => geo w n + w ^ n end.
Lemma geo_shift w n : geo w (S n) = 1 + w * geo w n.
Proof. induction n as [|n IH]; [cbn; ring|]. change (geo w (S (S n))) with (geo w (S n) + w ^ S n). rewrite IH at 1. cbn [geo pow]. ring. Qed.
Lemma turb_loop_ok p w n : 0 <= w -> forall s l o, 0 <= o -> exists s' l', turb_loop p w n (s, l, o) = Ok (s', l', o * w ^ n) /\ s <= s' <= s + 2 * o * geo w n.
Proof.
  intros W. induction n as [|n IH]; intros s l o O0.
  - exists s, l. cbn [turb_loop geo pow]. rewrite Rmult_1_r. split; [reflexivity|lra].
  - cbn [turb_loop]. destruct (noise_bound (vscale l p)) as (x & -> & X). cbn [bind].
    destruct (IH (s + o * Rabs x) (l * (199 / 100)) (o * w) ltac:(apply Rmult_le_pos; lra)) as (s' & l' & -> & B). exists s', l'.
    split; [f_equal; f_equal; cbn [pow]; ring|]. rewrite geo_shift. assert (0 <= Rabs x <= 2) by (split; [apply Rabs_pos|apply Rabs_le; lra]).
    assert (0 <= o * Rabs x <= o * 2) by (split; nra). lra.
Qed.
Lemma geo_bound w n : 0 <= w < 1 -> 0 <= geo w n <= (1 - w ^ n) / (1 - w).
Proof.
  intros W. induction n as [|n [I1 I2]]; [cbn; unfold Rdiv; lra|]. cbn [geo pow]. assert (0 <= w ^ n) by (apply pow_le; lra). split; [lra|].
  replace ((1 - w * w ^ n) / (1 - w)) with ((1 - w ^ n) / (1 - w) + w ^ n) by (field; lra). lra.
Qed.
Lemma turbulence_ok p dx dy w n : 0 <= w < 1 -> exists v, turbulence p dx dy w n = Ok v /\ 0 <= v <= 2 / (1 - w).
Proof.
  intros W. unfold turbulence. cbv zeta. set (f := octaves_of dx dy n). set (k := Z.to_nat (ftoi f)).
  destruct (turb_loop_ok p w k ltac:(lra) 0 1 1 ltac:(lra)) as (s & l & -> & B). cbn [bind].
  destruct (noise_bound (vscale l p)) as (x & -> & X). cbn [bind]. eexists. split; [reflexivity|].
  pose proof (smooth_range (3 / 10) (7 / 10) (f - IZR (ftoi f)) ltac:(lra) ltac:(lra) ltac:(lra)) as S0. set (q := smooth_step _ _ _) in *.
  assert (0 <= Rabs x <= 2) by (split; [apply Rabs_pos|apply Rabs_le; lra]).
  assert (P : 0 <= w ^ k) by (apply pow_le; lra). assert (0 <= q * Rabs x <= 2) by (split; nra).
  pose proof (geo_bound w k W) as [_ G1].
  assert (0 <= w ^ k * (q * Rabs x) <= w ^ k * 2) by (split; nra).
  pose proof (geo_bound w (S k) W) as [_ G2]. cbn [geo] in G2.
  assert ((1 - w ^ S k) / (1 - w) <= 1 / (1 - w)).
  { apply Rmult_le_compat_r; [left; apply Rinv_0_lt_compat; lra|]. assert (0 <= w ^ S k) by (apply pow_le; lra). lra. }
  unfold Rdiv in *. lra.
Qed.

(** ** checkerboards *)
Lemma parity_b a b : ((a + b) mod 2 =? 0)%Z = Z.even (a + b).
Proof. rewrite Zmod_even. destruct (Z.even (a + b)); reflexivity. Qed.
(** 1 on the odd cells *)
Definition odd_cell (x : R) : R := if Z.odd (Zfloor x) then 1 else 0.
Lemma bump_at n x : IZR n <= x <= IZR n + 1 -> bump_int x = IZR (n / 2) + (if Z.odd n then x - IZR n else 0).
Proof.
  intros H. unfold bump_int, ftoi, pmax.
  pose proof (Z.div_mod n 2 ltac:(lia)) as D. rewrite Zmod_odd in D.
  assert (DR : IZR n = 2 * IZR (n / 2) + (if Z.odd n then 1 else 0)).
  { rewrite D at 1. rewrite plus_IZR, mult_IZR. destruct (Z.odd n); reflexivity. }
  destruct (Z.odd n) eqn:O.
  - destruct (Rlt_le_dec x (IZR n + 1)) as [L|L].
    + rewrite (Zfloor_unique (x / 2) (n / 2)) by lra. Rcase; lra.
    + rewrite (Zfloor_unique (x / 2) (n / 2 + 1)) by (rewrite plus_IZR; lra). rewrite plus_IZR. Rcase; lra.
  - rewrite (Zfloor_unique (x / 2) (n / 2)) by lra. Rcase; lra.
Qed.
Lemma bump_cell n x0 x1 : IZR n <= x0 -> x0 <= x1 -> x1 <= IZR n + 1 -> is_RInt odd_cell x0 x1 (bump_int x1 - bump_int x0).
Proof.
  intros A B C. rewrite (bump_at n x0), (bump_at n x1) by lra.
  apply (is_RInt_ext (fun _ => if Z.odd n then 1 else 0)).
  - intros x Hx. rewrite Rmin_left, Rmax_right in Hx by lra. unfold odd_cell. rewrite (Zfloor_unique x n) by lra. reflexivity.
  - replace (IZR (n / 2) + (if Z.odd n then x1 - IZR n else 0) - (IZR (n / 2) + (if Z.odd n then x0 - IZR n else 0)))
      with (scal (x1 - x0) (if Z.odd n then 1 else 0)) by (unfold scal; cbn; unfold mult; cbn; destruct (Z.odd n); ring).
    apply (is_RInt_const (V := R_NormedModule)).
Qed.
Lemma bump_integral x0 x1 : x0 <= x1 -> is_RInt odd_cell x0 x1 (bump_int x1 - bump_int x0).
Proof.
  intros H. assert (G : forall k x1, x0 <= x1 -> x1 <= IZR (Zfloor x0) + INR k -> is_RInt odd_cell x0 x1 (bump_int x1 - bump_int x0)).
  { induction k as [|k IH]; intros y Hy Hk.
    - cbn in Hk. destruct (Zfloor_spec x0). apply (bump_cell (Zfloor x0)); lra.
    - rewrite S_INR in Hk. destruct (Rle_lt_dec y (IZR (Zfloor x0) + INR k)) as [L|L]; [now apply IH|].
      destruct (Zfloor_spec x0) as [F1 F2]. set (n := (Zfloor x0 + Z.of_nat k)%Z). assert (N : IZR n = IZR (Zfloor x0) + INR k) by (unfold n; rewrite plus_IZR, <- INR_IZR_INZ; reflexivity).
      destruct (Rle_lt_dec x0 (IZR n)) as [L1|L1].
      + replace (bump_int y - bump_int x0) with (plus (bump_int (IZR n) - bump_int x0) (bump_int y - bump_int (IZR n))) by (unfold plus; cbn; ring).
        apply (is_RInt_Chasles (V := R_NormedModule)) with (IZR n); [apply IH; lra|apply (bump_cell n); lra].
      + apply (bump_cell n); lra. }
  destruct (archimed (x1 - IZR (Zfloor x0))) as [U _]. apply (G (Z.to_nat (up (x1 - IZR (Zfloor x0)))) x1 H).
  destruct (Zfloor_spec x0). assert (0 < IZR (up (x1 - IZR (Zfloor x0)))) by lra. apply lt_IZR in H2. rewrite INR_IZR_INZ, Z2Nat.id by lia. lra.
Qed.
