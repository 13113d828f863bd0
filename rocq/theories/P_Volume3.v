From Coq Require Import Reals Lra Lia List Bool ZArith Psatz.
From Coquelicot Require Import Coquelicot.
From Verif Require Import Base M_Geometry S_Geometry P_Geometry M_Transform M_Volume S_Volume P_Volume2.
Import ListNotations.
Open Scope R_scope.

(** ** the marching loop *)
Fixpoint vsumn (f : nat -> vec) (n : nat) : vec :=
  match n with O => vzero | S k => vadd (vsumn f k) (f k) end.
Lemma vadd_assoc a b c : vadd (vadd a b) c = vadd a (vadd b c).
Proof. destruct a as [a1 a2 a3], b as [b1 b2 b3], c as [c1 c2 c3]; unfold vadd, vmap2; cbn; f_equal; ring. Qed.
Lemma vadd_comm a b : vadd a b = vadd b a.
Proof. destruct a as [a1 a2 a3], b as [b1 b2 b3]; unfold vadd, vmap2; cbn; f_equal; ring. Qed.
Lemma vsumn_shift f n : vsumn f (S n) = vadd (f O) (vsumn (fun k => f (S k)) n).
Proof.
  induction n as [|n IH]. { cbn. rewrite vadd_0_l, vadd_0_r. reflexivity. }
  change (vsumn f (S (S n))) with (vadd (vsumn f (S n)) (f (S n))). rewrite IH. cbn. now rewrite vadd_assoc.
Qed.

Lemma march_exact sig step n : forall fuel t0 t1 acc, (n < fuel)%nat ->
  (forall k, (k < n)%nat -> t0 + INR k * step < t1) -> t1 <= t0 + INR n * step ->
  march fuel sig t0 (Fin t1) step acc = Some (vadd acc (vsumn (fun k => sig (t0 + INR k * step)) n)).
Proof.
  induction n as [|n IH]; intros fuel t0 t1 acc F B Lst; (destruct fuel as [|fuel]; [lia|]); cbn [march].
  - cbn [INR] in Lst. replace (eltb (Fin t0) (Fin t1)) with false.
    + cbn. now rewrite vadd_0_r.
    + symmetry. cbn. apply Rltb_false. lra.
  - replace (eltb (Fin t0) (Fin t1)) with true.
    2: { symmetry. cbn. apply Rltb_true. specialize (B 0%nat ltac:(lia)). cbn in B. lra. }
    rewrite IH.
    + rewrite vsumn_shift. rewrite vadd_assoc. do 3 f_equal.
      * f_equal. cbn. ring.
      * assert (X : forall m, vsumn (fun k => sig (t0 + step + INR k * step)) m = vsumn (fun k => sig (t0 + INR (S k) * step)) m).
        { induction m as [|m IHm]; cbn [vsumn]; auto. rewrite IHm. do 2 f_equal. rewrite S_INR. ring. }
        apply X.
    + lia.
    + intros k Hk. specialize (B (S k) ltac:(lia)). rewrite S_INR in B. lra.
    + rewrite S_INR in Lst. lra.
Qed.
Lemma steps_exist a b step : 0 < step -> exists n, (forall k, (k < n)%nat -> a + INR k * step < b) /\ b <= a + INR n * step.
Proof.
  intros Hs. destruct (Rle_dec b a) as [H|H].
  - exists 0%nat. split; [intros; lia|cbn; lra].
  - set (z := Zceil ((b - a) / step)). destruct (Zceil_spec ((b - a) / step)) as [Z1 Z2]. fold z in Z1, Z2.
    assert (Q : 0 < (b - a) / step) by (apply Rdiv_lt_0_compat; lra).
    assert (Zp : (0 < z)%Z) by (apply lt_IZR; lra).
    exists (Z.to_nat z). rewrite INR_IZR_INZ, Z2Nat.id by lia. split.
    + intros k Hk. assert (IZR (Z.of_nat k) <= IZR z - 1) by (rewrite <- minus_IZR; apply IZR_le; lia).
      rewrite INR_IZR_INZ. assert (IZR (Z.of_nat k) < (b - a) / step) by lra.
      assert (IZR (Z.of_nat k) * step < b - a). { apply (Rmult_lt_compat_r step) in H1; auto. unfold Rdiv in H1. rewrite Rmult_assoc, Rinv_l, Rmult_1_r in H1 by lra. auto. }
      lra.
    + apply (Rmult_le_compat_r step) in Z2; [|lra]. unfold Rdiv in Z2. rewrite Rmult_assoc, Rinv_l, Rmult_1_r in Z2 by lra. lra.
Qed.
Lemma march_diverges sig step t1 : forall fuel t0 acc, step <= 0 -> t0 < t1 -> march fuel sig t0 (Fin t1) step acc = None.
Proof.
  induction fuel as [|f IH]; intros t0 acc S0 H; cbn [march]; auto.
  replace (eltb (Fin t0) (Fin t1)) with true by (symmetry; cbn; apply Rltb_true; lra). apply IH; lra.
Qed.
Lemma march_infinite sig step : forall fuel t0 acc, march fuel sig t0 PInf step acc = None.
Proof. induction fuel as [|f IH]; intros; cbn [march]; auto. cbn. apply IH. Qed.

Lemma vsumn_x f n : vx (vsumn f n) = sumn (fun k => vx (f k)) n.
Proof. induction n; cbn; auto. now rewrite IHn. Qed.
Lemma vsumn_y f n : vy (vsumn f n) = sumn (fun k => vy (f k)) n.
Proof. induction n; cbn; auto. now rewrite IHn. Qed.
Lemma vsumn_z f n : vz (vsumn f n) = sumn (fun k => vz (f k)) n.
Proof. induction n; cbn; auto. now rewrite IHn. Qed.
Lemma sumn_ext f g n : (forall k, (k < n)%nat -> f k = g k) -> sumn f n = sumn g n.
Proof. induction n; cbn; intros; auto. rewrite IHn, H by auto. reflexivity. Qed.
Lemma sumn_scal c f n : sumn (fun k => c * f k) n = c * sumn f n.
Proof. induction n; cbn; [ring|]. rewrite IHn. ring. Qed.
Lemma sumn_const c n : sumn (fun _ => c) n = INR n * c.
Proof. induction n; cbn [sumn]; [cbn; ring|]. rewrite IHn, S_INR. ring. Qed.

(** ** the sampled sum is close to the integral *)
Section Conv.
Variables (f : R -> R) (a b L M : R).
Hypothesis ab : a <= b.
Hypothesis Lip : forall s t, a <= s <= b -> a <= t <= b -> Rabs (f s - f t) <= L * Rabs (s - t).
Hypothesis Bnd : forall t, a <= t <= b -> Rabs (f t) <= M.

Let g (t : R) : R := f (clip t a b).
Lemma clip_lip s t : Rabs (clip s a b - clip t a b) <= Rabs (s - t).
Proof using ab. unfold clip, Rmin, Rmax, Rabs; repeat (destruct Rle_dec || destruct Rcase_abs); lra. Qed.
Lemma L_nonneg : a < b -> 0 <= L.
Proof using Lip ab.
  intros H. pose proof (Lip b a ltac:(lra) ltac:(lra)) as K. pose proof (Rabs_pos (f b - f a)).
  rewrite (Rabs_pos_eq (b - a)) in K by lra. nra.
Qed.
Lemma M_nonneg : 0 <= M.
Proof using Bnd ab. pose proof (Bnd a ltac:(lra)). pose proof (Rabs_pos (f a)). lra. Qed.
Lemma g_cont t : a < b -> continuous g t.
Proof using Lip ab.
  intros H. pose proof (L_nonneg H) as Lp.
  apply continuity_pt_filterlim. intros eps Heps.
  exists (eps / (L + 1)). split; [apply Rdiv_lt_0_compat; lra|].
  intros x [_ Hx]. cbn in *. unfold R_dist in *. unfold g.
  eapply Rle_lt_trans. { apply Lip; apply clip_range; auto. }
  pose proof (clip_lip x t).
  assert (Q : Rabs (x - t) * (L + 1) < eps).
  { apply (Rmult_lt_compat_r (L + 1)) in Hx; [|lra]. unfold Rdiv in Hx. rewrite Rmult_assoc, Rinv_l, Rmult_1_r in Hx by lra. auto. }
  pose proof (Rabs_pos (x - t)). pose proof (Rabs_pos (clip x a b - clip t a b)). nra.
Qed.
Lemma g_int u v : a < b -> ex_RInt g u v.
Proof using Lip ab. intros H. apply (ex_RInt_continuous (V := R_CompleteNormedModule)). intros; now apply g_cont. Qed.
Lemma f_int : exists I, is_RInt f a b I /\ I = RInt g a b.
Proof using Lip ab.
  destruct (Req_dec a b) as [Q|Q].
  - exists 0. rewrite <- Q. split. apply (is_RInt_point (V := R_NormedModule)). symmetry. apply (RInt_point (V := R_CompleteNormedModule)).
  - exists (RInt g a b). split; auto.
    apply (is_RInt_ext g).
    + intros x [X1 X2]. rewrite Rmin_left in X1 by lra. rewrite Rmax_right in X2 by lra.
      unfold g. now rewrite clip_id by lra.
    + apply (RInt_correct (V := R_CompleteNormedModule)). apply g_int; lra.
Qed.
(** one cell *)
Lemma RInt_near (h : R -> R) u v c e : u <= v -> ex_RInt h u v -> (forall t, u < t < v -> Rabs (h t - c) <= e) ->
  Rabs (RInt h u v - (v - u) * c) <= (v - u) * e.
Proof.
  intros H X B. destruct (Req_dec u v) as [->|Ne].
  { rewrite (RInt_point (V := R_CompleteNormedModule)). unfold zero; cbn. rewrite Rminus_eq_0, !Rmult_0_l, Rminus_eq_0, Rabs_R0. lra. }
  assert (Up : RInt h u v <= RInt (fun _ => c + e) u v).
  { apply RInt_le; auto. apply ex_RInt_const. intros t Ht. specialize (B t Ht). apply Rabs_le_between in B. lra. }
  assert (Lo : RInt (fun _ => c - e) u v <= RInt h u v).
  { apply RInt_le; auto. apply ex_RInt_const. intros t Ht. specialize (B t Ht). apply Rabs_le_between in B. lra. }
  rewrite RInt_const in Up, Lo. unfold scal in *; cbn in *; unfold mult in *; cbn in *.
  apply Rabs_le_between. lra.
Qed.
Lemma chain (n : nat) (h u : R) : a < b -> 0 < h -> 0 <= u <= 1 -> a + INR n * h <= b ->
  Rabs (h * sumn (fun k => f (a + (u + INR k) * h)) n - RInt g a (a + INR n * h)) <= INR n * (L * h * h).
Proof using Lip ab.
  intros Hab Hh Hu. induction n as [|n IH]; intros Hn.
  - cbn [sumn INR]. rewrite Rmult_0_l, Rplus_0_r, (RInt_point (V := R_CompleteNormedModule)).
    unfold zero; cbn. rewrite Rmult_0_r, Rminus_eq_0, Rabs_R0. lra.
  - rewrite S_INR in *. cbn [sumn]. assert (Hn' : a + INR n * h <= b) by lra. specialize (IH Hn').
    assert (C : RInt g a (a + (INR n + 1) * h) = RInt g a (a + INR n * h) + RInt g (a + INR n * h) (a + (INR n + 1) * h)).
    { symmetry. apply (RInt_Chasles (V := R_CompleteNormedModule)); apply g_int; auto. }
    rewrite C. pose proof (pos_INR n) as Pn.
    assert (Nn : 0 <= INR n * h) by (apply Rmult_le_pos; lra).
    assert (X : a <= a + (u + INR n) * h <= b) by nra.
    assert (Q : Rabs (RInt g (a + INR n * h) (a + (INR n + 1) * h) - h * f (a + (u + INR n) * h)) <= h * (L * h)).
    { replace h with (a + (INR n + 1) * h - (a + INR n * h)) at 3 by ring.
      replace (h * (L * h)) with ((a + (INR n + 1) * h - (a + INR n * h)) * (L * h)) by ring.
      apply RInt_near; [lra|apply g_int; auto|].
      intros t Ht. unfold g. rewrite clip_id by lra.
      eapply Rle_trans; [apply Lip; [lra|auto]|]. pose proof (L_nonneg Hab).
      apply Rmult_le_compat_l; auto. apply Rabs_le. nra. }
    apply Rabs_le_between in Q. apply Rabs_le_between in IH. apply Rabs_le_between. lra.
Qed.
Lemma march_conv (n : nat) (h u : R) I : 0 < h -> 0 <= u <= 1 -> is_RInt f a b I ->
  (forall k, (k < n)%nat -> a + (u + INR k) * h < b) -> b <= a + (u + INR n) * h ->
  Rabs (h * sumn (fun k => f (a + (u + INR k) * h)) n - I) <= (L * (b - a) + 3 * M) * h.
Proof using Bnd Lip ab.
  intros Hh Hu HI B E0.
  destruct f_int as (I' & HI' & EI). assert (HE : I = I').
  { rewrite <- (is_RInt_unique (V:=R_CompleteNormedModule) _ _ _ _ HI), <- (is_RInt_unique (V:=R_CompleteNormedModule) _ _ _ _ HI'). reflexivity. }
  rewrite <- HE in EI. pose proof M_nonneg as Mp.
  destruct (Req_dec a b) as [Q|Q].
  - assert (I = 0). { rewrite EI, <- Q. apply (RInt_point (V := R_CompleteNormedModule)). }
    destruct n as [|n].
    + cbn. rewrite H, Rmult_0_r, Rminus_eq_0, Rabs_R0. nra.
    + exfalso. specialize (B 0%nat ltac:(lia)). cbn in B. nra.
  - assert (Hab : a < b) by lra. pose proof (L_nonneg Hab) as Lp.
    destruct n as [|n].
    + cbn [sumn INR] in *.
      assert (K : Rabs (RInt g a b - (b - a) * 0) <= (b - a) * M).
      { apply RInt_near; auto. apply g_int; auto. intros t Ht. unfold g. rewrite clip_id by lra. rewrite Rminus_0_r. apply Bnd; lra. }
      rewrite <- EI in K. rewrite Rmult_0_r, Rminus_0_r in K. rewrite Rmult_0_r, Rminus_0_l, Rabs_Ropp.
      assert (b - a <= h) by nra. assert (0 <= L * (b - a) * h) by (repeat apply Rmult_le_pos; lra).
      assert ((b - a) * M <= h * M) by (apply Rmult_le_compat_r; lra). assert (0 <= h * M) by (apply Rmult_le_pos; lra). lra.
    + rewrite S_INR in E0. pose proof (B n ltac:(lia)) as Bn. pose proof (pos_INR n) as Pn.
      assert (Nn : 0 <= INR n * h) by (apply Rmult_le_pos; lra).
      assert (E1 : a + INR n * h < b) by nra.
      pose proof (chain n h u Hab Hh Hu ltac:(lra)) as Ch.
      assert (C : RInt g a b = RInt g a (a + INR n * h) + RInt g (a + INR n * h) b).
      { symmetry. apply (RInt_Chasles (V := R_CompleteNormedModule)); apply g_int; auto. }
      assert (K : Rabs (RInt g (a + INR n * h) b - (b - (a + INR n * h)) * 0) <= (b - (a + INR n * h)) * M).
      { apply RInt_near; [lra|apply g_int; auto|]. intros t Ht. unfold g. rewrite clip_id by lra. rewrite Rminus_0_r. apply Bnd; lra. }
      rewrite Rmult_0_r, Rminus_0_r in K.
      assert (X : a <= a + (u + INR n) * h <= b) by nra.
      pose proof (Bnd _ X) as BX.
      assert (W : b - (a + INR n * h) <= 2 * h) by nra.
      assert ((b - (a + INR n * h)) * M <= 2 * h * M) by (apply Rmult_le_compat_r; lra).
      assert (INR n * (L * h * h) <= L * (b - a) * h).
      { replace (INR n * (L * h * h)) with (L * h * (INR n * h)) by ring. replace (L * (b - a) * h) with (L * h * (b - a)) by ring.
        apply Rmult_le_compat_l; [apply Rmult_le_pos; lra|lra]. }
      cbn [sumn]. rewrite EI, C. apply Rabs_le_between in Ch. apply Rabs_le_between in K. apply Rabs_le_between in BX.
      assert (h * f (a + (u + INR n) * h) <= h * M) by (apply Rmult_le_compat_l; lra).
      assert (- (h * M) <= h * f (a + (u + INR n) * h)). { assert (h * - M <= h * f (a + (u + INR n) * h)) by (apply Rmult_le_compat_l; lra). lra. }
      apply Rabs_le_between. lra.
Qed.
End Conv.
