(** Property theorems C47, C48, C61, C85-C88 (spectra and numeric helpers). *)
From Coq Require Import Reals Lra Lia List ZArith Bool.
From Verif Require Import Base M_Film S_Film P_Film2 M_Spectrum S_Spectrum P_Spectrum P_Spectrum2 P_Spectrum3 P_Spectrum4
  M_Utility P_Utility.
Import ListNotations.
Open Scope R_scope.

(** C47 *)
Theorem C47_round_trip (c : vec) :
  vclose (1e-6 * vabs1 c) (rgb_from_xyz (rgb_to_xyz c)) c /\ vclose (1e-6 * vabs1 c) (xyz2rgb (rgb2xyz c)) c /\
  rgb_to_rgb c = c.
Proof. repeat split; try apply round_trip6. Qed.
Print Assumptions C47_round_trip.
Theorem C47_linear (a b : R) (u v : vec) :
  rgb2xyz (vadd (vscale a u) (vscale b v)) = vadd (vscale a (rgb2xyz u)) (vscale b (rgb2xyz v)) /\
  xyz2rgb (vadd (vscale a u) (vscale b v)) = vadd (vscale a (xyz2rgb u)) (vscale b (xyz2rgb v)).
Proof. split; apply V3_eq; unfold rgb2xyz, xyz2rgb, vadd, vscale, vmap2, vmap; cbn [vx vy vz]; ring. Qed.
Print Assumptions C47_linear.
Theorem C47_luminance (c : vec) :
  rgb_y c = vy (rgb_to_xyz c) /\ rgb_y (mkV 1 1 1) = 1 /\
  (0 <= vx c -> 0 <= vy c -> 0 <= vz c -> 0 <= rgb_y c <= Rmax (vx c) (Rmax (vy c) (vz c))).
Proof.
  split; [reflexivity|]. split; [unfold rgb_y; cbn; lra|]. intros A B C. unfold rgb_y.
  pose proof (Rmax_l (vx c) (Rmax (vy c) (vz c))). pose proof (Rmax_r (vx c) (Rmax (vy c) (vz c))).
  pose proof (Rmax_l (vy c) (vz c)). pose proof (Rmax_r (vy c) (vz c)).
  set (m := Rmax (vx c) _) in *. split; lra.
Qed.
Print Assumptions C47_luminance.
(** lerp of spectra stays between the two spectra and hits both ends; clip makes non-negative and is the
    identity on non-negative spectra; black means every coefficient below the tolerance; has_nans is exact *)
Theorem C47_coefficientwise (t : R) (a b : list R) : length a = length b -> 0 <= t <= 1 ->
  length (cs_lerp t a b) = length a /\ cs_lerp 0 a b = a /\ cs_lerp 1 a b = b /\
  (forall i, (i < length a)%nat -> Rmin (nth i a 0) (nth i b 0) <= nth i (cs_lerp t a b) 0 <= Rmax (nth i a 0) (nth i b 0)) /\
  (forall x, In x (cs_clip0 a) -> 0 <= x) /\ ((forall x, In x a -> 0 <= x) -> cs_clip0 a = a) /\
  (cs_is_black a = true <-> forall x, In x a -> x < EPS).
Proof.
  intros L T. split; [unfold cs_lerp; rewrite map_length, combine_length; lia|].
  assert (G : forall t a b, length a = length b -> forall i, (i < length a)%nat -> 
    nth i (cs_lerp t a b) 0 = (1 - t) * nth i a 0 + t * nth i b 0).
  { clear. intros t. induction a as [|x a IH]; intros [|y b] H i I0; cbn in *; try lia. destruct i; [reflexivity|]. apply IH; lia. }
  assert (LL : forall t, length (cs_lerp t a b) = length a) by (intros; unfold cs_lerp; rewrite map_length, combine_length; lia).
  split; [|split; [|split; [|split; [|split]]]].
  - apply nth_ext with 0 0; [apply LL|]. intros i I0. rewrite LL in I0. rewrite G by auto. ring.
  - apply nth_ext with 0 0; [rewrite LL; auto|]. intros i I0. rewrite LL in I0. rewrite G by auto. ring.
  - intros i I0. rewrite G by auto. set (x := nth i a 0). set (y := nth i b 0). clearbody x y.
    assert (Hlo : Rmin x y <= x /\ Rmin x y <= y) by (split; [apply Rmin_l|apply Rmin_r]).
    assert (Hhi : x <= Rmax x y /\ y <= Rmax x y) by (split; [apply Rmax_l|apply Rmax_r]).
    set (m := Rmin x y) in *. set (M := Rmax x y) in *. clearbody m M.
    assert ((1-t) * m <= (1-t) * x) by (apply Rmult_le_compat_l; lra).
    assert (t * m <= t * y) by (apply Rmult_le_compat_l; lra).
    assert ((1-t) * x <= (1-t) * M) by (apply Rmult_le_compat_l; lra).
    assert (t * y <= t * M) by (apply Rmult_le_compat_l; lra). lra.
  - intros x X. apply in_map_iff in X. destruct X as (z & <- & _). apply Rmax_l.
  - intros H. unfold cs_clip0. rewrite <- (map_id a) at 2. apply map_ext_in. intros x X. apply Rmax_right. auto.
  - unfold cs_is_black. rewrite forallb_forall. split; intros H x X; specialize (H x X); [now apply Rltb_true|now apply Rltb_true].
Qed.
Print Assumptions C47_coefficientwise.

(** C48 *)
Theorem C48_mean (lam v : list R) (ls le : R) :
  increasing lam -> length v = length lam -> lam <> [] -> ls < le ->
  exists a, average_spectrum_samples lam v ls le = Ok (a, lam, v) /\
    (~ inner_sample lam le ->
       a = curve_area lam v ls le / (le - ls) /\
       (forall m M, (forall x, In x v -> m <= x <= M) -> m <= a <= M)).
Proof.
  intros INC LV NE LT. destruct (average_main lam v ls le INC LV NE LT) as (a & A & B & _).
  exists a. split; [exact A|]. intros NI. specialize (B NI). 
  split; [rewrite <- B; field; lra|]. intros m M V.
  pose proof (curve_bounds lam v ls le m M INC LV NE ltac:(lra) V) as [C1 C2]. rewrite <- B in C1, C2.
  split; apply (Rmult_le_reg_r (le - ls)); lra.
Qed.
Print Assumptions C48_mean.
(** the area used above is additive over intervals, and a constant curve has the area of a rectangle *)
Theorem C48_area_is_an_integral (lam v : list R) (a b c : R) :
  increasing lam -> length v = length lam -> lam <> [] -> a <= b <= c ->
  curve_area lam v a b + curve_area lam v b c = curve_area lam v a c /\
  ((forall x, In x v -> x = nth 0 v 0) -> curve_area lam v a b = nth 0 v 0 * (b - a)).
Proof.
  intros INC LV NE H. split; [now apply curve_area_additive|]. intros V.
  pose proof (curve_bounds lam v a b (nth 0 v 0) (nth 0 v 0) INC LV NE ltac:(lra)) as Q.
  assert (X : forall x, In x v -> nth 0 v 0 <= x <= nth 0 v 0) by (intros x X; rewrite (V x X); lra).
  specialize (Q X). lra.
Qed.
Print Assumptions C48_area_is_an_integral.
Example C48_ex : increasing [400; 500; 700] /\ ~ inner_sample [400; 500; 700] 450.
Proof.
  split.
  - intros i j H. cbn [length] in H. destruct i as [|[|[|i]]], j as [|[|[|j]]]; cbn; try lia; lra.
  - intros [IN _]. cbn in IN. lra.
Qed.

(** C85: when the interval ends on a sample the average is taken over a longer interval *)
Theorem C85_every_interval_partial (lam v : list R) (ls le : R) :
  increasing lam -> length v = length lam -> lam <> [] -> ls < le -> inner_sample lam le ->
  exists a, average_spectrum_samples lam v ls le = Ok (a, lam, v) /\
    a = curve_area lam v ls (last lam 0) / (le - ls).
Proof.
  intros INC LV NE LT IS. destruct (average_main lam v ls le INC LV NE LT) as (a & A & _ & B).
  exists a. split; [exact A|]. destruct IS as [IN ?]. rewrite <- (B (conj IN H) ltac:(lra)). field. lra.
Qed.
Print Assumptions C85_every_interval_partial.
(** so a constant spectrum of 1 averages to 3 *)
Theorem C85_constant_refuted : exists lam v ls le, increasing lam /\ length v = length lam /\ ls < le /\
  (forall x, In x v -> x = 1) /\ average_spectrum_samples lam v ls le = Ok (3, lam, v).
Proof.
  exists [0; 1; 2], [1; 1; 1], (1/2), 1.
  assert (INC : increasing [0; 1; 2]).
  { intros i j H. cbn [length] in H. destruct i as [|[|[|i]]], j as [|[|[|j]]]; cbn; try lia; lra. }
  split; [exact INC|]. split; [reflexivity|]. split; [lra|]. split; [cbn; intuition congruence|].
  assert (IS : inner_sample [0; 1; 2] 1) by (split; [cbn; auto|cbn; lra]).
  destruct (C85_every_interval_partial [0;1;2] [1;1;1] (1/2) 1 INC eq_refl ltac:(discriminate) ltac:(lra) IS) as (a & A & B).
  rewrite A. do 3 f_equal. rewrite B.
  destruct (C48_area_is_an_integral [0;1;2] [1;1;1] (1/2) 2 2 INC eq_refl ltac:(discriminate) ltac:(lra)) as [_ Q].
  cbn [last]. rewrite Q; [cbn; lra|]. cbn; intuition congruence.
Qed.
Print Assumptions C85_constant_refuted.

(** C86: which interval each of the 30 bins averages.  Bin i should cover [400+10i, 410+10i]. *)
Theorem C86_bins_partial (lam v : list R) :
  increasing lam -> length v = length lam -> lam <> [] ->
  exists s, from_sampled lam v = Ok s /\ length s = 30%nat /\
    forall i, (i < 30)%nat -> ~ inner_sample lam (410 + 300 * INR i) ->
      nth i s 0 = curve_area lam v (400 + 10 * INR i) (410 + 300 * INR i) / (10 + 290 * INR i) /\
      (forall m M, (forall x, In x v -> m <= x <= M) -> m <= nth i s 0 <= M).
Proof.
  intros INC LV NE.
  assert (BL : forall i, bin_start i < bin_end_sampled i).
  { intros i. rewrite bin_start_val, bin_end_sampled_val. pose proof (pos_INR i). lra. }
  destruct (resample_main lam v bin_end_sampled (seq 0 N_SPECTRAL) INC LV NE BL) as (s & A & B & C).
  exists s. split; [exact A|]. split; [rewrite B; apply seq_length|]. intros i I0 NI.
  destruct (C i i) as (a & A1 & A2); [rewrite nth_error_seq by exact I0; reflexivity|].
  rewrite (nth_error_nth _ _ 0 A1).
  destruct (C48_mean lam v (bin_start i) (bin_end_sampled i) INC LV NE (BL i)) as (a' & A3 & A4).
  assert (a' = a) by congruence. subst a'. rewrite bin_end_sampled_val, bin_start_val in A4.
  destruct (A4 NI) as [A5 A6]. split; [|exact A6]. rewrite A5. f_equal. ring.
Qed.
Print Assumptions C86_bins_partial.
Theorem C86_bins_refuted : exists lam v s, increasing lam /\ length v = length lam /\
  from_sampled lam v = Ok s /\ nth 1 s 0 = 160 /\ curve_area lam v 410 420 / 10 = 15.
Proof.
  exists [400; 1000], [0; 600].
  assert (INC : increasing [400; 1000]).
  { intros i j H. cbn [length] in H. destruct i as [|[|i]], j as [|[|j]]; cbn; try lia; lra. }
  destruct (C86_bins_partial [400;1000] [0;600] INC eq_refl ltac:(discriminate)) as (s & A & B & C).
  exists s. split; [exact INC|]. split; [reflexivity|]. split; [exact A|].
  assert (AR : forall b, 420 <= b <= 1000 -> curve_area [400;1000] [0;600] 410 b = (b - 410) * (b - 390) / 2).
  { intros b Hb. unfold curve_area. cbn [nth last inner_area]. unfold segment_area.
    rewrite (Rmin_right b 400) by lra. rewrite (Rmax_right 410 1000) by lra. rewrite (Rmax_left 410) by lra.
    rewrite (Rmin_left b) by lra. rewrite !(Rmax_left 0) by lra. destruct Rle_dec; [lra|]. unfold line. field. }
  split; [|rewrite AR by lra; lra].
  destruct (C 1%nat ltac:(lia)) as [Q _].
  - intros [IN _]. cbn in IN. lra.
  - rewrite Q. replace (INR 1) with 1 by reflexivity. replace (400 + 10 * 1) with 410 by lra.
    rewrite AR by lra. lra.
Qed.
Print Assumptions C86_bins_refuted.
(** the CIE and RGB basis tables: bins ending on a tabulated wavelength integrate to the end of the table *)
Theorem C86_init_refuted (lam v : list R) :
  increasing lam -> length v = length lam -> lam <> [] ->
  exists s, init_curve lam v = Ok s /\ forall i, (i < 30)%nat ->
    (~ inner_sample lam (410 + 10 * INR i) -> nth i s 0 = curve_area lam v (400 + 10 * INR i) (410 + 10 * INR i) / 10) /\
    (inner_sample lam (410 + 10 * INR i) -> nth i s 0 = curve_area lam v (400 + 10 * INR i) (last lam 0) / 10).
Proof.
  intros INC LV NE.
  assert (BL : forall i, bin_start i < bin_end_init i).
  { intros i. rewrite bin_start_val, bin_end_init_val. pose proof (pos_INR i). lra. }
  destruct (resample_main lam v bin_end_init (seq 0 N_SPECTRAL) INC LV NE BL) as (s & A & B & C).
  exists s. split; [exact A|]. intros i I0.
  destruct (C i i) as (a & A1 & A2); [rewrite nth_error_seq by exact I0; reflexivity|].
  rewrite (nth_error_nth _ _ 0 A1).
  assert (TEN : bin_end_init i - bin_start i = 10) by (rewrite bin_start_val, bin_end_init_val; lra).
  rewrite <- bin_end_init_val, <- bin_start_val. split; intros H.
  - destruct (C48_mean lam v (bin_start i) (bin_end_init i) INC LV NE (BL i)) as (a' & A3 & A4).
    assert (a' = a) by congruence. subst a'. rewrite <- TEN. apply A4, H.
  - destruct (C85_every_interval_partial lam v (bin_start i) (bin_end_init i) INC LV NE (BL i) H) as (a' & A3 & A4).
    rewrite <- TEN. congruence.
Qed.
Print Assumptions C86_init_refuted.

(** C87: spectra from RGB.  Correct when red is (one of) the smallest channel(s); never negative; pure red gives
    the magenta curve. *)
Theorem C87_from_rgb_partial (k : R) (B : basis) (r g b : R) : basis_ok B -> r <= g -> r <= b ->
  length (from_rgb_branch k B (mkV r g b)) = 30%nat /\
  forall i, nth i (from_rgb_branch k B (mkV r g b)) 0 =
    Rmax 0 (k * smits (fun i => nth i (b_white B) 0) (fun i => nth i (b_cyan B) 0)
                      (fun i => nth i (if Rle_dec g b then b_blue B else b_green B) 0)
                      r (Rmin g b) (Rmax g b) i).
Proof.
  intros OK G Bb. assert (S : argsort3 (mkV r g b) = if Rle_dec g b then (0, 1, 2)%nat else (0, 2, 1)%nat).
  { unfold argsort3. cbn [vx vy vz vnth]. replace (Rltb g r) with false by (symmetry; now apply Rltb_false).
    cbn [vnth vx vy]. replace (Rltb b r) with false by (symmetry; now apply Rltb_false).
    unfold Rltb. destruct (Rle_dec g b), (Rlt_dec b g); try lra; reflexivity. }
  pose proof (fun i => from_rgb_nth k B (mkV r g b) i OK) as Q. rewrite S in Q.
  unfold smits. destruct (Rle_dec g b) as [L|L]; cbn [vnth vx vy vz] in Q.
  - rewrite (Rmin_left g b), (Rmax_right g b) by lra. split; [exact (proj1 (Q 0%nat))|]. intros i. apply Q.
  - rewrite (Rmin_right g b), (Rmax_left g b) by lra. split; [exact (proj1 (Q 0%nat))|]. intros i. apply Q.
Qed.
Print Assumptions C87_from_rgb_partial.
Theorem C87_from_rgb_refuted (k r : R) (B : basis) (i : nat) : basis_ok B -> 0 < r ->
  nth i (from_rgb_branch k B (mkV r 0 0)) 0 = Rmax 0 (k * (r * nth i (b_magenta B) 0)).
Proof.
  intros OK H. pose proof (from_rgb_nth k B (mkV r 0 0) i OK) as Q.
  assert (S : argsort3 (mkV r 0 0) = (1, 2, 0)%nat).
  { unfold argsort3. cbn [vx vy vz vnth]. replace (Rltb 0 r) with true by (symmetry; now apply Rltb_true).
    cbn [vnth vx vy]. replace (Rltb 0 0) with false by (symmetry; apply Rltb_false; lra).
    replace (Rltb 0 r) with true by (symmetry; now apply Rltb_true). reflexivity. }
  rewrite S in Q. cbn [vnth vx vy vz] in Q. rewrite (proj2 Q). f_equal. f_equal. ring.
Qed.
Print Assumptions C87_from_rgb_refuted.
Example C87_ex : exists B, basis_ok B /\ nth 3 (b_magenta B) 0 = 1 /\ nth 3 (b_red B) 0 = 0.
Proof.
  exists (mkBasis (repeat 0 30) (repeat 0 30) (repeat 1 30) (repeat 0 30) (repeat 0 30) (repeat 0 30) (repeat 0 30)).
  repeat split.
Qed.

(** C61 *)
Theorem C61_powers (x : Z) :
  (is_pow_2 x = true <-> x = 0%Z \/ exists k, (0 <= k)%Z /\ x = (2 ^ k)%Z) /\
  ((1 <= x)%Z -> exists k, (0 <= k)%Z /\ next_pow_2 x = (2 ^ k)%Z /\ (x <= 2 ^ k)%Z /\
     (forall j, (0 <= j)%Z -> (x <= 2 ^ j)%Z -> (2 ^ k <= 2 ^ j)%Z)) /\
  ((1 <= x)%Z -> is_pow_2 x = true -> next_pow_2 x = x).
Proof.
  split; [|split].
  - split.
    + intros T. destruct (Z.lt_trichotomy x 0) as [N|[E0|P]]; [rewrite is_pow_2_neg in T by assumption; discriminate|auto|].
      right. now apply is_pow_2_only.
    + intros [->|(k & K & ->)]; [reflexivity|now apply is_pow_2_pow].
  - exact (next_pow_2_main x).
  - intros H T. destruct (is_pow_2_only x ltac:(lia) T) as (j & J & E0).
    destruct (next_pow_2_main x H) as (k & K & -> & A & B). specialize (B j J ltac:(lia)). lia.
Qed.
Print Assumptions C61_powers.
Theorem C61_rounding (x : R) :
  IZR (ftoi x) <= x < IZR (ftoi x) + 1 /\ IZR (ctoi x) - 1 < x <= IZR (ctoi x) /\
  Rabs (IZR (rtoi x) - x) <= 1/2 /\ (forall z, x = IZR z -> ftoi x = z /\ ctoi x = z /\ rtoi x = z).
Proof.
  split; [apply Zfloor_spec|]. split; [apply Zceil_spec|]. split; [apply Rabs_le; exact (np_round_spec x)|].
  intros z ->. unfold ftoi, ctoi, rtoi. rewrite Zfloor_IZR, Zceil_IZR. repeat split.
  pose proof (np_round_spec (IZR z)) as [A B].
  assert (C : IZR (np_round (IZR z)) < IZR (z + 1)) by (rewrite plus_IZR; lra).
  assert (D : IZR (z - 1) < IZR (np_round (IZR z))) by (rewrite minus_IZR; lra). apply lt_IZR in C, D. lia.
Qed.
Print Assumptions C61_rounding.
Theorem C61_tolerances (x : R) :
  (eq_unity x = true <-> Rabs (x - 1) < EPS) /\ (ne_unity x = true <-> EPS < Rabs (x - 1)) /\
  (is_zero x = true <-> Rabs x < EPS) /\ (not_zero x = true <-> EPS < Rabs x) /\
  ~ (eq_unity x = true /\ ne_unity x = true) /\ ~ (is_zero x = true /\ not_zero x = true) /\
  (is_black1 x = true <-> is_zero x = true).
Proof.
  assert (P : 0 < EPS) by (unfold EPS; lra).
  assert (A : forall y a, Rabs y < a <-> -a < y /\ y < a).
  { intros. split; [intros Q; apply Rabs_def2 in Q; lra|intros [? ?]; now apply Rabs_def1]. }
  assert (B : forall y, EPS < Rabs y <-> y < - EPS \/ EPS < y).
  { intros y. unfold Rabs. destruct Rcase_abs; lra. }
  unfold eq_unity, ne_unity, is_zero, not_zero, is_black1.
  rewrite A, B, A, B. rewrite !andb_true_iff, !orb_true_iff, !Rltb_true, A. repeat split; try lra.
Qed.
Print Assumptions C61_tolerances.
Theorem C61_lerp (t a b : R) : 0 <= t <= 1 -> a <= b ->
  a <= lerp t a b <= b /\ lerp 0 a b = a /\ lerp 1 a b = b /\ (forall t', t <= t' -> lerp t a b <= lerp t' a b).
Proof.
  intros T H. unfold lerp.
  assert (0 <= t * (b - a)) by (apply Rmult_le_pos; lra). assert (0 <= (1 - t) * (b - a)) by (apply Rmult_le_pos; lra).
  repeat split; try lra. intros t' Q. assert (0 <= (t' - t) * (b - a)) by (apply Rmult_le_pos; lra). lra.
Qed.
Print Assumptions C61_lerp.
Example C61_ex : (1 <= 100)%Z /\ next_pow_2 100 = 128%Z.
Proof.
  split; [lia|]. destruct (next_pow_2_main 100 ltac:(lia)) as (k & K & -> & A & B).
  specialize (B 7%Z ltac:(lia) ltac:(lia)). destruct (Z_le_gt_dec k 6) as [L|L].
  - assert (2 ^ k <= 2 ^ 6)%Z by (apply Z.pow_le_mono_r; lia). lia.
  - assert (2 ^ 7 <= 2 ^ k)%Z by (apply Z.pow_le_mono_r; lia). lia.
Qed.

(** C88: round_pow_2 is within a factor sqrt 2, but not always the nearest power *)
Theorem C88_round_pow_2_partial (x : Z) : (1 <= x)%Z -> exists k, (0 <= k)%Z /\ round_pow_2 x = (2 ^ k)%Z /\
  (x * x <= 2 * (2 ^ k * 2 ^ k) /\ 2 ^ k * 2 ^ k <= 2 * (x * x))%Z.
Proof. exact (round_pow_2_main x). Qed.
Print Assumptions C88_round_pow_2_partial.
Theorem C88_nearest_refuted : exists x k, (0 <= k)%Z /\ (1 <= x)%Z /\
  (Z.abs (2 ^ k - x) < Z.abs (round_pow_2 x - x))%Z.
Proof. exists 23%Z, 4%Z. rewrite round_pow_2_23. repeat split; lia. Qed.
Print Assumptions C88_nearest_refuted.
