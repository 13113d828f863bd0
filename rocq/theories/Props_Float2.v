(** C251-C258: the code under float64 rounding, continued *)
From Coq Require Import Reals ZArith List Bool Lra Lia Sorted.
From Flocq Require Import Core.
From Verif Require Import M_Float P_Float.
Import ListNotations.
Open Scope R_scope.

Ltac pow2 := change (2 ^ 51)%Z with 2251799813685248%Z in *; change (2 ^ 52)%Z with 4503599627370496%Z in *; change (2 ^ 53)%Z with 9007199254740992%Z in *.

(** ** C251 buckets of the surface area heuristic *)
Lemma Ztrunc_le x y : x <= y -> (Ztrunc x <= Ztrunc y)%Z. Proof. apply Ztrunc_le. Qed.
Lemma bucket_arg (n : Z) lo hi c : (1 <= n <= 2 ^ 53)%Z -> F64 lo -> F64 hi -> lo < hi -> lo <= c <= hi ->
  0 <= fmul (IZR n) (fdiv (fsub c lo) (fsub hi lo)) <= IZR n.
Proof.
  intros Hn Fl Fh H Hc. pose proof (fsub_pos lo hi Fl Fh H) as P. assert (N : 0 < IZR n) by (apply IZR_lt; lia).
  assert (Q : 0 <= fdiv (fsub c lo) (fsub hi lo) <= 1).
  { unfold fdiv. split; [apply fl_nonneg, div_ge0; [exact P|apply fl_nonneg; lra]|].
    apply fl_le_r; [apply F64_1|]. apply div_le1; [exact P|]. apply fl_le. lra. }
  unfold fmul. split; [apply fl_nonneg; nra|]. apply fl_le_r; [apply F64_IZR; lia|nra].
Qed.
(** The bucket is always one of the n; the assertion of the code never fails; buckets are in the order of the centroids;
    the least centroid is in the first bucket and the greatest in the last, so that every split between buckets leaves a
    centroid on either side. *)
Theorem C251_buckets (n : Z) (lo hi c c' : R) : (2 <= n <= 2 ^ 53)%Z -> F64 lo -> F64 hi -> lo < hi -> lo <= c <= c' -> c' <= hi ->
  (0 <= f_bucket n lo hi c < n)%Z /\ (f_bucket n lo hi c <= f_bucket n lo hi c')%Z /\
  f_bucket n lo hi lo = 0%Z /\ f_bucket n lo hi hi = (n - 1)%Z /\
  (forall s, (0 <= s < n - 1)%Z -> (f_bucket n lo hi lo <= s)%Z /\ (s < f_bucket n lo hi hi)%Z).
Proof.
  intros Hn Fl Fh H Hc Hc'. pose proof (fsub_pos lo hi Fl Fh H) as P.
  assert (B : forall x, lo <= x <= hi -> (0 <= f_bucket0 n lo hi x <= n)%Z).
  { intros x Hx. destruct (bucket_arg n lo hi x ltac:(lia) Fl Fh H Hx) as [A1 A2]. unfold f_bucket0. split.
    - rewrite <- (Ztrunc_IZR 0). now apply Ztrunc_le.
    - eapply Z.le_trans; [apply Ztrunc_le; exact A2|]. rewrite Ztrunc_IZR. lia. }
  assert (EL : f_bucket n lo hi lo = 0%Z).
  { unfold f_bucket, f_bucket0. replace (fsub lo lo) with 0 by (unfold fsub; rewrite Rminus_diag_eq by reflexivity; now rewrite fl_0). unfold fdiv, fmul. unfold Rdiv. rewrite Rmult_0_l, fl_0, Rmult_0_r, fl_0.
    rewrite (Ztrunc_IZR 0). destruct (Z.eqb_spec 0 n); [lia|reflexivity]. }
  assert (EH : f_bucket n lo hi hi = (n - 1)%Z).
  { unfold f_bucket, f_bucket0, fdiv, fmul. replace (fsub hi lo / fsub hi lo) with 1 by (field; lra). rewrite (fl_id 1 F64_1), Rmult_1_r.
    rewrite (fl_id (IZR n)) by (apply F64_IZR; lia). rewrite Ztrunc_IZR, Z.eqb_refl. reflexivity. }
  pose proof (B c ltac:(lra)) as Bc. pose proof (B c' ltac:(lra)) as Bc'.
  assert (MO : (f_bucket0 n lo hi c <= f_bucket0 n lo hi c')%Z).
  { unfold f_bucket0. apply Ztrunc_le. unfold fmul. apply fl_le. apply Rmult_le_compat_l; [apply IZR_le; lia|].
    unfold fdiv. apply fl_le, div_le; [exact P|]. apply fl_le. lra. }
  split; [unfold f_bucket; destruct (Z.eqb_spec (f_bucket0 n lo hi c) n); lia|].
  split; [unfold f_bucket; destruct (Z.eqb_spec (f_bucket0 n lo hi c) n), (Z.eqb_spec (f_bucket0 n lo hi c') n); lia|].
  split; [exact EL|]. split; [exact EH|]. intros s Hs. rewrite EL, EH. lia.
Qed.
Print Assumptions C251_buckets.
Example C251_meets : (2 <= 12 <= 2 ^ 53)%Z /\ F64 0 /\ F64 (1/2) /\ 0 < 1/2.
Proof. split; [lia|]. split; [apply F64_0|]. split; [apply F64_half|lra]. Qed.

(** ** C252, C253 weights of multiple importance sampling *)
Lemma sum_ge F G : 0 <= F -> 0 <= G -> F64 F -> F <= fl (F + G). Proof. intros. apply fl_le_l; [auto|lra]. Qed.
(** The balance weights are in [0, 1] when a product of count and density is positive, 1 for the only strategy, and the two
    weights add up to 1 but for rounding. *)
Theorem C252_balance (nf f ng g : R) : 0 <= nf -> 0 <= f -> 0 <= ng -> 0 <= g -> (0 < fmul nf f \/ 0 < fmul ng g) ->
  0 <= f_balance nf f ng g <= 1 /\ (0 < fmul nf f -> g = 0 -> f_balance nf f ng g = 1) /\
  Rabs (f_balance nf f ng g + f_balance ng g nf f - 1) <= bpow radix2 (-50).
Proof.
  intros Hnf Hf Hng Hg HP. unfold f_balance, fadd. set (F := fmul nf f) in *. set (G := fmul ng g) in *.
  assert (F0 : 0 <= F) by (apply fl_nonneg; nra). assert (G0 : 0 <= G) by (apply fl_nonneg; nra).
  assert (FF : F64 F) by apply fl_F64. assert (FG : F64 G) by apply fl_F64.
  rewrite (Rplus_comm G F). set (D := fl (F + G)).
  assert (DF : F <= D) by now apply sum_ge. assert (DG : G <= D) by (unfold D; rewrite Rplus_comm; now apply sum_ge).
  assert (D0 : 0 < D) by (destruct HP; lra).
  split; [|split].
  - unfold fdiv. split; [apply fl_nonneg, div_ge0; auto|]. apply fl_le_r; [apply F64_1|]. now apply div_le1.
  - intros HF ->. assert (EG : G = 0) by (unfold G, fmul; rewrite Rmult_0_r; apply fl_0).
    assert (ED : D = F) by (unfold D; rewrite EG, Rplus_0_r; now apply fl_id). rewrite ED. unfold fdiv.
    replace (F / F) with 1 by (field; lra). apply fl_id, F64_1.
  - set (eps := bpow radix2 (-53)). set (eta := bpow radix2 (-1075)).
    assert (E0 : 0 < eps) by apply bpow_gt_0. assert (H0 : 0 < eta) by apply bpow_gt_0. assert (HE : eta <= eps) by (apply bpow_le; lia).
    assert (ES : eps <= / 1024). { unfold eps. change (/ 1024) with (bpow radix2 (-10)). apply bpow_le; lia. }
    assert (DR : Rabs (D - (F + G)) <= eps * D).
    { destruct (Rle_lt_dec (bpow radix2 (-1022)) (F + G)) as [H|H].
      - destruct (fl_rel (F + G)) as (e & A & B); [rewrite Rabs_right; lra|]. fold D in B. fold eps in A.
        (* nearest: the error is at most eps times the result *)
        pose proof (error_le_half_ulp_round radix2 fexp64 (fun x => negb (Z.even x)) (F + G)) as HU.
        change (round radix2 fexp64 (Znearest (fun x => negb (Z.even x))) (F + G)) with D in HU.
        eapply Rle_trans; [exact HU|].
        assert (UL : ulp radix2 fexp64 D <= bpow radix2 (-52) * D).
        { pose proof (ulp_FLT_le radix2 (-1074) 53 D) as U. rewrite (Rabs_right D) in U by lra. 
          change (bpow radix2 (1 - 53)) with (bpow radix2 (-52)) in U. rewrite Rmult_comm. apply U.
          change (-1074 + 53 - 1)%Z with (-1022)%Z. apply fl_le_l; [apply generic_format_bpow; unfold fexp64, FLT_exp; lia|exact H]. }
        replace (bpow radix2 (-52)) with (2 * eps) in UL; [lra|]. unfold eps. change (-52)%Z with (1 + -53)%Z. rewrite bpow_plus. reflexivity.
      - assert (EX : D = F + G).
        { apply fl_id. apply (Plus_error.FLT_format_plus_small radix2 (-1074) 53); [exact FF|exact FG|]. 
          rewrite Rabs_right by lra. apply Rlt_le. eapply Rlt_le_trans; [exact H|]. apply bpow_le. lia. }
        rewrite EX, Rminus_diag_eq, Rabs_R0 by reflexivity. nra. }
    assert (QF : 0 <= F / D <= 1) by (split; [now apply div_ge0|now apply div_le1]).
    assert (QG : 0 <= G / D <= 1) by (split; [now apply div_ge0|now apply div_le1]).
    pose proof (fl_dist (F / D)) as A1. pose proof (fl_dist (G / D)) as A2. fold eps eta in A1, A2.
    rewrite (Rabs_right (F / D)) in A1 by lra. rewrite (Rabs_right (G / D)) in A2 by lra.
    assert (SS : Rabs (F / D + G / D - 1) <= eps).
    { replace (F / D + G / D - 1) with (- ((D - (F + G)) / D)) by (field; lra). rewrite Rabs_Ropp. unfold Rdiv. rewrite Rabs_mult, (Rabs_right (/ D)); [|apply Rle_ge, Rlt_le, Rinv_0_lt_compat, D0].
      apply Rmult_le_reg_r with D; [exact D0|]. rewrite Rmult_assoc, Rinv_l by lra. lra. }
    unfold fdiv. apply Rabs_le_inv in A1. apply Rabs_le_inv in A2. apply Rabs_le_inv in SS.
    assert (B50 : bpow radix2 (-50) = 8 * eps). { unfold eps. change (-50)%Z with (3 + -53)%Z. rewrite bpow_plus. reflexivity. }
    rewrite B50. apply Rabs_le. split; nra.
Qed.
Print Assumptions C252_balance.
(** The power weights are in [0, 1] when the denominator has not vanished. *)
Theorem C253_power_partial (nf f ng g : R) : 0 < f_power_den nf f ng g -> 0 <= f_power nf f ng g <= 1 /\
  (g = 0 -> f_power nf f ng g = 1).
Proof.
  unfold f_power, f_power_den. set (F := fmul nf f). set (G := fmul ng g). intros HD.
  assert (SF : 0 <= fmul F F) by (apply fl_nonneg; nra). assert (SG : 0 <= fmul G G) by (apply fl_nonneg; nra).
  assert (DF : fmul F F <= fadd (fmul F F) (fmul G G)) by (apply sum_ge; auto; apply fl_F64).
  split.
  - unfold fdiv. split; [apply fl_nonneg, div_ge0; auto|]. apply fl_le_r; [apply F64_1|]. now apply div_le1.
  - intros ->. assert (EG : fmul G G = 0) by (unfold G, fmul; rewrite Rmult_0_r, fl_0, Rmult_0_r; apply fl_0).
    rewrite EG in *. assert (ED : fadd (fmul F F) 0 = fmul F F) by (unfold fadd; rewrite Rplus_0_r; apply fl_id, fl_F64). rewrite ED in *.
    unfold fdiv. replace (fmul F F / fmul F F) with 1 by (field; lra). apply fl_id, F64_1.
Qed.
(** It does not vanish for counts from 1 on and a density of at least 2^-500. *)
Theorem C253_denominator_partial (nf f ng g : R) : 1 <= nf -> 1 <= ng -> 0 <= f -> 0 <= g -> bpow radix2 (-500) <= f \/ bpow radix2 (-500) <= g -> 0 < f_power_den nf f ng g.
Proof.
  intros Hn Hm Hf Hg H. unfold f_power_den.
  assert (X : forall n x, 1 <= n -> bpow radix2 (-500) <= x -> bpow radix2 (-1000) <= fmul (fmul n x) (fmul n x)).
  { intros n x H1 H2. pose proof (bpow_gt_0 radix2 (-500)). assert (A : bpow radix2 (-500) <= fmul n x).
    { unfold fmul. apply fl_le_l; [apply generic_format_bpow; unfold fexp64, FLT_exp; lia|nra]. }
    unfold fmul at 1. apply fl_le_l; [apply generic_format_bpow; unfold fexp64, FLT_exp; lia|]. change (-1000)%Z with (-500 + -500)%Z. rewrite bpow_plus. nra. }
  assert (P : 0 < bpow radix2 (-1000)) by apply bpow_gt_0.
  assert (NN : forall x, 0 <= fmul x x) by (intros; apply fl_nonneg; nra).
  unfold fadd. apply Rlt_le_trans with (bpow radix2 (-1000)); [exact P|]. apply fl_le_l; [apply generic_format_bpow; unfold fexp64, FLT_exp; lia|].
  pose proof (NN (fmul nf f)). pose proof (NN (fmul ng g)). destruct H as [H|H]; [pose proof (X nf f Hn H)|pose proof (X ng g Hm H)]; lra.
Qed.
Print Assumptions C253_power_partial.
Print Assumptions C253_denominator_partial.
(** Two positive densities can be so small that both squares vanish: the code then divides by zero. *)
Theorem C253_vanishing_refuted : exists f, F64 f /\ 0 < f /\ 0 < fmul 1 f /\ f_power_den 1 f 1 f = 0.
Proof.
  set (f := bpow radix2 (-600)). assert (P : 0 < f) by apply bpow_gt_0. assert (FF : F64 f) by (apply generic_format_bpow; unfold fexp64, FLT_exp; lia).
  exists f. split; [exact FF|]. split; [exact P|]. unfold f_power_den, fmul. rewrite Rmult_1_l, (fl_id f FF). split; [exact P|].
  assert (E : fl (f * f) = 0).
  { unfold f. rewrite <- bpow_plus. unfold fl. apply (round_N_small_pos radix2 fexp64 _ _ (-1199)); [|unfold fexp64, FLT_exp; lia].
    split; [apply bpow_le; lia|apply bpow_lt; lia]. }
  rewrite E. unfold fadd. rewrite Rplus_0_r. apply fl_0.
Qed.
Print Assumptions C253_vanishing_refuted.

(** ** C254 one-dimensional tables *)
Definition table_ok (arr : list R) : Prop := (Z.of_nat (length arr) <= 2 ^ 53)%Z /\ Forall (fun a => 0 <= a) arr /\ 0 < f_raw arr.
Lemma sums_len n acc arr : length (f_sums n acc arr) = length arr. Proof. revert acc. induction arr; cbn; auto. Qed.
Lemma sums_mono n arr : 0 < n -> Forall (fun a => 0 <= a) arr -> forall acc, F64 acc ->
  forall i, (i < length arr)%nat -> nth i (acc :: f_sums n acc arr) 0 <= nth (S i) (acc :: f_sums n acc arr) 0 /\
    (nth i arr 0 = 0 -> nth i (acc :: f_sums n acc arr) 0 = nth (S i) (acc :: f_sums n acc arr) 0).
Proof.
  intros Hn. induction 1 as [|a l Ha Hl IH]; intros acc Hacc i Hi; [cbn in Hi; lia|].
  destruct i as [|i].
  - cbn [nth f_sums]. split.
    + apply fl_le_l; [auto|]. assert (0 <= fdiv a n) by (apply fl_nonneg, div_ge0; auto). lra.
    + intros ->. unfold fadd, fdiv, Rdiv. rewrite Rmult_0_l, fl_0, Rplus_0_r. symmetry. now apply fl_id.
  - cbn [f_sums]. cbn [nth length] in *. apply (IH (fadd acc (fdiv a n))); [apply fl_F64|lia].
Qed.
Lemma last_nth {A} (l : list A) d : last l d = nth (length l - 1) l d.
Proof. induction l as [|a l IH]; [reflexivity|]. destruct l as [|b l]; [reflexivity|]. change (last (a :: b :: l) d) with (last (b :: l) d). rewrite IH. cbn [length]. replace (S (S (length l)) - 1)%nat with (S (length l)) by lia. replace (S (length l) - 1)%nat with (length l) by lia. reflexivity. Qed.
Section Table.
Variable arr : list R.
Hypothesis OK : table_ok arr.
Let n := length arr.
Lemma tn : (1 <= n)%nat.
Proof. destruct OK as (_ & _ & P). unfold n. destruct arr; [|cbn; lia]. unfold f_raw, f_cdf_raw in P. cbn in P. lra. Qed.
Lemma tn0 : 0 < INR n. Proof. apply lt_0_INR. pose proof tn. lia. Qed.
Lemma raw_len : length (f_cdf_raw arr) = S n. Proof. unfold f_cdf_raw. cbn. now rewrite sums_len. Qed.
Lemma cdf_len : length (f_cdf arr) = S n. Proof. unfold f_cdf. now rewrite map_length, raw_len. Qed.
Lemma cdf_nth i : (i <= n)%nat -> nth i (f_cdf arr) 0 = fdiv (nth i (f_cdf_raw arr) 0) (f_raw arr).
Proof.
  intros Hi. unfold f_cdf. rewrite (nth_indep _ 0 (fdiv 0 (f_raw arr))) by (rewrite map_length, raw_len; lia).
  exact (map_nth (fun x => fdiv x (f_raw arr)) (f_cdf_raw arr) 0 i).
Qed.
Lemma raw_step i : (i < n)%nat -> nth i (f_cdf_raw arr) 0 <= nth (S i) (f_cdf_raw arr) 0 /\ (nth i arr 0 = 0 -> nth i (f_cdf_raw arr) 0 = nth (S i) (f_cdf_raw arr) 0).
Proof. intros Hi. destruct OK as (_ & P & _). apply sums_mono; auto; [apply tn0|apply F64_0]. Qed.
Lemma raw_mono i j : (i <= j <= n)%nat -> nth i (f_cdf_raw arr) 0 <= nth j (f_cdf_raw arr) 0.
Proof. intros [H1 H2]. induction H1 as [|j H IH]; [lra|]. eapply Rle_trans; [apply IH; lia|]. apply raw_step. lia. Qed.
Lemma raw_last : f_raw arr = nth n (f_cdf_raw arr) 0. Proof. unfold f_raw. rewrite last_nth, raw_len. f_equal. lia. Qed.
Lemma cdf_first : nth 0 (f_cdf arr) 0 = 0.
Proof. rewrite cdf_nth by lia. unfold f_cdf_raw, fdiv, Rdiv; cbn [nth]. rewrite Rmult_0_l. apply fl_0. Qed.
Lemma cdf_last : nth n (f_cdf arr) 0 = 1.
Proof. rewrite cdf_nth, <- raw_last by lia. unfold fdiv. destruct OK as (_ & _ & P). replace (f_raw arr / f_raw arr) with 1 by (field; lra). apply fl_id, F64_1. Qed.
Lemma cdf_mono i j : (i <= j <= n)%nat -> nth i (f_cdf arr) 0 <= nth j (f_cdf arr) 0.
Proof. intros H. rewrite !cdf_nth by lia. destruct OK as (_ & _ & P). apply fl_le, div_le; [exact P|]. now apply raw_mono. Qed.
Lemma cdf_F i : (i <= n)%nat -> F64 (nth i (f_cdf arr) 0). Proof. intros H. rewrite cdf_nth by lia. apply fl_F64. Qed.
Lemma search_spec l u : exists k, f_search l u = k /\ (k <= length l)%nat /\ (forall i, (i < k)%nat -> nth i l 0 < u) /\ ((k < length l)%nat -> u <= nth k l 0).
Proof.
  induction l as [|a l (k & E & K & A & B)]; cbn [f_search].
  - exists 0%nat. repeat split; [cbn; lia|intros; lia|cbn; lia].
  - destruct (Rlt_dec a u) as [H|H].
    + exists (S k). split; [now rewrite E|]. cbn [length]. split; [lia|]. split; [intros [|i] Hi; cbn; [exact H|apply A; lia]|intros Hk; cbn; apply B; lia].
    + exists 0%nat. split; [reflexivity|]. split; [lia|]. split; [intros; lia|]. intros _. cbn. lra.
Qed.
Lemma off_spec u : 0 < u <= 1 -> (f_off arr u < n)%nat /\ nth (f_off arr u) (f_cdf arr) 0 < u <= nth (S (f_off arr u)) (f_cdf arr) 0.
Proof.
  intros Hu. unfold f_off. destruct (search_spec (f_cdf arr) u) as (k & -> & K & A & B). rewrite cdf_len in *.
  assert (K0 : (0 < k)%nat). { destruct k; [|lia]. specialize (B ltac:(lia)). rewrite cdf_first in B. lra. }
  assert (KN : (k <= n)%nat). { destruct (Nat.eq_dec k (S n)) as [->|]; [|lia]. specialize (A n ltac:(lia)). rewrite cdf_last in A. lra. }
  destruct k as [|k]; [lia|]. cbn [Nat.pred]. split; [lia|]. split; [apply A; lia|apply B; lia].
Qed.
End Table.
(** The cumulative table starts at 0, never decreases and ends at exactly 1. *)
Theorem C254_table_partial (arr : list R) (i j : nat) : table_ok arr -> (i <= j <= length arr)%nat ->
  length (f_cdf arr) = S (length arr) /\ nth 0 (f_cdf arr) 0 = 0 /\ nth (length arr) (f_cdf arr) 0 = 1 /\
  0 <= nth i (f_cdf arr) 0 <= nth j (f_cdf arr) 0 /\ nth j (f_cdf arr) 0 <= 1.
Proof.
  intros OK H. split; [now apply cdf_len|]. split; [now apply cdf_first|]. split; [now apply cdf_last|].
  pose proof (cdf_first arr) as Q0. pose proof (cdf_last arr OK) as Q1. pose proof (cdf_mono arr OK 0 i ltac:(lia)) as M0.
  pose proof (cdf_mono arr OK i j H) as M1. pose proof (cdf_mono arr OK j (length arr) ltac:(lia)) as M2. lra.
Qed.
(** A draw above 0 selects an entry of the table, with a positive value, whose cumulative interval holds the draw; nothing
    is divided by zero; the sampled point lies between the rounded ends of the entry's cell, within [0, 1]; the density is
    not negative. *)
Theorem C254_sample_partial (arr : list R) (u : R) : table_ok arr -> F64 u -> 0 < u <= 1 ->
  let off := f_off arr u in let n := INR (length arr) in
  (off < length arr)%nat /\ nth off (f_cdf arr) 0 < u <= nth (S off) (f_cdf arr) 0 /\ 0 < nth off arr 0 /\ 0 < f_width arr u /\
  fl (INR off / n) <= fst (f_cont arr u) <= fl (INR (S off) / n) /\ 0 <= fst (f_cont arr u) <= 1 /\ 0 <= snd (f_cont arr u).
Proof.
  intros OK Fu Hu off n. destruct (off_spec arr OK u Hu) as (H1 & H2). fold off in H1, H2.
  pose proof (tn0 arr OK) as N0. fold n in N0. destruct OK as (LN & NN & RW). assert (OK : table_ok arr) by (repeat split; auto).
  assert (A0 : 0 <= nth off arr 0) by (apply (proj1 (Forall_forall _ _) NN), nth_In; exact H1).
  assert (AP : 0 < nth off arr 0).
  { destruct A0 as [A0|A0]; [exact A0|]. exfalso. destruct (raw_step arr OK off H1) as [_ E]. specialize (E (eq_sym A0)).
    rewrite !(cdf_nth arr) in H2 by lia. rewrite E in H2. lra. }
  assert (W : 0 < f_width arr u). { unfold f_width. fold off. apply fsub_pos; [apply cdf_F; auto; lia|apply cdf_F; auto; lia|lra]. }
  assert (DU : 0 <= fdiv (fsub u (nth off (f_cdf arr) 0)) (f_width arr u) <= 1).
  { unfold fdiv. split; [apply fl_nonneg, div_ge0; [exact W|apply fl_nonneg; lra]|]. apply fl_le_r; [apply F64_1|]. apply div_le1; [exact W|].
    unfold f_width. fold off. apply fl_le. lra. }
  assert (FI : forall k, (k <= length arr)%nat -> F64 (INR k)) by (intros k Hk; rewrite INR_IZR_INZ; apply F64_IZR; lia).
  assert (SU : INR off <= fadd (fdiv (fsub u (nth off (f_cdf arr) 0)) (f_width arr u)) (INR off) <= INR (S off)).
  { unfold fadd. split; [apply fl_le_l; [apply FI; lia|lra]|apply fl_le_r; [apply FI; lia|rewrite S_INR; lra]]. }
  assert (V : fl (INR off / n) <= fst (f_cont arr u) <= fl (INR (S off) / n)).
  { unfold f_cont. fold off n. cbn [fst]. unfold fdiv at 1 3. split; apply fl_le, div_le; try apply SU; exact N0. }
  split; [exact H1|]. split; [exact H2|]. split; [exact AP|]. split; [exact W|]. split; [exact V|]. split.
  - split; [eapply Rle_trans; [|apply V]; apply fl_nonneg, div_ge0; [auto|apply pos_INR]|].
    eapply Rle_trans; [apply V|]. apply fl_le_r; [apply F64_1|]. apply div_le1; [auto|]. apply le_INR. lia.
  - unfold f_cont. cbn [snd]. apply fl_nonneg, div_ge0; auto.
Qed.
Print Assumptions C254_table_partial.
Print Assumptions C254_sample_partial.
(** The sampled point can be 1 for a draw below 1. *)
Lemma t13_raw : f_cdf_raw [1; 3] = [0; 1/2; 2].
Proof.
  unfold f_cdf_raw; cbn [length f_sums]. replace (INR 2) with 2 by (cbn; lra). unfold fadd, fdiv.
  assert (A : fl (1 / 2) = 1/2) by apply fl_id, F64_half. rewrite A, Rplus_0_l, A.
  assert (B : fl (3 / 2) = 3/2) by (apply fl_id, (F64_dyadic 3 1); lia). rewrite B. replace (1/2 + 3/2) with 2 by lra. rewrite (fl_id 2) by (apply F64_IZR; lia). reflexivity.
Qed.
Lemma t13_cdf : f_cdf [1; 3] = [0; 1/4; 1].
Proof.
  unfold f_cdf, f_raw. rewrite t13_raw. cbn [last map]. unfold fdiv. replace (0 / 2) with 0 by lra. replace (1 / 2 / 2) with (1/4) by lra. replace (2 / 2) with 1 by lra.
  rewrite fl_0, (fl_id 1 F64_1), (fl_id (1/4)) by (apply (F64_dyadic 1 2); lia). reflexivity.
Qed.
Theorem C254_below_one_refuted : exists u, table_ok [1; 3] /\ F64 u /\ 0 < u < 1 /\ fst (f_cont [1; 3] u) = 1.
Proof.
  exists u_top. pose proof u_top_range as UR. assert (U0 : 1/4 < u_top) by (unfold u_top; pow2; lra).
  split. { split; [cbn; lia|]. split; [repeat constructor; lra|]. unfold f_raw. rewrite t13_raw. cbn. lra. }
  split; [apply u_top_F|]. split; [lra|].
  assert (OFF : f_off [1; 3] u_top = 1%nat).
  { unfold f_off. rewrite t13_cdf. cbn [f_search]. destruct (Rlt_dec 0 u_top); [|lra]. destruct (Rlt_dec (1/4) u_top); [|lra]. destruct (Rlt_dec 1 u_top); [lra|reflexivity]. }
  unfold f_cont, f_width. rewrite OFF, t13_cdf. cbn [fst nth length]. replace (INR 2) with 2 by (cbn; lra). change (INR 1) with 1.
  assert (W : fsub 1 (1/4) = 3/4) by (unfold fsub; replace (1 - 1/4) with (3/4) by lra; apply fl_id, (F64_dyadic 3 2); lia). rewrite W.
  assert (N : fsub u_top (1/4) = 6755399441055743 / 9007199254740992).
  { unfold fsub. replace (u_top - 1/4) with (IZR 6755399441055743 / IZR (2 ^ 53)) by (unfold u_top; pow2; lra). rewrite fl_id by (apply F64_dyadic; lia). pow2. reflexivity. }
  rewrite N.
  assert (Q : fdiv (6755399441055743 / 9007199254740992) (3/4) = u_top).
  { unfold fdiv. rewrite (fl_eval 9007199254740991 53); [unfold u_top; pow2; lra|lia| | |]; pow2; try lra. apply Rabs_def1; lra. }
  rewrite Q. unfold fadd. rewrite Rplus_comm. fold (fadd 1 u_top). rewrite (add_top 1) by lia. unfold fdiv. change (IZR (1 + 1)) with 2. replace (2 / 2) with 1 by lra. apply fl_id, F64_1.
Qed.
Print Assumptions C254_below_one_refuted.

(** ** C255 rays and boxes *)
Lemma box_contains lo hi o d t0 t1 t : t0 <= t <= t1 ->
  (forall i, (i < 3)%nat -> fst (f_slab (nth i lo 0) (nth i hi 0) (nth i o 0) (nth i d 0)) <= t <= snd (f_slab (nth i lo 0) (nth i hi 0) (nth i o 0) (nth i d 0))) ->
  exists a b, f_box lo hi o d t0 t1 = Some (a, b) /\ t0 <= a <= t /\ t <= b <= t1.
Proof.
  intros Ht H. unfold f_box. cbn [fold_left].
  set (s i := f_slab (nth i lo 0) (nth i hi 0) (nth i o 0) (nth i d 0)).
  pose proof (H 0%nat ltac:(lia)) as H0. pose proof (H 1%nat ltac:(lia)) as H1. pose proof (H 2%nat ltac:(lia)) as H2.
  change (f_slab (nth 0 lo 0) (nth 0 hi 0) (nth 0 o 0) (nth 0 d 0)) with (s 0%nat) in *.
  change (f_slab (nth 1 lo 0) (nth 1 hi 0) (nth 1 o 0) (nth 1 d 0)) with (s 1%nat) in *.
  change (f_slab (nth 2 lo 0) (nth 2 hi 0) (nth 2 o 0) (nth 2 d 0)) with (s 2%nat) in *.
  assert (ST : forall a b c e, t0 <= a <= t -> t <= b <= t1 -> c <= t <= e -> (t0 <= Rmax a c <= t /\ t <= Rmin b e <= t1)).
  { intros a b c e X Y W. unfold Rmax, Rmin. destruct (Rle_dec a c), (Rle_dec b e); lra. }
  destruct (ST t0 t1 _ _ ltac:(lra) ltac:(lra) H0) as [A0 B0].
  destruct (Rlt_dec (Rmin t1 (snd (s 0%nat))) (Rmax t0 (fst (s 0%nat)))); [lra|].
  destruct (ST _ _ _ _ A0 B0 H1) as [A1 B1].
  destruct (Rlt_dec (Rmin (Rmin t1 (snd (s 0%nat))) (snd (s 1%nat))) (Rmax (Rmax t0 (fst (s 0%nat))) (fst (s 1%nat)))); [lra|].
  destruct (ST _ _ _ _ A1 B1 H2) as [A2 B2].
  destruct (Rlt_dec _ _) as [L|L]; [lra|]. eauto.
Qed.
Lemma slab_order lo hi o d a b : fdiv (fsub lo o) d = a -> fdiv (fsub hi o) d = b -> forall t, (a <= t <= b \/ b <= t <= a) -> fst (f_slab lo hi o d) <= t <= snd (f_slab lo hi o d).
Proof. intros <- <- t H. unfold f_slab. destruct (Rlt_dec _ _); cbn [fst snd]; lra. Qed.
Lemma div_le_neg a b c : c < 0 -> a <= b -> b / c <= a / c.
Proof. intros Hc H. assert (/ c < 0) by now apply Rinv_lt_0_compat. unfold Rdiv. nra. Qed.
(** A ray that starts in the box is never reported to miss it. *)
Theorem C255_inside_partial (lo hi o d : list R) (t0 t1 : R) : t0 <= 0 <= t1 ->
  (forall i, (i < 3)%nat -> nth i lo 0 <= nth i o 0 <= nth i hi 0 /\ nth i d 0 <> 0) ->
  exists a b, f_box lo hi o d t0 t1 = Some (a, b) /\ t0 <= a <= 0 /\ 0 <= b <= t1.
Proof.
  intros Ht H. apply box_contains; [exact Ht|]. intros i Hi. destruct (H i Hi) as [B N]. eapply slab_order; [reflexivity|reflexivity|].
  assert (A1 : fsub (nth i lo 0) (nth i o 0) <= 0) by (apply fl_nonpos; lra). assert (A2 : 0 <= fsub (nth i hi 0) (nth i o 0)) by (apply fl_nonneg; lra).
  unfold fdiv. destruct (Rtotal_order (nth i d 0) 0) as [L|[L|L]]; [right|contradiction|left].
  - pose proof (div_le_neg _ _ _ L A1) as X. pose proof (div_le_neg _ _ _ L A2) as Y. replace (0 / nth i d 0) with 0 in X, Y by (unfold Rdiv; ring).
    split; [now apply fl_nonpos|now apply fl_nonneg].
  - pose proof (div_le _ _ _ L A1) as X. pose proof (div_le _ _ _ L A2) as Y. replace (0 / nth i d 0) with 0 in X, Y by (unfold Rdiv; ring).
    split; [now apply fl_nonpos|now apply fl_nonneg].
Qed.
(** A ray from the coordinate origin is never reported to miss a box that it meets at a float64 parameter of its range, and
    the reported range holds that parameter. *)
Theorem C255_origin_partial (lo hi d : list R) (t0 t1 t : R) : F64 t -> t0 <= t <= t1 ->
  (forall i, (i < 3)%nat -> F64 (nth i lo 0) /\ F64 (nth i hi 0) /\ nth i lo 0 <= t * nth i d 0 <= nth i hi 0 /\ nth i d 0 <> 0) ->
  exists a b, f_box lo hi [0; 0; 0] d t0 t1 = Some (a, b) /\ t0 <= a <= t /\ t <= b <= t1.
Proof.
  intros Ft Ht H. apply box_contains; [exact Ht|]. intros i Hi. destruct (H i Hi) as (F1 & F2 & B & N).
  replace (nth i [0; 0; 0] 0) with 0 by (destruct i as [|[|[|i]]]; [reflexivity|reflexivity|reflexivity|lia]). eapply slab_order; [reflexivity|reflexivity|].
  unfold fsub. rewrite !Rminus_0_r, (fl_id _ F1), (fl_id _ F2). unfold fdiv.
  destruct (Rtotal_order (nth i d 0) 0) as [L|[L|L]]; [right|contradiction|left].
  - pose proof (div_le_neg _ _ _ L (proj1 B)) as X. pose proof (div_le_neg _ _ _ L (proj2 B)) as Y. replace (t * nth i d 0 / nth i d 0) with t in X, Y by (field; auto).
    split; [now apply fl_le_r|now apply fl_le_l].
  - pose proof (div_le _ _ _ L (proj1 B)) as X. pose proof (div_le _ _ _ L (proj2 B)) as Y. replace (t * nth i d 0 / nth i d 0) with t in X, Y by (field; auto).
    split; [now apply fl_le_r|now apply fl_le_l].
Qed.
Print Assumptions C255_inside_partial.
Print Assumptions C255_origin_partial.
(** Other rays can be: here a ray that meets the box exactly at parameter 255 is reported to miss it. *)
Theorem C255_missed_refuted : exists lo hi o d : list R, let t := 255 in
  (forall l, In l [lo; hi; o; d] -> Forall F64 l) /\
  (forall i, (i < 3)%nat -> nth i lo 0 <= nth i o 0 + t * nth i d 0 <= nth i hi 0 /\ nth i d 0 <> 0) /\ f_box lo hi o d 0 1000 = None.
Proof.
  set (c := 60739238668659 / 1024). set (h := 15488505860508044 / 1024). set (k := - (1 / 1024)).
  exists [255; 0; 0], [256; h; 256], [0; k; 0], [1; c; 1]. intros t.
  assert (FC : F64 c) by (apply (F64_dyadic 60739238668659 10); lia).
  assert (FH : F64 h). { replace h with (IZR 7744252930254022 / IZR (2 ^ 9)) by (unfold h; change (2 ^ 9)%Z with 512%Z; lra). apply F64_dyadic; lia. }
  assert (FK : F64 k). { unfold k. apply F64_opp. apply (F64_dyadic 1 10); lia. }
  assert (F255 : F64 255) by (apply F64_IZR; lia). assert (F256 : F64 256) by (apply F64_IZR; lia). pose proof F64_0 as F0. pose proof F64_1 as F1.
  split; [|split].
  - intros l [<-|[<-|[<-|[<-|[]]]]]; repeat constructor; auto.
  - intros [|[|[|i]]] Hi; cbn [nth]; try lia; unfold t, c, h, k; split; lra.
  - assert (S0 : f_slab 255 256 0 1 = (255, 256)).
    { unfold f_slab, fsub, fdiv. rewrite !Rminus_0_r, (fl_id 255 F255), (fl_id 256 F256). replace (255/1) with 255 by lra. replace (256/1) with 256 by lra. rewrite (fl_id 255 F255), (fl_id 256 F256).
      destruct (Rlt_dec 256 255); [lra|reflexivity]. }
    assert (HB : fsub h k = 7744252930254022 / 512).
    { unfold fsub, h, k. change (7744252930254022 / 512) with (IZR (if Z.even 7744252930254022 then 7744252930254022 else 7744252930254022 + 1) / IZR (2 ^ 9)).
      apply fl_tie; [lia| | |]; pow2; change (2 ^ 9)%Z with 512%Z; lra. }
    assert (B1 : fdiv (fsub h k) c = 8972014882652159 / 35184372088832).
    { rewrite HB. unfold fdiv. change (8972014882652159 / 35184372088832) with (IZR 8972014882652159 / IZR (2 ^ 45)).
      replace (7744252930254022 / 512 / c) with (15488505860508044 / 60739238668659) by (unfold c; field).
      apply fl_eval; [lia| | |]; pow2; change (2 ^ 45)%Z with 35184372088832%Z; try lra. apply Rabs_def1; lra. }
    assert (S1 : snd (f_slab 0 h k c) < 255 ).
    { assert (A1 : fdiv (fsub 0 k) c <= 1).
      { unfold fdiv. apply fl_le_r; [auto|]. apply div_le1; [unfold c; lra|]. unfold fsub. apply fl_le_r; [auto|]. unfold k, c. lra. }
      unfold f_slab. rewrite B1. destruct (Rlt_dec _ _); cbn [snd]; lra. }
    unfold f_box. cbn [fold_left nth]. rewrite S0. cbn [fst snd].
    destruct (Rlt_dec (Rmin 1000 256) (Rmax 0 255)) as [L|L]; [reflexivity|]. rewrite (Rmax_right 0 255), (Rmin_right 1000 256) by lra.
    destruct (Rlt_dec _ _) as [L2|L2]; [reflexivity|]. exfalso. apply L2.
    eapply Rle_lt_trans; [apply Rmin_r|]. eapply Rlt_le_trans; [exact S1|apply Rmax_l].
Qed.
Print Assumptions C255_missed_refuted.

(** ** C256 rays and the boxes of a BVH *)
Lemma bslab_inside lo hi o d : F64 lo -> F64 hi -> F64 o -> lo < o < hi -> d <> 0 -> Rabs d <= 1 ->
  fst (f_bslab lo hi o d) <= 0 /\ 0 < snd (f_bslab lo hi o d).
Proof.
  intros Fl Fh Fo B N D. pose proof (fsub_pos lo o Fl Fo (proj1 B)) as P1. pose proof (fsub_pos o hi Fo Fh (proj2 B)) as P2.
  assert (E1 : fsub lo o = - fsub o lo) by (unfold fsub; rewrite <- fl_opp; f_equal; ring).
  assert (INV : (0 < d -> 1 <= fdiv 1 d) /\ (d < 0 -> fdiv 1 d <= - 1)).
  { split; intros L; unfold fdiv, Rdiv; rewrite Rmult_1_l.
    - apply fl_le_l; [apply F64_1|]. rewrite Rabs_right in D by lra. pose proof (Rinv_0_lt_compat d L). pose proof (Rinv_r d N). nra.
    - apply fl_le_r; [apply F64_opp, F64_1|]. rewrite Rabs_left in D by lra. pose proof (Rinv_lt_0_compat d L). pose proof (Rinv_r d N). nra. }
  unfold f_bslab. rewrite E1. destruct (Rlt_dec d 0) as [L|L]; cbn [fst snd]; unfold fmul.
  - pose proof (proj2 INV L) as I1. split; [apply fl_nonpos; nra|]. apply Rlt_le_trans with (fsub o lo); [exact P1|]. apply fl_le_l; [apply fl_F64|nra].
  - pose proof (proj1 INV ltac:(lra)) as I1. split; [apply fl_nonpos; nra|]. apply Rlt_le_trans with (fsub hi o); [exact P2|]. apply fl_le_l; [apply fl_F64|nra].
Qed.
Lemma cut_inside s t : fst s <= 0 -> 0 < snd s -> fst t <= 0 -> 0 < snd t -> exists x, f_cut s t = Some x /\ fst x <= 0 /\ 0 < snd x.
Proof.
  intros. unfold f_cut. destruct (Rlt_dec (snd t) (fst s)); [lra|]. destruct (Rlt_dec (snd s) (fst t)); [lra|]. eexists; split; [reflexivity|]. cbn [fst snd].
  destruct (Rlt_dec (fst s) (fst t)), (Rlt_dec (snd t) (snd s)); lra.
Qed.
(** A ray of unit direction that starts strictly inside a box is never reported to miss it. *)
Theorem C256_inside_partial (lo hi o d : list R) (mint maxt : R) : mint <= 0 < maxt ->
  (forall i, (i < 3)%nat -> F64 (nth i lo 0) /\ F64 (nth i hi 0) /\ F64 (nth i o 0) /\ nth i lo 0 < nth i o 0 < nth i hi 0 /\ nth i d 0 <> 0 /\ Rabs (nth i d 0) <= 1) ->
  f_bvh_box lo hi o d mint maxt = true.
Proof.
  intros Ht H. assert (S : forall i, (i < 3)%nat -> fst (f_bslab (nth i lo 0) (nth i hi 0) (nth i o 0) (nth i d 0)) <= 0 /\ 0 < snd (f_bslab (nth i lo 0) (nth i hi 0) (nth i o 0) (nth i d 0))).
  { intros i Hi. destruct (H i Hi) as (A & B & C & D & E & F). now apply bslab_inside. }
  unfold f_bvh_box. destruct (S 0%nat ltac:(lia)), (S 1%nat ltac:(lia)), (S 2%nat ltac:(lia)).
  destruct (cut_inside _ _ H0 H1 H2 H3) as (x & -> & X1 & X2). destruct (cut_inside _ _ X1 X2 H4 H5) as ([a b] & -> & Y1 & Y2). cbn [fst snd] in *.
  destruct (Rlt_dec a maxt); [|lra]. destruct (Rlt_dec mint b); [reflexivity|lra].
Qed.
Print Assumptions C256_inside_partial.
(** Other rays can be: the ray from the origin along (1, 49, 1) meets the box from (1, 0, 0) to (2, 49, 2) at parameter 1. *)
Theorem C256_missed_refuted : f_bvh_box [1; 0; 0] [2; 49; 2] [0; 0; 0] [1; 49; 1] 0 1000 = false /\
  (forall i, (i < 3)%nat -> nth i [1; 0; 0] 0 <= nth i [0; 0; 0] 0 + 1 * nth i [1; 49; 1] 0 <= nth i [2; 49; 2] 0).
Proof.
  split; [|intros [|[|[|i]]] Hi; cbn [nth]; try lia; lra].
  unfold f_bvh_box. cbn [nth].
  assert (I1 : fdiv 1 1 = 1) by (unfold fdiv; replace (1/1) with 1 by lra; apply fl_id, F64_1).
  assert (I49 : fdiv 1 49 = 5882252574524729 / 288230376151711744).
  { unfold fdiv. change (5882252574524729 / 288230376151711744) with (IZR 5882252574524729 / IZR (2 ^ 58)).
    apply fl_eval; [lia| | |]; pow2; change (2 ^ 58)%Z with 288230376151711744%Z; try lra. apply Rabs_def1; lra. }
  assert (S0 : f_bslab 1 2 0 1 = (1, 2)).
  { unfold f_bslab. destruct (Rlt_dec 1 0); [lra|]. rewrite I1. unfold fsub, fmul. rewrite !Rminus_0_r, (fl_id 1 F64_1), (fl_id 2) by (apply F64_IZR; lia).
    rewrite !Rmult_1_r, (fl_id 1 F64_1), (fl_id 2) by (apply F64_IZR; lia). reflexivity. }
  assert (S1 : snd (f_bslab 0 49 0 49) < 1).
  { unfold f_bslab. destruct (Rlt_dec 49 0); [lra|]. cbn [snd]. rewrite I49. unfold fsub. rewrite !Rminus_0_r, (fl_id 49) by (apply F64_IZR; lia). unfold fmul.
    rewrite (fl_eval 9007199254740991 53); [pow2; lra|lia| | |]; pow2; try lra. apply Rabs_def1; lra. }
  rewrite S0. unfold f_cut at 1. cbn [fst snd]. destruct (Rlt_dec _ 1); [reflexivity|contradiction].
Qed.
Print Assumptions C256_missed_refuted.
Example C256_meets : exists lo hi o d : list R, forall i, (i < 3)%nat -> F64 (nth i lo 0) /\ F64 (nth i hi 0) /\ F64 (nth i o 0) /\ nth i lo 0 < nth i o 0 < nth i hi 0 /\ nth i d 0 <> 0 /\ Rabs (nth i d 0) <= 1.
Proof.
  exists [0; 0; 0], [1; 1; 1], [1/2; 1/2; 1/2], [1/2; -(1/2); 1]. pose proof F64_0. pose proof F64_1. pose proof F64_half.
  intros [|[|[|i]]] Hi; cbn [nth]; try lia; (repeat split; auto; try lra); unfold Rabs; destruct (Rcase_abs _); lra.
Qed.

(** ** C257 crop windows *)
(** A window from 0 to 1 is the whole film; windows stay on the film; the first column is the exact one or, where rounding
    reached the integer below, the one before; and of two windows sharing an edge the second begins right after the first
    (unless the first contains no column and is widened to one). *)
Theorem C257_crop (res : Z) (c0 c1 c2 : R) : (1 <= res <= 2 ^ 53)%Z -> 0 <= c0 -> c0 <= c1 -> c1 <= c2 -> c2 <= 1 ->
  f_crop res 0 1 = (0%Z, res) /\
  (0 <= fst (f_crop res c0 c1) <= res)%Z /\ (1 <= snd (f_crop res c0 c1))%Z /\
  (fst (f_crop res c0 c1) < fst (f_crop res c1 c2) -> fst (f_crop res c0 c1) + snd (f_crop res c0 c1) = fst (f_crop res c1 c2) /\ fst (f_crop res c0 c1) + snd (f_crop res c0 c1) <= res)%Z /\
  (fst (f_crop res c0 c1) <= fst (f_crop res c1 c2))%Z /\
  (Zceil (IZR res * c0) - 1 <= fst (f_crop res c0 c1) <= Zceil (IZR res * c0))%Z.
Proof.
  intros Hr H0 H1 H2 H3. assert (R0 : 0 < IZR res) by (apply IZR_lt; lia).
  assert (C : forall c, 0 <= c <= 1 -> (0 <= Zceil (fmul (IZR res) c) <= res)%Z).
  { intros c Hc. split.
    - apply le_IZR. eapply Rle_trans; [|apply Zceil_ub]. apply fl_nonneg. nra.
    - apply Zceil_glb. apply fl_le_r; [apply F64_IZR; lia|nra]. }
  assert (M : forall c c', c <= c' -> (Zceil (fmul (IZR res) c) <= Zceil (fmul (IZR res) c'))%Z).
  { intros c c' Hc. apply Zceil_le, fl_le. nra. }
  unfold f_crop. cbn [fst snd]. pose proof (C c0 ltac:(lra)) as A0. pose proof (C c1 ltac:(lra)) as A1. pose proof (M c0 c1 ltac:(lra)) as M0. pose proof (M c1 c2 ltac:(lra)) as M1. pose proof (C c2 ltac:(lra)) as A2.
  split. { unfold fmul. rewrite Rmult_0_r, fl_0, Rmult_1_r, (fl_id (IZR res)) by (apply F64_IZR; lia). rewrite (Zceil_IZR 0), Zceil_IZR. f_equal. lia. }
  split; [lia|]. split; [lia|]. split; [lia|]. split; [lia|].
  set (x := IZR res * c0) in *. unfold fmul in *. fold x in A0 |- *.
  assert (X0 : 0 <= x) by (unfold x; nra). assert (X1 : x <= IZR res) by (unfold x; nra).
  assert (Z0 : (0 <= Zceil x)%Z) by (apply le_IZR; eapply Rle_trans; [exact X0|apply Zceil_ub]). assert (Z1 : (Zceil x <= res)%Z) by now apply Zceil_glb.
  split.
  - destruct (Z.eq_dec (Zceil x) 0) as [E|E]; [lia|].
    assert (L : IZR (Zceil x - 1) <= fl x).
    { apply fl_le_l; [apply F64_IZR; lia|]. pose proof (Zceil_ub x). apply Rlt_le. apply Rnot_le_lt. intros B. apply Zceil_glb in B. lia. }
    apply le_IZR. eapply Rle_trans; [exact L|apply Zceil_ub].
  - apply Zceil_glb. apply fl_le_r; [apply F64_IZR; lia|apply Zceil_ub].
Qed.
Print Assumptions C257_crop.
Example C257_meets : (1 <= 640 <= 2 ^ 53)%Z /\ 0 <= 1/4 /\ 1/4 <= 1/2 /\ 1/2 <= 1. Proof. split; [lia|]. lra. Qed.

(** ** C258 voxels of a grid *)
(** The voxel of a position is one of the grid; positions in order have voxels in order; so a point between the corners of a
    primitive's bound lies between the voxels of these corners, among which the primitive was stored. *)
Theorem C258_voxels (n : Z) (lo winv p q r : R) : (1 <= n)%Z -> 0 <= winv -> p <= q <= r ->
  (0 <= f_voxel n lo winv q < n)%Z /\ (f_voxel n lo winv p <= f_voxel n lo winv q <= f_voxel n lo winv r)%Z.
Proof.
  intros Hn Hw H. split; [unfold f_voxel; lia|].
  assert (M : forall x y, x <= y -> (f_voxel n lo winv x <= f_voxel n lo winv y)%Z).
  { intros x y Hxy. unfold f_voxel. assert (Ztrunc (fmul (fsub x lo) winv) <= Ztrunc (fmul (fsub y lo) winv))%Z; [|lia].
    apply Ztrunc_le. apply fl_le. apply Rmult_le_compat_r; [exact Hw|]. apply fl_le. lra. }
  split; apply M; lra.
Qed.
Print Assumptions C258_voxels.
