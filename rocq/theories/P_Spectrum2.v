From Coq Require Import Reals Lra Lia List ZArith Bool Psatz.
From Verif Require Import Base M_Film P_Film M_Spectrum S_Spectrum P_Spectrum.
Import ListNotations.
Open Scope R_scope.

Lemma get1_k (l : list R) (k : nat) : (k < length l)%nat -> get1 l (Z.of_nat k) = Ok (nth k l 0).
Proof. intros. rewrite (get1_in 0) by lia. now rewrite Nat2Z.id. Qed.
Lemma set1_k (l : list R) (k : nat) a : (k < length l)%nat -> set1 l (Z.of_nat k) a = Ok (replace_nth k a l).
Proof. intros. rewrite set1_in by lia. now rewrite Nat2Z.id. Qed.
Lemma inner_area_left lam : forall v a b, length v = length lam -> increasing lam -> b <= nth 0 lam 0 -> inner_area lam v a b = 0.
Proof.
  intros v a b L H K. rewrite inner_area_sum by assumption. apply rsum_zero. intros i I0. apply seg_right.
  apply Rle_trans with (1 := K). apply H. lia.
Qed.
Lemma inner_area_right lam : forall v a b, length v = length lam -> increasing lam -> last lam 0 <= a -> inner_area lam v a b = 0.
Proof.
  intros v a b L H K. rewrite inner_area_sum by assumption. apply rsum_zero. intros i I0. apply seg_left.
  rewrite last_nth in K. apply Rle_trans with (2 := K). apply H. lia.
Qed.
Lemma first_le_last lam : lam <> [] -> increasing lam -> nth 0 lam 0 <= last lam 0.
Proof. intros N0 H. rewrite last_nth. apply H. destruct lam; [congruence|cbn; lia]. Qed.

(** the arrays after the two substitutions *)
Definition work (lam : list R) (k : nat) (x : R) : list R := if (1 <=? k)%nat then replace_nth (k-1) x lam else lam.
Lemma work_length lam k x : length (work lam k x) = length lam.
Proof. unfold work. destruct (_ <=? _)%nat; [apply replace_nth_length|reflexivity]. Qed.
Lemma nth_work lam k x i : (k <= length lam - 1)%nat ->  (i < length lam)%nat ->
  nth i (work lam k x) 0 = if (1 <=? k)%nat && (i =? k - 1)%nat then x else nth i lam 0.
Proof.
  intros A B. unfold work. destruct (1 <=? k)%nat eqn:K; cbn [andb]; [|reflexivity]. apply Nat.leb_le in K.
  rewrite nth_replace by lia. reflexivity.
Qed.
Lemma restore lam k h x y : (k <= length lam - 1)%nat -> (h < length lam)%nat -> (k <= h)%nat ->
  replace_nth h (nth h lam 0) (replace_nth (k-1) (nth (k-1) lam 0) (replace_nth h y (work lam k x))) = lam.
Proof.
  intros A B C. apply nth_ext with (d := 0) (d' := 0); [now rewrite !replace_nth_length, work_length|].
  intros i I0. rewrite !replace_nth_length, work_length in I0.
  rewrite nth_replace by (rewrite !replace_nth_length, work_length; lia).
  destruct (Nat.eqb_spec i h) as [->|N1]; [reflexivity|].
  rewrite nth_replace by (rewrite !replace_nth_length, work_length; lia).
  destruct (Nat.eqb_spec i (k-1)) as [->|N2]; [reflexivity|].
  rewrite nth_replace by (rewrite work_length; lia). destruct (Nat.eqb_spec i h) as [->|_]; [congruence|].
  rewrite nth_work by lia. destruct (Nat.eqb_spec i (k-1)); [congruence|]. now rewrite andb_false_r.
Qed.
Lemma restore' lam k x : (k <= length lam - 1)%nat -> (1 <= length lam)%nat -> 
  replace_nth (length lam - 1) (last lam 0) (replace_nth (k-1) (nth (k-1) lam 0) (work lam k x)) = lam.
Proof.
  intros A B. apply nth_ext with (d := 0) (d' := 0); [now rewrite !replace_nth_length, work_length|].
  intros i I0. rewrite !replace_nth_length, work_length in I0.
  rewrite nth_replace by (rewrite !replace_nth_length, work_length; lia). rewrite last_nth.
  destruct (Nat.eqb_spec i (length lam - 1)) as [->|N1]; [reflexivity|].
  rewrite nth_replace by (rewrite work_length; lia).
  destruct (Nat.eqb_spec i (k-1)) as [->|N2]; [reflexivity|].
  rewrite nth_work by lia. destruct (Nat.eqb_spec i (k-1)); [congruence|]. now rewrite andb_false_r.
Qed.
Lemma last_work lam k x : (k <= length lam - 1)%nat -> (1 <= length lam)%nat -> last (work lam k x) 0 = last lam 0.
Proof.
  intros A B. rewrite !last_nth, work_length. rewrite nth_work by lia.
  destruct (Nat.eqb_spec (length lam - 1) (k-1)); [|now rewrite andb_false_r].
  destruct (1 <=? k)%nat eqn:K; [apply Nat.leb_le in K; lia|reflexivity].
Qed.

Lemma trapz_slice (y x : list R) lo hi1 f : length y = length x -> (lo <= hi1 < length x)%nat ->
  (forall i, (lo <= i < hi1)%nat -> (nth (S i) x 0 - nth i x 0) * (nth i y 0 + nth (S i) y 0) / 2 = f i) ->
  trapz (slice y (Z.of_nat lo) (Z.of_nat (S hi1))) (slice x (Z.of_nat lo) (Z.of_nat (S hi1))) =
  rsum (fun j => f (lo + j)%nat) (hi1 - lo).
Proof.
  intros L H F. rewrite trapz_sum by (rewrite !slice_length; lia). rewrite slice_length by lia.
  replace (Z.to_nat (Z.of_nat (S hi1) - Z.of_nat lo) - 1)%nat with (hi1 - lo)%nat by lia.
  apply rsum_ext. intros j J. rewrite !nth_slice by lia. rewrite !Nat2Z.id.
  replace (lo + S j)%nat with (S (lo + j)) by lia. apply F. lia.
Qed.

Lemma line_sub l0 v0 l1 v1 a b : l0 < l1 -> a < l1 ->
  lerp1 ((l1 - b) / (l1 - a)) v1 (line l0 v0 l1 v1 a) = line l0 v0 l1 v1 b.
Proof. intros. unfold lerp1, line. field. lra. Qed.
Lemma lerp_line l0 v0 l1 v1 a : lerp1 ((a - l0) / (l1 - l0)) v0 v1 = line l0 v0 l1 v1 a.
Proof. unfold lerp1, line. ring. Qed.

Lemma average_main lam v ls le : increasing lam -> length v = length lam -> lam <> [] -> ls < le ->
  exists a, average_spectrum_samples lam v ls le = Ok (a, lam, v) /\
    (~ inner_sample lam le -> a * (le - ls) = curve_area lam v ls le) /\
    (inner_sample lam le -> ls < last lam 0 -> a * (le - ls) = curve_area lam v ls (last lam 0)).
Proof.
  intros INC LV NE LT. assert (N1 : (1 <= length lam)%nat) by (destruct lam; [congruence|cbn; lia]).
  assert (NV : v <> []) by (destruct v; [cbn in LV; lia|congruence]).
  pose proof (first_le_last lam NE INC) as FL.
  assert (G0 : get1 lam 0 = Ok (nth 0 lam 0)) by exact (get1_k lam 0 ltac:(lia)).
  assert (G1 : get1 v 0 = Ok (nth 0 v 0)) by exact (get1_k v 0 ltac:(lia)).
  unfold average_spectrum_samples. rewrite G0, G1, !(get1_last lam NE), !(get1_last v NV). cbn [bind].
  destruct (Rleb le (nth 0 lam 0)) eqn:C1; Rb.
  { eexists; split; [reflexivity|]. split; [intros _|intros [_ ?]; lra].
    unfold curve_area. rewrite inner_area_left by auto. rewrite Rmin_left by lra.
    rewrite (Rmax_right 0 (le - ls)) by lra. rewrite (Rmax_left 0); [ring|].
    assert (last lam 0 <= Rmax ls (last lam 0)) by apply Rmax_r. lra. }
  destruct (Rleb (last lam 0) ls) eqn:C2; Rb.
  { eexists; split; [reflexivity|]. split; [intros _|intros; lra].
    unfold curve_area. rewrite inner_area_right by auto. rewrite (Rmax_left ls) by lra.
    rewrite (Rmax_right 0 (le - ls)) by lra. rewrite (Rmax_left 0); [ring|].
    assert (Rmin le (nth 0 lam 0) <= nth 0 lam 0) by apply Rmin_r. lra. }
  destruct (length lam =? 1)%nat eqn:C3.
  { apply Nat.eqb_eq in C3. destruct lam as [|l [|? ?]]; try (cbn in C3; lia). destruct v as [|w [|? ?]]; try (cbn in LV; lia).
    eexists; split; [reflexivity|]. cbn [nth last] in *. split; [intros _|intros [_ [? ?]]; cbn in *; lra].
    unfold curve_area. cbn [nth last inner_area]. rewrite Rmin_right by lra. rewrite (Rmax_right ls) by lra.
    rewrite !(Rmax_right 0) by lra. ring. }
  apply Nat.eqb_neq in C3. assert (N2 : (2 <= length lam)%nat) by lia.
  destruct (searchsorted_spec lam ls INC) as (k & KS & KL & KA & KB). rewrite KS.
  destruct (searchsorted_spec lam le INC) as (h & HS & HL & HA & HB). rewrite HS.
  assert (H1 : (1 <= h)%nat).
  { destruct h; [|lia]. assert (le <= nth 0 lam 0) by (apply HB; lia). lra. }
  assert (KN : (k <= length lam - 1)%nat).
  { destruct (le_lt_dec k (length lam - 1)); auto. rewrite last_nth in C2.
    assert (nth (length lam - 1) lam 0 < ls) by (apply KA; lia). lra. }
  assert (KH : (k <= h)%nat).
  { destruct (le_lt_dec k h); auto. exfalso. assert (nth h lam 0 < ls) by (apply KA; lia).
    assert (le <= nth h lam 0) by (apply HB; lia). lra. }
  set (s1 := nth 0 v 0 * Rmax 0 (nth 0 lam 0 - ls)).
  assert (S1 : (if Rltb ls (nth 0 lam 0) then Ok (nth 0 v 0 * (nth 0 lam 0 - ls)) else Ok 0) = Ok s1).
  { unfold s1. Rcase; [now rewrite Rmax_right by lra|]. rewrite Rmax_left by lra. now rewrite Rmult_0_r. }
  rewrite S1; clear S1. cbn [bind].
  set (s2 := last v 0 * Rmax 0 (le - last lam 0)).
  assert (S2 : (if Rltb (last lam 0) le then Ok (last v 0 * (le - last lam 0)) else Ok 0) = Ok s2).
  { unfold s2. Rcase; [now rewrite Rmax_right by lra|]. rewrite Rmax_left by lra. now rewrite Rmult_0_r. }
  rewrite S2; clear S2. cbn [bind]. cbv zeta.
  set (yl := line (nth (k-1) lam 0) (nth (k-1) v 0) (nth k lam 0) (nth k v 0) ls).
  match goal with |- context [bind ?m _] => assert (ST : m = Ok (Z.of_nat (k-1), nth (k-1) lam 0, nth (k-1) v 0, work lam k ls, work v k yl)) end.
  { unfold work. destruct (1 <=? k)%nat eqn:K.
    - apply Nat.leb_le in K. replace (0 <=? Z.of_nat k - 1)%Z with true by lia.
      replace (Z.of_nat k - 1)%Z with (Z.of_nat (k-1)) by lia. rewrite !get1_k by lia. cbn [bind].
      replace (Z.of_nat (k-1) + 1)%Z with (Z.of_nat k) by lia. rewrite !get1_k by lia. cbn [bind].
      rewrite !set1_k by lia. cbn [bind]. unfold yl. now rewrite lerp_line.
    - apply Nat.leb_gt in K. replace k with 0%nat by lia. reflexivity. }
  rewrite ST; clear ST. cbn [bind]. rewrite !work_length.
  assert (WH : (h < length lam)%nat -> nth h (work lam k ls) 0 = nth h lam 0).
  { intros. rewrite nth_work by lia. destruct (Nat.eqb_spec h (k-1)); [|now rewrite andb_false_r].
    destruct (1 <=? k)%nat eqn:K; [apply Nat.leb_le in K; lia|reflexivity]. }
  assert (WHv : (h < length lam)%nat -> nth h (work v k yl) 0 = nth h v 0).
  { intros. rewrite nth_work by lia. destruct (Nat.eqb_spec h (k-1)); [|now rewrite andb_false_r].
    destruct (1 <=? k)%nat eqn:K; [apply Nat.leb_le in K; lia|reflexivity]. }
  set (inner := (h <? length lam)%nat && negb (Reqb (nth h lam 0) le)).
  match goal with |- context [bind ?m _] => assert (ST : m = Ok inner) end.
  { unfold inner. destruct (h <? length lam)%nat eqn:Q.
    - apply Nat.ltb_lt in Q. replace (Z.of_nat h <? Z.of_nat (length lam))%Z with true by lia.
      rewrite get1_k by (rewrite work_length; lia). cbn [bind]. now rewrite WH.
    - apply Nat.ltb_ge in Q. replace (Z.of_nat h <? Z.of_nat (length lam))%Z with false by lia. reflexivity. }
  rewrite ST; clear ST. cbn [bind].
  assert (IT : inner = true -> (h < length lam)%nat /\ le < nth h lam 0).
  { unfold inner. intros Q. apply andb_true_iff in Q. destruct Q as [Q1 Q2]. apply Nat.ltb_lt in Q1.
    apply negb_true_iff in Q2. Rb. assert (le <= nth h lam 0) by (apply HB; lia). split; [lia|lra]. }
  assert (SUM : forall b, (inner = true -> b = le) -> (inner = false -> last lam 0 <= b) ->
     inner_area lam v ls b = rsum (fun j => let i := (k - 1 + j)%nat in
    (xs lam k h inner ls le (S i) - xs lam k h inner ls le i) *
    (ys lam v k h inner ls le i + ys lam v k h inner ls le (S i)) / 2) ((if inner then h else length lam - 1) - (k - 1))).
  { intros b B1 B2. apply (mid_sum lam v k h inner ls le b); auto; try lia.
    - intros Q. destruct (IT Q). auto.
    - rewrite <- last_nth. exact B2. }
  destruct inner eqn:QI.
  - destruct (IT eq_refl) as [HN HLE].
    assert (PREV : nth (h-1) (work lam k ls) 0 < nth h lam 0 /\
      lerp1 ((nth h lam 0 - le) / (nth h lam 0 - nth (h-1) (work lam k ls) 0)) (nth h v 0) (nth (h-1) (work v k yl) 0) =
      line (nth (h-1) lam 0) (nth (h-1) v 0) (nth h lam 0) (nth h v 0) le).
    { assert (P : nth (h-1) lam 0 < le) by (apply HA; lia).
      rewrite !nth_work by lia. destruct ((1 <=? k)%nat && (h - 1 =? k - 1)%nat) eqn:Q.
      - apply andb_true_iff in Q. destruct Q as [Q1 Q2]. apply Nat.leb_le in Q1. apply Nat.eqb_eq in Q2.
        assert (k = h) by lia. subst k. split; [lra|]. unfold yl. apply line_sub; lra.
      - split; [lra|]. rewrite <- (line_0 (nth (h-1) lam 0) (nth (h-1) v 0) (nth h lam 0) (nth h v 0)) at 1.
        apply line_sub; lra. }
    destruct PREV as [P1 P2].
    rewrite !get1_k by (rewrite work_length; lia). cbn [bind]. rewrite WH, WHv by lia.
    replace (Z.of_nat h - 1)%Z with (Z.of_nat (h-1)) by lia. rewrite !get1_k by (rewrite work_length; lia). cbn [bind].
    rewrite P2. set (yh := line (nth (h-1) lam 0) (nth (h-1) v 0) (nth h lam 0) (nth h v 0) le).
    rewrite !set1_k by (rewrite work_length; lia). cbn [bind].
    repeat (rewrite set1_k by (rewrite ?replace_nth_length, ?work_length; lia); cbn [bind]).
    replace (Z.of_nat h + 1 - 1)%Z with (Z.of_nat h) by lia.
    repeat (rewrite set1_k by (rewrite ?replace_nth_length, ?work_length; lia); cbn [bind]).
    rewrite restore by lia. rewrite <- LV in KN. rewrite restore by lia. rewrite LV in KN.
    eexists; split; [reflexivity|]. split.
    + intros _. replace (Z.of_nat h + 1)%Z with (Z.of_nat (S h)) by lia.
      rewrite (trapz_slice _ _ (k-1) h (fun i => (xs lam k h true ls le (S i) - xs lam k h true ls le i) *
        (ys lam v k h true ls le i + ys lam v k h true ls le (S i)) / 2)).
      * unfold curve_area. rewrite (SUM le) by (auto; discriminate). cbv zeta. fold inner.
        rewrite (Rmin_right le) by lra. rewrite (Rmax_right ls (last lam 0)) by lra.
        unfold Rdiv at 1. rewrite Rmult_assoc, Rinv_l by lra. unfold s1, s2. ring.
      * rewrite !replace_nth_length, !work_length. lia.
      * rewrite !replace_nth_length, !work_length. lia.
      * assert (XS : forall i, (i < length lam)%nat -> nth i (replace_nth h le (work lam k ls)) 0 = xs lam k h true ls le i).
        { intros i I0. rewrite nth_replace by (rewrite work_length; lia). unfold xs. cbn [andb].
          destruct (i =? h)%nat; [reflexivity|]. rewrite nth_work by lia. reflexivity. }
        assert (YS : forall i, (i < length lam)%nat -> nth i (replace_nth h yh (work v k yl)) 0 = ys lam v k h true ls le i).
        { intros i I0. rewrite nth_replace by (rewrite work_length; lia). unfold ys. cbn [andb].
          destruct (i =? h)%nat; [reflexivity|]. rewrite nth_work by lia. reflexivity. }
        intros i [I1 I2]. rewrite !XS, !YS by lia. reflexivity.
    + intros [IN ?] _. exfalso. apply (In_nth _ _ 0) in IN. destruct IN as (j & J1 & J2).
      destruct (le_lt_dec h j) as [J3|J3]; [|specialize (HA j J3); lra].
      assert (nth h lam 0 <= nth j lam 0) by (apply INC; lia). lra.
  - rewrite !get1_last by (intros Q; apply (f_equal (@length R)) in Q; rewrite work_length in Q; cbn in Q; lia).
    cbn [bind]. rewrite !last_work by lia. 
    replace (Z.of_nat (length lam) - 1)%Z with (Z.of_nat (length lam - 1)) by lia.
    repeat (rewrite set1_k by (rewrite ?replace_nth_length, ?work_length; lia); cbn [bind]).
    rewrite restore' by lia. rewrite <- LV in KN. rewrite <- LV. rewrite restore' by lia. rewrite LV in *.
    eexists; split; [reflexivity|].
    replace (Z.of_nat (length lam)) with (Z.of_nat (S (length lam - 1))) by lia.
    rewrite (trapz_slice _ _ (k-1) (length lam - 1) (fun i => (xs lam k h false ls le (S i) - xs lam k h false ls le i) *
        (ys lam v k h false ls le i + ys lam v k h false ls le (S i)) / 2)).
    + unfold Rdiv at 1. rewrite Rmult_assoc, Rinv_l by lra. rewrite Rmult_1_r.
      split.
      * intros NI. assert (LB : last lam 0 <= le).
        { unfold inner in QI. destruct (h <? length lam)%nat eqn:Q.
          - apply Nat.ltb_lt in Q. cbn [andb] in QI. apply negb_false_iff in QI. Rb.
            destruct (Rle_lt_dec (last lam 0) le) as [|B]; auto. exfalso. apply NI. split; [|lra].
            rewrite <- QI. apply nth_In. lia.
          - apply Nat.ltb_ge in Q. rewrite last_nth. assert (nth (length lam - 1) lam 0 < le) by (apply HA; lia). lra. }
        unfold curve_area. rewrite (SUM le) by (auto; discriminate). cbv zeta. fold inner.
        rewrite (Rmin_right le) by lra. rewrite (Rmax_right ls (last lam 0)) by lra. unfold s1, s2. lra.
      * intros [IN ?] _. unfold curve_area. rewrite (SUM (last lam 0)) by (auto; try discriminate; lra).
        rewrite (Rmin_right (last lam 0)) by lra. rewrite (Rmax_right ls (last lam 0)) by lra.
        unfold s1, s2. rewrite (Rmax_left 0 (le - last lam 0)) by lra. rewrite (Rmax_left 0 (last lam 0 - last lam 0)) by lra.
        cbv zeta. field. lra.
    + rewrite !work_length. lia.
    + rewrite !work_length. lia.
    + assert (XS : forall i, (i < length lam)%nat -> nth i (work lam k ls) 0 = xs lam k h false ls le i).
      { intros i I0. rewrite nth_work by lia. reflexivity. }
      assert (YS : forall i, (i < length lam)%nat -> nth i (work v k yl) 0 = ys lam v k h false ls le i).
      { intros i I0. rewrite nth_work by lia. reflexivity. }
      intros i [I1 I2]. rewrite !XS, !YS by lia. reflexivity.
Qed.
