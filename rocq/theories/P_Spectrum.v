From Coq Require Import Reals Lra Lia List ZArith Bool Psatz.
From Verif Require Import Base M_Film P_Film M_Spectrum S_Spectrum.
Import ListNotations.
Open Scope R_scope.

(** sums over index ranges *)
Fixpoint rsum (f : nat -> R) (n : nat) : R := match n with O => 0 | S n => rsum f n + f n end.
Lemma rsum_ext f g n : (forall i, (i < n)%nat -> f i = g i) -> rsum f n = rsum g n.
Proof. induction n; cbn; intros H; [reflexivity|]. rewrite IHn, H; auto. Qed.
Lemma rsum_shift f n : rsum f (S n) = f 0%nat + rsum (fun i => f (S i)) n.
Proof. induction n; cbn [rsum] in *; [lra|]. rewrite IHn. lra. Qed.
Lemma rsum_split f a b : rsum f (a + b) = rsum f a + rsum (fun i => f (a + i)%nat) b.
Proof. induction b; cbn [rsum]; rewrite ?Nat.add_0_r, ?Nat.add_succ_r; cbn [rsum]; [lra|]. rewrite IHb. lra. Qed.
Lemma rsum_zero f n : (forall i, (i < n)%nat -> f i = 0) -> rsum f n = 0.
Proof. induction n; cbn; intros H; [reflexivity|]. rewrite IHn, H; auto; lra. Qed.

Lemma inner_area_sum lam : forall v a b, length v = length lam ->
  inner_area lam v a b =
  rsum (fun i => segment_area (nth i lam 0) (nth i v 0) (nth (S i) lam 0) (nth (S i) v 0) a b) (length lam - 1).
Proof.
  induction lam as [|l0 [|l1 t] IH]; intros [|v0 [|v1 w]] a b H; cbn in H; try lia; try reflexivity.
  change (inner_area (l0 :: l1 :: t) (v0 :: v1 :: w) a b) with
    (segment_area l0 v0 l1 v1 a b + inner_area (l1 :: t) (v1 :: w) a b).
  rewrite IH by (cbn; lia). replace (length (l0 :: l1 :: t) - 1)%nat with (S (length (l1 :: t) - 1)) by (cbn; lia).
  rewrite rsum_shift. reflexivity.
Qed.
Lemma trapz_sum x : forall y, length y = length x ->
  trapz y x = rsum (fun i => (nth (S i) x 0 - nth i x 0) * (nth i y 0 + nth (S i) y 0) / 2) (length x - 1).
Proof.
  induction x as [|x0 [|x1 t] IH]; intros [|v0 [|v1 w]] H; cbn in H; try lia; try reflexivity.
  change (trapz (v0 :: v1 :: w) (x0 :: x1 :: t)) with ((x1 - x0) * (v0 + v1) / 2 + trapz (v1 :: w) (x1 :: t)).
  rewrite IH by (cbn; lia). replace (length (x0 :: x1 :: t) - 1)%nat with (S (length (x1 :: t) - 1)) by (cbn; lia).
  rewrite rsum_shift. reflexivity.
Qed.
Lemma nth_skipn0 {A} (d : A) i : forall l k, nth k (skipn i l) d = nth (i + k) l d.
Proof. induction i; intros [|x l] k; cbn; auto. now destruct k. Qed.
Lemma nth_firstn0 {A} (d : A) n : forall l k, nth k (firstn n l) d = if (k <? n)%nat then nth k l d else d.
Proof.
  induction n; intros l k; [now destruct k|]. destruct l as [|x l]; [cbn; now destruct k, (_ <? _)%nat|].
  destruct k; [reflexivity|]. cbn [firstn nth]. rewrite IHn. reflexivity.
Qed.
Lemma nth_slice (l : list R) i j k : (0 <= i <= j)%Z -> (j <= Z.of_nat (length l))%Z -> (k < Z.to_nat (j - i))%nat ->
  nth k (slice l i j) 0 = nth (Z.to_nat i + k) l 0.
Proof.
  intros A B C. unfold slice. rewrite nth_skipn0. rewrite nth_firstn0.
  destruct (_ <? _)%nat eqn:T; [reflexivity|]. apply Nat.ltb_ge in T. lia.
Qed.
Lemma slice_length (l : list R) i j : (0 <= i <= j)%Z -> (j <= Z.of_nat (length l))%Z ->
  length (slice l i j) = Z.to_nat (j - i).
Proof. intros A B. unfold slice. rewrite skipn_length, firstn_length. lia. Qed.

Lemma searchsorted_spec lam x : increasing lam -> exists k, searchsorted lam x = Z.of_nat k /\ (k <= length lam)%nat /\
  (forall i, (i < k)%nat -> nth i lam 0 < x) /\ (forall i, (k <= i < length lam)%nat -> x <= nth i lam 0).
Proof.
  intros H. unfold searchsorted. exists (length (filter (fun l => Rltb l x) lam)). split; [reflexivity|].
  induction lam as [|l t IH]; [cbn; repeat split; intros; lia|].
  assert (Ht : increasing t) by (intros i j K; apply (H (S i) (S j)); cbn; lia).
  destruct (IH Ht) as (A & B & C). cbn [filter]. destruct (Rltb l x) eqn:T; Rb; cbn [length].
  - repeat split; [lia| |].
    + intros [|i] K; [exact T|apply B; lia].
    + intros [|i] K; [lia|apply C; lia].
  - assert (Z0 : length (filter (fun l => Rltb l x) t) = 0%nat).
    { destruct (length (filter _ t)) eqn:L; [reflexivity|]. exfalso. assert (nth 0 t 0 < x) by (apply B; lia).
      assert (l <= nth 0 t 0); [|lra]. apply (H 0%nat 1%nat). cbn. destruct t; [cbn in L; lia|cbn; lia]. }
    rewrite Z0 in *. repeat split; [lia|intros; lia|]. intros [|i] K; [exact T|apply C; cbn in *; lia].
Qed.
Lemma last_nth (l : list R) : last l 0 = nth (length l - 1) l 0.
Proof. induction l as [|a [|b t] IH]; [reflexivity|reflexivity|]. cbn [last] in *. rewrite IH. cbn. now rewrite Nat.sub_0_r. Qed.
Lemma get1_last (l : list R) : l <> [] -> get1 l (-1) = Ok (last l 0).
Proof.
  intros H. unfold get1, np_index. assert (0 < length l)%nat by (destruct l; [congruence|cbn; lia]).
  replace (0 <=? -1)%Z with false by reflexivity. cbn [andb].
  replace ((- Z.of_nat (length l) <=? -1)%Z && (-1 <? 0)%Z) with true by (symmetry; apply andb_true_intro; split; lia).
  cbn [bind]. replace (Z.to_nat (Z.of_nat (length l) + -1)) with (length l - 1)%nat by lia.
  rewrite (nth_error_nth' l 0) by lia. now rewrite last_nth.
Qed.

(** one segment *)
Lemma seg_left l0 v0 l1 v1 a b : l1 <= a -> segment_area l0 v0 l1 v1 a b = 0.
Proof. intros. unfold segment_area. destruct Rle_dec as [|n]; [reflexivity|]. exfalso; apply n. unfold Rmin, Rmax; repeat destruct Rle_dec; lra. Qed.
Lemma seg_right l0 v0 l1 v1 a b : b <= l0 -> segment_area l0 v0 l1 v1 a b = 0.
Proof. intros. unfold segment_area. destruct Rle_dec as [|n]; [reflexivity|]. exfalso; apply n. unfold Rmin, Rmax; repeat destruct Rle_dec; lra. Qed.
Lemma line_0 l0 v0 l1 v1 : line l0 v0 l1 v1 l0 = v0.
Proof. unfold line. replace (l0 - l0) with 0 by ring. unfold Rdiv. ring. Qed.
Lemma line_1 l0 v0 l1 v1 : l0 < l1 -> line l0 v0 l1 v1 l1 = v1.
Proof. intros. unfold line. field. lra. Qed.
Lemma seg_mid l0 v0 l1 v1 a b a' b' : l0 <= l1 -> a' = Rmax a l0 -> b' = Rmin b l1 -> a' <= b' ->
  segment_area l0 v0 l1 v1 a b = (b' - a') * (line l0 v0 l1 v1 a' + line l0 v0 l1 v1 b') / 2.
Proof.
  intros H -> -> K. unfold segment_area. destruct Rle_dec; [|reflexivity].
  assert (Z0 : Rmin b l1 - Rmax a l0 = 0) by lra. rewrite Z0. unfold Rdiv. ring.
Qed.

(** what each entry of the working arrays is *)
Definition xs (lam : list R) (k h : nat) (inner : bool) (ls le : R) (i : nat) : R :=
  if inner && (i =? h)%nat then le else if (1 <=? k)%nat && (i =? k - 1)%nat then ls else nth i lam 0.
Definition ys (lam v : list R) (k h : nat) (inner : bool) (ls le : R) (i : nat) : R :=
  if inner && (i =? h)%nat then line (nth (h-1) lam 0) (nth (h-1) v 0) (nth h lam 0) (nth h v 0) le
  else if (1 <=? k)%nat && (i =? k - 1)%nat then line (nth (k-1) lam 0) (nth (k-1) v 0) (nth k lam 0) (nth k v 0) ls
  else nth i v 0.
Lemma mid_sum lam v k h (inner : bool) ls le b : increasing lam -> length v = length lam -> (2 <= length lam)%nat ->
  (forall i, (i < k)%nat -> nth i lam 0 < ls) -> (forall i, (k <= i < length lam)%nat -> ls <= nth i lam 0) ->
  (forall i, (i < h)%nat -> nth i lam 0 < le) -> (forall i, (h <= i < length lam)%nat -> le <= nth i lam 0) ->
  ls < le -> (1 <= h <= length lam)%nat -> (k <= length lam - 1)%nat ->
  (inner = true -> (h < length lam)%nat /\ le < nth h lam 0 /\ b = le) ->
  (inner = false -> nth (length lam - 1) lam 0 <= b) ->
  let hi1 := if inner then h else (length lam - 1)%nat in
  (k - 1 <= hi1)%nat /\
  inner_area lam v ls b =
  rsum (fun j => let i := (k - 1 + j)%nat in
    (xs lam k h inner ls le (S i) - xs lam k h inner ls le i) *
    (ys lam v k h inner ls le i + ys lam v k h inner ls le (S i)) / 2) (hi1 - (k - 1)).
Proof.
  intros INC LV N2 KA KB HA HB LT H1 KN IT IF hi1.
  assert (KH : (k <= h)%nat).
  { destruct (le_lt_dec k h); auto. exfalso. assert (nth h lam 0 < ls) by (apply KA; lia).
    assert (le <= nth h lam 0) by (apply HB; lia). lra. }
  assert (LO : (k - 1 <= hi1 <= length lam - 1)%nat) by (unfold hi1; destruct inner; [destruct IT; auto; lia|lia]).
  split; [lia|].
  assert (INCS : forall i, (S i < length lam)%nat -> nth i lam 0 <= nth (S i) lam 0) by (intros; apply INC; lia).
  rewrite inner_area_sum by assumption.
  replace (length lam - 1)%nat with ((k - 1) + ((hi1 - (k-1)) + (length lam - 1 - hi1)))%nat at 1 by lia.
  rewrite rsum_split, rsum_zero, rsum_split, (rsum_zero _ (length lam - 1 - hi1)); [rewrite Rplus_0_l, Rplus_0_r| |].
  - apply rsum_ext. intros j J. cbv zeta. set (i := (k - 1 + j)%nat).
    assert (II : (k - 1 <= i /\ i < hi1 /\ S i < length lam)%nat) by (unfold i; lia). clearbody i. clear j J.
    destruct II as (I1 & I2 & I3).
    assert (XA : xs lam k h inner ls le i = Rmax ls (nth i lam 0) /\
                 ys lam v k h inner ls le i = line (nth i lam 0) (nth i v 0) (nth (S i) lam 0) (nth (S i) v 0) (Rmax ls (nth i lam 0))).
    { unfold xs, ys.
      assert (B1 : inner && (i =? h)%nat = false).
      { unfold hi1 in *. destruct inner; [|reflexivity]. cbn. apply Nat.eqb_neq. lia. }
      rewrite B1. destruct (1 <=? k)%nat eqn:K1; cbn [andb].
      - apply Nat.leb_le in K1. destruct (Nat.eqb_spec i (k-1)) as [->|NE].
        + assert (nth (k-1) lam 0 < ls) by (apply KA; lia). rewrite Rmax_left by lra. split; [reflexivity|].
          replace (S (k-1)) with k by lia. reflexivity.
        + assert (ls <= nth i lam 0) by (apply KB; lia). rewrite Rmax_right by lra. split; [reflexivity|now rewrite line_0].
      - apply Nat.leb_gt in K1. assert (ls <= nth i lam 0) by (apply KB; lia). rewrite Rmax_right by lra.
        split; [reflexivity|now rewrite line_0]. }
    assert (L1 : ls <= nth (S i) lam 0) by (apply KB; lia).
    pose proof (INCS i I3) as L2.
    assert (XB : xs lam k h inner ls le (S i) = Rmin b (nth (S i) lam 0) /\
                 (nth i lam 0 < nth (S i) lam 0 ->
                 ys lam v k h inner ls le (S i) = line (nth i lam 0) (nth i v 0) (nth (S i) lam 0) (nth (S i) v 0) (Rmin b (nth (S i) lam 0)))).
    { unfold xs, ys. assert (B2 : (1 <=? k)%nat && (S i =? k - 1)%nat = false).
      { destruct (S i =? k-1)%nat eqn:Q; [apply Nat.eqb_eq in Q; lia|apply andb_false_r]. }
      rewrite B2. destruct inner; cbn [andb].
      - destruct (IT eq_refl) as (I4 & I5 & ->). destruct (Nat.eqb_spec (S i) h) as [<-|NE].
        + rewrite Rmin_left by lra. split; [reflexivity|]. intros _. replace (S i - 1)%nat with i by lia. reflexivity.
        + assert (nth (S i) lam 0 < le) by (apply HA; unfold hi1 in *; lia). rewrite Rmin_right by lra.
          split; [reflexivity|]. intros. now rewrite line_1.
      - specialize (IF eq_refl). assert (nth (S i) lam 0 <= nth (length lam - 1) lam 0) by (apply INC; lia).
        rewrite Rmin_right by lra. split; [reflexivity|]. intros. now rewrite line_1. }
    destruct XA as [X1 X2], XB as [X3 X4]. rewrite X1, X2, X3.
    assert (BI : nth i lam 0 <= b).
    { unfold hi1 in *. destruct inner. 
      - destruct (IT eq_refl) as (I4 & I5 & ->). assert (nth i lam 0 < le) by (apply HA; lia). lra.
      - specialize (IF eq_refl). assert (nth (S i) lam 0 <= nth (length lam - 1) lam 0) by (apply INC; lia). lra. }
    assert (LB : ls <= b).
    { unfold hi1 in *. destruct inner. 
      - destruct (IT eq_refl) as (I4 & I5 & ->). lra.
      - specialize (IF eq_refl). assert (nth (S i) lam 0 <= nth (length lam - 1) lam 0) by (apply INC; lia). lra. }
    rewrite (seg_mid _ _ _ _ ls b _ _ L2 eq_refl eq_refl) by (apply Rmin_glb; apply Rmax_lub; lra).
    destruct (Rle_lt_or_eq_dec _ _ L2) as [SL|SE]; [now rewrite X4|].
    replace (Rmin b (nth (S i) lam 0) - Rmax ls (nth i lam 0)) with 0; [unfold Rdiv; ring|].
    rewrite Rmin_right by lra. rewrite Rmax_right by lra. lra.
  - intros j J. apply seg_right. unfold hi1 in *. destruct inner; [|lia].
    destruct (IT eq_refl) as (I4 & I5 & ->). apply HB. lia.
  - intros j J. apply seg_left. assert (nth (S j) lam 0 < ls) by (apply KA; lia). lra.
Qed.
