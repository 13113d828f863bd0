(** Proofs about splitting a sampler into sub-samplers. *)
From Coq Require Import Reals Lra Lia List Bool ZArith Psatz Permutation Arith.
From Verif Require Import Base M_Geometry M_Sampler S_Sampler P_Sampler.
Import ListNotations.
Open Scope R_scope.

Lemma even_div2 n : Nat.even n = true -> (2 * Nat.div2 n = n)%nat.
Proof. intros H. apply Nat.even_spec in H. destruct H as [k ->]. now rewrite Nat.div2_double. Qed.
Lemma tile_loop_prod dx dy : forall fuel nx ny, let '(a, b) := tile_loop fuel dx dy nx ny in (a * b = nx * ny)%nat.
Proof.
  induction fuel as [|f IH]; intros nx ny; cbn [tile_loop]; auto.
  destruct (Nat.even nx && _) eqn:C; auto. apply andb_true_iff in C as [C _].
  specialize (IH (Nat.div2 nx) (2 * ny)%nat). destruct (tile_loop f dx dy (Nat.div2 nx) (2 * ny)) as [a b].
  rewrite IH. pose proof (even_div2 nx C). nia.
Qed.
(** with fuel cnt the loop has really stopped: its condition is false *)
Lemma tile_loop_exit dx dy : forall fuel nx ny, (0 < nx)%nat -> (nx <= fuel)%nat ->
  let '(a, b) := tile_loop fuel dx dy nx ny in
  Nat.even a && Rltb (2 * dx * INR b) (dy * INR a) = false.
Proof.
  induction fuel as [|f IH]; intros nx ny Hp Hf; [lia|]. cbn [tile_loop].
  destruct (Nat.even nx && _) eqn:C; auto. pose proof C as C'. apply andb_true_iff in C as [C _].
  pose proof (even_div2 nx C). apply IH; lia.
Qed.

Lemma frac_clip k n a b : (k <= n)%nat -> (0 < n)%nat -> a <= 0 -> 1 <= b -> clip (INR k / INR n) a b = INR k / INR n.
Proof.
  intros Hk Hn Ha Hb. apply clip_id. assert (P : 0 < INR n) by now apply lt_0_INR. pose proof (pos_INR k).
  apply le_INR in Hk. pose proof (Rinv_0_lt_compat _ P) as IP. split.
  - unfold Rdiv. nra.
  - apply Rle_trans with 1; auto. apply Rmult_le_reg_r with (INR n); auto. unfold Rdiv. rewrite Rmult_assoc, Rinv_l by lra. lra.
Qed.
Lemma axis_unique a b n (p : Z) : (0 < n)%nat -> a <= IZR p < b ->
  exists k, (k < n)%nat /\
    (lerp (INR k / INR n) a b <= IZR p < lerp (INR (S k) / INR n) a b) /\
    forall k', lerp (INR k' / INR n) a b <= IZR p < lerp (INR (S k') / INR n) a b -> k' = k.
Proof.
  intros Hn Hp. assert (P : 0 < INR n) by now apply lt_0_INR. assert (D : 0 < b - a) by lra.
  set (f := (IZR p - a) / (b - a) * INR n).
  assert (F : 0 <= f < INR n).
  { unfold f. split.
    - repeat apply Rmult_le_pos; try lra. left; now apply Rinv_0_lt_compat.
    - rewrite <- (Rmult_1_l (INR n)) at 2. apply Rmult_lt_compat_r; auto.
      apply Rmult_lt_reg_r with (b - a); auto. unfold Rdiv. rewrite Rmult_assoc, Rinv_l by lra. lra. }
  assert (G : forall k, lerp (INR k / INR n) a b <= IZR p <-> INR k <= f).
  { intros k. unfold lerp. split; intros Q.
    - unfold f. apply Rmult_le_reg_r with ((b - a) / INR n); [now apply Rdiv_lt_0_compat|].
      replace ((IZR p - a) / (b - a) * INR n * ((b - a) / INR n)) with (IZR p - a) by (field; lra).
      replace (INR k * ((b - a) / INR n)) with (INR k / INR n * (b - a)) by (field; lra). lra.
    - assert (X : INR k * ((b - a) / INR n) <= f * ((b - a) / INR n)) by (apply Rmult_le_compat_r; [left; now apply Rdiv_lt_0_compat|auto]).
      unfold f in X. replace ((IZR p - a) / (b - a) * INR n * ((b - a) / INR n)) with (IZR p - a) in X by (field; lra).
      replace (INR k * ((b - a) / INR n)) with (INR k / INR n * (b - a)) in X by (field; lra). lra. }
  assert (G' : forall k, IZR p < lerp (INR k / INR n) a b <-> f < INR k).
  { intros k. specialize (G k). split; intros Q; apply Rnot_le_lt; intros Y; apply G in Y || (apply (proj2 G) in Y); lra. }
  destruct (Zfloor_spec f) as [Z1 Z2].
  assert (0 <= Zfloor f)%Z by (apply Zfloor_ge; lra).
  exists (Z.to_nat (Zfloor f)).
  assert (EI : INR (Z.to_nat (Zfloor f)) = IZR (Zfloor f)) by (rewrite INR_IZR_INZ, Z2Nat.id; auto).
  split. { apply INR_lt. lra. }
  split. { split; [apply G|apply G']; rewrite ?S_INR; lra. }
  intros k' [Q1 Q2]. apply G in Q1. apply G' in Q2. rewrite S_INR in Q2.
  assert (Zfloor f = Z.of_nat k') by (apply Zfloor_unique; rewrite <- INR_IZR_INZ; lra). lia.
Qed.

Lemma tiles_partition s cnt px py : (0 < cnt)%nat -> xs s <= 0 -> 1 <= xe s -> ys s <= 0 -> 1 <= ye s ->
  in_window (xs s, xe s, ys s, ye s) px py ->
  exists num, (num < cnt)%nat /\ in_window (compute_subwindow s num cnt) px py /\
    forall num', (num' < cnt)%nat -> in_window (compute_subwindow s num' cnt) px py -> num' = num.
Proof.
  intros Hc X0 X1 Y0 Y1 [WX WY]. unfold compute_subwindow.
  pose proof (tile_loop_prod (xe s - xs s) (ye s - ys s) cnt cnt 1) as PR.
  destruct (tile_loop cnt (xe s - xs s) (ye s - ys s) cnt 1) as [nx ny]. rewrite Nat.mul_1_r in PR.
  assert (NX : (0 < nx)%nat) by nia. assert (NY : (0 < ny)%nat) by nia.
  destruct (axis_unique _ _ nx px NX WX) as (i&Hi&Ii&Ui).
  destruct (axis_unique _ _ ny py NY WY) as (j&Hj&Ij&Uj).
  exists (i + nx * j)%nat.
  assert (M : ((i + nx * j) mod nx = i)%nat).
  { rewrite Nat.mul_comm. rewrite Nat.mod_add by lia. now apply Nat.mod_small. }
  assert (D : ((i + nx * j) / nx = j)%nat).
  { rewrite Nat.mul_comm. rewrite Nat.div_add by lia. rewrite Nat.div_small by lia. lia. }
  split; [nia|]. unfold in_window. split.
  - rewrite M, D, !frac_clip by lia || lra. auto.
  - intros num' HN. assert (num' mod nx < nx)%nat by (apply Nat.mod_upper_bound; lia).
    assert (num' / nx < ny)%nat by (apply Nat.div_lt_upper_bound; lia).
    rewrite !frac_clip by lia || lra. intros [A B]. apply Ui in A. apply Uj in B.
    pose proof (Nat.div_mod num' nx ltac:(lia)). lia.
Qed.

(** when the tile counts divide the window, every tile is an integer window of positive size *)
Lemma tile_integer a b c d xst yst jt o cl cnt nx ny num :
  (a <= 0)%Z -> (1 <= b)%Z -> (c <= 0)%Z -> (1 <= d)%Z -> (0 < cnt)%nat -> (num < cnt)%nat ->
  tile_loop cnt (IZR b - IZR a) (IZR d - IZR c) cnt 1 = (nx, ny) ->
  (Z.of_nat nx | b - a)%Z -> (Z.of_nat ny | d - c)%Z ->
  exists a' b' c' d', (a' < b')%Z /\ (c' < d')%Z /\ (a <= a')%Z /\ (b' <= b)%Z /\ (c <= c')%Z /\ (d' <= d)%Z /\
    get_subsampler (imake a b c d xst yst jt o cl) num cnt =
      Some (imake a' b' c' d' (Z.max xst 1) (Z.max yst 1) jt o cl) /\
    compute_subwindow (imake a b c d xst yst jt o cl) num cnt = (IZR a', IZR b', IZR c', IZR d').
Proof.
  intros A0 B1 C0 D1 Hc Hn TL [u Hu] [v Hv].
  pose proof (tile_loop_prod (IZR b - IZR a) (IZR d - IZR c) cnt cnt 1) as PR. rewrite TL, Nat.mul_1_r in PR.
  assert (NX : (0 < nx)%nat) by nia. assert (NY : (0 < ny)%nat) by nia.
  assert (U : (0 < u)%Z) by nia. assert (V : (0 < v)%Z) by nia.
  set (x0 := (num mod nx)%nat). set (y0 := (num / nx)%nat).
  assert (X0 : (x0 < nx)%nat) by (apply Nat.mod_upper_bound; lia).
  assert (Y0 : (y0 < ny)%nat) by (apply Nat.div_lt_upper_bound; lia).
  assert (AX : forall (lo hi q : Z) (n k : nat), (0 < n)%nat -> (k <= n)%nat -> (lo <= 0)%Z -> (1 <= hi)%Z ->
     (hi - lo = q * Z.of_nat n)%Z ->
     lerp (clip (INR k / INR n) (IZR lo) (IZR hi)) (IZR lo) (IZR hi) = IZR (lo + q * Z.of_nat k)).
  { intros lo hi q n k Hn' Hk Hlo Hhi E. rewrite frac_clip; auto; [|now apply IZR_le|now apply IZR_le].
    unfold lerp. rewrite plus_IZR, mult_IZR, <- INR_IZR_INZ.
    assert (P : 0 < INR n) by now apply lt_0_INR.
    assert (E' : IZR hi = IZR lo + IZR q * INR n).
    { rewrite INR_IZR_INZ, <- mult_IZR, <- plus_IZR. f_equal. lia. }
    rewrite E'. field. lra. }
  assert (CW : compute_subwindow (imake a b c d xst yst jt o cl) num cnt =
    (IZR (a + u * Z.of_nat x0), IZR (a + u * Z.of_nat (S x0)), IZR (c + v * Z.of_nat y0), IZR (c + v * Z.of_nat (S y0)))).
  { unfold compute_subwindow, imake, stratified_make; cbn [xs xe ys ye]. rewrite TL. fold x0 y0.
    rewrite (AX a b u nx x0), (AX a b u nx (S x0)), (AX c d v ny y0), (AX c d v ny (S y0)); auto; lia. }
  exists (a + u * Z.of_nat x0)%Z, (a + u * Z.of_nat (S x0))%Z, (c + v * Z.of_nat y0)%Z, (c + v * Z.of_nat (S y0))%Z.
  repeat (split; [nia|]). split; auto.
  unfold get_subsampler. rewrite CW.
  rewrite !IZR_eqb.
  replace (a + u * Z.of_nat x0 =? a + u * Z.of_nat (S x0))%Z with false by (symmetry; apply Z.eqb_neq; nia).
  replace (c + v * Z.of_nat y0 =? c + v * Z.of_nat (S y0))%Z with false by (symmetry; apply Z.eqb_neq; nia).
  cbn [orb]. f_equal. unfold imake, stratified_make; cbn [xSamples ySamples jit s_open s_close].
  rewrite !Z2Nat.id by lia. reflexivity.
Qed.

(** a window that starts at or after pixel 1 loses everything *)
Lemma tiles_lost s num cnt : (0 < cnt)%nat -> (num < cnt)%nat -> 1 <= xs s -> xs s <= xe s ->
  get_subsampler s num cnt = None.
Proof.
  intros Hc Hn X1 X2. unfold get_subsampler, compute_subwindow.
  pose proof (tile_loop_prod (xe s - xs s) (ye s - ys s) cnt cnt 1) as PR.
  destruct (tile_loop cnt (xe s - xs s) (ye s - ys s) cnt 1) as [nx ny]. rewrite Nat.mul_1_r in PR.
  assert (NX : (0 < nx)%nat) by nia. assert (P : 0 < INR nx) by now apply lt_0_INR.
  assert (Q : forall k, (k <= nx)%nat -> clip (INR k / INR nx) (xs s) (xe s) = xs s).
  { intros k Hk. assert (INR k / INR nx <= 1).
    { apply Rmult_le_reg_r with (INR nx); auto. unfold Rdiv. rewrite Rmult_assoc, Rinv_l by lra. apply le_INR in Hk. lra. }
    unfold clip. rewrite Rmax_right by lra. apply Rmin_left. lra. }
  assert (num mod nx < nx)%nat by (apply Nat.mod_upper_bound; lia).
  rewrite !Q by lia. replace (Reqb _ _) with true by (symmetry; now apply Reqb_true). reflexivity.
Qed.

(** a tile of fractional width never finishes, and leaves its window *)
Lemma never_ends : forall k s args,
  (forall n : nat, xs s + INR n <> xe s) -> yPos s <> ye s -> xPos s = xs s + INR k -> args_ok s args ->
  exists tr s', calls s args = Ok (tr, s') /\ Forall (fun r => fst r = true) tr /\ xPos s' = xs s + INR (k + length args).
Proof.
  intros k s args. revert k s. induction args as [|[smp rn] args IH]; intros k s HN HY HX AO.
  - exists [], s. cbn. rewrite Nat.add_0_r. auto.
  - pose proof (Forall_inv AO) as HD. pose proof (Forall_inv_tail AO) as TL. cbn [fst snd] in HD. destruct HD as [LS RO].
    cbn [calls]. unfold generate. assert (Reqb (yPos s) (ye s) = false) as -> by (now apply Reqb_false).
    rewrite <- LS, Nat.eqb_refl. cbn [negb].
    assert (Reqb (xPos s + 1) (xe s) = false) as ->.
    { apply Reqb_false. rewrite HX. replace (xs s + INR k + 1) with (xs s + INR (S k)) by (rewrite S_INR; ring). apply HN. }
    cbn [bind].
    set (s1 := mkSampler _ _ _ _ _ _ _ _ _ _ _).
    destruct (IH (S k) s1) as (tr&s'&C&F&XP); auto.
    { change (xPos s + 1 = xs s + INR (S k)). rewrite HX, S_INR. ring. }
    rewrite C. cbn [bind]. eexists _, s'. split; [reflexivity|]. split; [constructor; auto|].
    cbn [length]. rewrite XP. change (xs s1) with (xs s). replace (k + S (length args))%nat with (S k + length args)%nat by lia. reflexivity.
Qed.
Lemma fractional_tile_bad : exists s num cnt t, (num < cnt)%nat /\
  s = imake 0 3 0 1 1 1 true 0 1 /\ get_subsampler s num cnt = Some t /\
  forall args, args_ok t args -> exists tr s', calls t args = Ok (tr, s') /\ Forall (fun r => fst r = true) tr /\
     xPos s' = INR (length args).
Proof.
  exists (imake 0 3 0 1 1 1 true 0 1), 0%nat, 2%nat.
  assert (TL : tile_loop 2 (IZR 3 - IZR 0) (IZR 1 - IZR 0) 2 1 = (2%nat, 1%nat)).
  { cbn [tile_loop]. replace (Rltb _ _) with false; [now rewrite andb_false_r|].
    symmetry; apply Rltb_false. cbn. lra. }
  assert (CW : compute_subwindow (imake 0 3 0 1 1 1 true 0 1) 0 2 = (0, 3/2, 0, 1)).
  { unfold compute_subwindow, imake, stratified_make; cbn [xs xe ys ye]. rewrite TL.
    change (0 mod 2)%nat with 0%nat. change (0 / 2)%nat with 0%nat.
    rewrite !frac_clip by (lia || lra). unfold lerp; cbn. f_equal; [f_equal; [f_equal|]|]; field. }
  eexists. split; [lia|]. split; [reflexivity|]. split.
  { unfold get_subsampler. rewrite CW.
    assert (Reqb 0 (3/2) = false) as -> by (apply Reqb_false; lra).
    assert (Reqb 0 1 = false) as -> by (apply Reqb_false; lra). cbn [orb]. reflexivity. }
  intros args AO. set (t := stratified_make _ _ _ _ _ _ _ _ _) in *.
  destruct (never_ends 0 t args) as (tr&s'&C&F&X); auto; cbn [t stratified_make xs xe ys ye xPos yPos].
  - intros n E. rewrite Rplus_0_l in E.
    assert (IZR (2 * Z.of_nat n) = IZR 3) by (rewrite mult_IZR, <- INR_IZR_INZ; lra).
    apply eq_IZR in H. lia.
  - lra.
  - cbn. lra.
  - exists tr, s'. split; auto. split; auto. rewrite X. cbn. rewrite Nat.add_0_l || idtac. lra.
Qed.
