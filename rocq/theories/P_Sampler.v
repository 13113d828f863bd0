(** Proofs about the sampler model. *)
From Coq Require Import Reals Lra Lia List Bool ZArith Psatz Permutation Arith.
From Verif Require Import Base M_Geometry M_Sampler S_Sampler.
Import ListNotations.
Open Scope R_scope.

(** ** index arithmetic *)
Lemma tile_length n m : length (tile n m) = (n * m)%nat.
Proof.
  unfold tile. induction m as [|m IH]; cbn; [lia|]. rewrite app_length, seq_length, IH. lia.
Qed.
Lemma tile_nth n : forall m k, (k < n * m)%nat -> nth k (tile n m) 0%nat = (k mod n)%nat.
Proof.
  induction m as [|m IH]; intros k Hk; [lia|].
  change (tile n (S m)) with (seq 0 n ++ tile n m).
  destruct (Nat.lt_ge_cases k n).
  - rewrite app_nth1 by (now rewrite seq_length). rewrite seq_nth by auto. now rewrite Nat.mod_small.
  - rewrite app_nth2 by (now rewrite seq_length). rewrite seq_length, IH by lia.
    replace k with ((k - n) + 1 * n)%nat at 2 by lia. rewrite Nat.mod_add by lia. reflexivity.
Qed.
Lemma repeats_gen n : forall m s, length (flat_map (fun j => repeat j n) (seq s m)) = (m * n)%nat /\
  forall k, (k < m * n)%nat -> nth k (flat_map (fun j => repeat j n) (seq s m)) 0%nat = (s + k / n)%nat.
Proof.
  induction m as [|m IH]; intros s; cbn [seq flat_map].
  - split; [reflexivity|]. intros; lia.
  - destruct (IH (S s)) as [L N]. split; [rewrite app_length, repeat_length, L; lia|].
    intros k Hk. destruct (Nat.lt_ge_cases k n).
    + rewrite app_nth1 by (now rewrite repeat_length). rewrite Nat.div_small by auto.
      rewrite Nat.add_0_r. rewrite (nth_indep _ _ s) by (now rewrite repeat_length). now apply nth_repeat.
    + rewrite app_nth2 by (now rewrite repeat_length). rewrite repeat_length, N by lia.
      replace k with ((k - n) + 1 * n)%nat at 2 by lia. rewrite Nat.div_add by lia. lia.
Qed.
Lemma repeats_length m n : length (repeats m n) = (m * n)%nat.
Proof. apply repeats_gen. Qed.
Lemma repeats_nth m n k : (k < m * n)%nat -> nth k (repeats m n) 0%nat = (k / n)%nat.
Proof. intros. unfold repeats. now rewrite (proj2 (repeats_gen n m 0)). Qed.

Lemma jittered_length a r d : length (jittered a r d) = length a.
Proof. unfold jittered. rewrite map_length, combine_length, seq_length. lia. Qed.
Lemma jittered_nth a r d k : (k < length a)%nat ->
  nth k (jittered a r d) 0 = (INR (nth k a 0%nat) + r k) / INR d.
Proof.
  intros H. unfold jittered. set (f := fun '(i, x) => (INR x + r i) / INR d).
  rewrite nth_indep with (d' := f (0%nat, 0%nat))
    by (rewrite map_length, combine_length, seq_length; lia).
  rewrite (map_nth f).
  rewrite combine_nth by (now rewrite seq_length). rewrite seq_nth by auto. reflexivity.
Qed.

(** ** strata *)
Lemma stratum_iff n i k r : (0 < n)%nat -> in01 r ->
  (INR i / INR n <= (INR k + r) / INR n < INR (S i) / INR n <-> k = i).
Proof.
  intros Hn [R0 R1]. assert (P : 0 < / INR n) by (apply Rinv_0_lt_compat, lt_0_INR; auto).
  unfold Rdiv. split.
  - intros [A B]. apply Rmult_le_reg_r in A; auto. apply Rmult_lt_reg_r in B; auto.
    assert (INR k < INR (S i)) by lra. assert (INR i < INR (S k)) by (rewrite S_INR; lra).
    apply INR_lt in H, H0. lia.
  - intros ->. rewrite S_INR. split; [apply Rmult_le_compat_r; lra|apply Rmult_lt_compat_r; lra].
Qed.
Lemma in01_half : in01 (/2). Proof. unfold in01; lra. Qed.
Lemma jit_in01 (b : bool) (r : nat -> R) k : (forall i, in01 (r i)) -> in01 ((if b then r else half) k).
Proof. destruct b; auto using in01_half. Qed.
Lemma jittered_seq_strata n r : (forall i, in01 (r i)) -> one_per_stratum (jittered (seq 0 n) r n) n.
Proof.
  intros H. split; [now rewrite jittered_length, seq_length|].
  intros i Hi. exists i. split; auto. split.
  - rewrite jittered_nth by (now rewrite seq_length). rewrite seq_nth by auto. apply stratum_iff; auto; lia.
  - intros k Hk. rewrite jittered_nth by (now rewrite seq_length). rewrite seq_nth by auto.
    intros Q. apply stratum_iff in Q; auto; lia.
Qed.
Lemma perm_index p n : Permutation p (seq 0 n) ->
  length p = n /\ (forall k, (k < n)%nat -> (nth k p 0 < n)%nat) /\
  (forall j k, (j < n)%nat -> (k < n)%nat -> nth j p 0%nat = nth k p 0%nat -> j = k) /\
  (forall i, (i < n)%nat -> exists k, (k < n)%nat /\ nth k p 0%nat = i).
Proof.
  intros H. assert (L : length p = n) by (rewrite (Permutation_length H); apply seq_length).
  split; auto. split.
  - intros k Hk. assert (In (nth k p 0%nat) (seq 0 n)) by (eapply Permutation_in; [exact H|apply nth_In; lia]).
    apply in_seq in H0. lia.
  - assert (ND : NoDup p) by (eapply Permutation_NoDup; [apply Permutation_sym; exact H|apply seq_NoDup]).
    split.
    + intros j k Hj Hk E. rewrite (NoDup_nth p 0%nat) in ND. apply (ND j k); auto; lia.
    + intros i Hi. assert (In i p).
      { eapply Permutation_in; [apply Permutation_sym; exact H|]. apply in_seq. lia. }
      apply (In_nth _ _ 0%nat) in H0 as (k&K1&K2). exists k. split; [lia|auto].
Qed.
Lemma shuffle_length {A} (d : A) p l : length (shuffle d p l) = length p.
Proof. apply map_length. Qed.
Lemma shuffle_nth {A} (d : A) p l k : (k < length p)%nat -> nth k (shuffle d p l) d = nth (nth k p 0%nat) l d.
Proof.
  intros H. unfold shuffle. rewrite nth_indep with (d' := (fun i => nth i l d) 0%nat) by (now rewrite map_length).
  now rewrite (map_nth (fun i => nth i l d)).
Qed.
Lemma shuffle_strata p l n : Permutation p (seq 0 n) -> one_per_stratum l n -> one_per_stratum (shuffle 0 p l) n.
Proof.
  intros P [L S]. destruct (perm_index p n P) as (LP&R&INJ&SUR).
  split; [now rewrite shuffle_length|].
  intros i Hi. destruct (S i Hi) as (k&K&IN&U). destruct (SUR k K) as (k0&K0&E0).
  exists k0. split; auto. split; [rewrite shuffle_nth by lia; rewrite E0; auto|].
  intros k' K' IN'. rewrite shuffle_nth in IN' by lia.
  apply U in IN'; [|now apply R]. apply INJ; auto. congruence.
Qed.
Lemma strat1d_strata n j r : (forall i, in01 (r i)) -> one_per_stratum (stratified_sample_1d n j r) n.
Proof.
  intros H. unfold stratified_sample_1d. apply jittered_seq_strata. destruct j; auto.
  intros; apply in01_half.
Qed.
Lemma strat_in01 l n k : one_per_stratum l n -> (k < n)%nat -> 
  (forall k, (k < n)%nat -> exists i, (i < n)%nat /\ INR i / INR n <= nth k l 0 < INR (S i) / INR n) -> in01 (nth k l 0).
Proof.
  intros _ Hk H. destruct (H k Hk) as (i&Hi&A&B). assert (P : 0 < INR n) by (apply lt_0_INR; lia).
  split.
  - eapply Rle_trans; [|exact A]. apply Rmult_le_pos; [apply pos_INR|left; now apply Rinv_0_lt_compat].
  - eapply Rlt_le_trans; [exact B|]. apply Rmult_le_reg_r with (INR n); auto. unfold Rdiv.
    rewrite Rmult_assoc, Rinv_l by lra. rewrite Rmult_1_r, Rmult_1_l. apply le_INR. lia.
Qed.
Lemma frac_in01 n i r : (i < n)%nat -> in01 r -> in01 ((INR i + r) / INR n).
Proof.
  intros Hi [A B]. assert (P : 0 < INR n) by (apply lt_0_INR; lia).
  assert (INR i + 1 <= INR n) by (rewrite <- S_INR; apply le_INR; lia). pose proof (pos_INR i).
  split.
  - apply Rmult_le_pos; [lra|left; now apply Rinv_0_lt_compat].
  - apply Rmult_lt_reg_r with (INR n); auto. unfold Rdiv. rewrite Rmult_assoc, Rinv_l by lra. lra.
Qed.

(** ** 2D *)
Lemma strat2d_length nx ny j rx ry : length (stratified_sample_2d nx ny j rx ry) = (nx * ny)%nat.
Proof.
  unfold stratified_sample_2d. destruct j; rewrite combine_length, !jittered_length, tile_length, repeats_length; lia.
Qed.
Lemma strat2d_nth nx ny j rx ry k : (k < nx * ny)%nat ->
  nth k (stratified_sample_2d nx ny j rx ry) (0, 0) =
   ((INR (k mod nx) + (if j then rx k else /2)) / INR nx, (INR (k / nx) + (if j then ry k else /2)) / INR ny).
Proof.
  intros H. unfold stratified_sample_2d.
  destruct j; (rewrite combine_nth by (rewrite !jittered_length, tile_length, repeats_length; lia));
   rewrite !jittered_nth by (rewrite ?tile_length, ?repeats_length; lia);
   rewrite tile_nth, repeats_nth by lia; reflexivity.
Qed.
Lemma strat2d_cells nx ny j rx ry : (forall i, in01 (rx i)) -> (forall i, in01 (ry i)) ->
  one_per_cell (stratified_sample_2d nx ny j rx ry) nx ny.
Proof.
  intros RX RY. split; [apply strat2d_length|]. intros i l Hi Hl.
  assert (HX : forall k, in01 (if j then rx k else /2)) by (intros; destruct j; auto using in01_half).
  assert (HY : forall k, in01 (if j then ry k else /2)) by (intros; destruct j; auto using in01_half).
  exists (i + nx * l)%nat.
  assert (K : (i + nx * l < nx * ny)%nat) by nia.
  split; auto. cbv zeta beta.
  assert (M : ((i + nx * l) mod nx = i)%nat).
  { rewrite Nat.mul_comm. rewrite Nat.mod_add by lia. now apply Nat.mod_small. }
  assert (D : ((i + nx * l) / nx = l)%nat).
  { rewrite Nat.mul_comm. rewrite Nat.div_add by lia. rewrite Nat.div_small by lia. lia. }
  rewrite strat2d_nth by auto. cbn [fst snd]. rewrite M, D. split.
  - split; apply stratum_iff; auto; lia.
  - intros k' K' Q. rewrite strat2d_nth in Q by auto. cbn [fst snd] in Q. destruct Q as [Q1 Q2].
    apply stratum_iff in Q1; auto; [|lia]. apply stratum_iff in Q2; auto; [|lia].
    rewrite <- Q1, <- Q2. pose proof (Nat.div_mod k' nx ltac:(lia)). lia.
Qed.
Lemma strat2d_in01 nx ny j rx ry k : (forall i, in01 (rx i)) -> (forall i, in01 (ry i)) -> (k < nx * ny)%nat ->
  in01 (fst (nth k (stratified_sample_2d nx ny j rx ry) (0, 0))) /\
  in01 (snd (nth k (stratified_sample_2d nx ny j rx ry) (0, 0))).
Proof.
  intros RX RY K. rewrite strat2d_nth by auto. cbn [fst snd].
  split; apply frac_in01; try solve [destruct j; auto using in01_half].
  - apply Nat.mod_upper_bound. nia.
  - apply Nat.div_lt_upper_bound; nia.
Qed.

(** ** latin hypercube *)
Lemma lhs1_strata n r p : (forall i, in01 (r i)) -> Permutation p (seq 0 n) ->
  one_per_stratum (latin_hypercube_1d n r p) n.
Proof. intros. unfold latin_hypercube_1d. apply shuffle_strata; auto. now apply jittered_seq_strata. Qed.
Lemma map_fst_combine {A B} (a : list A) (b : list B) : length a = length b -> map fst (combine a b) = a.
Proof. revert b; induction a; intros [|y b] H; cbn in *; try discriminate; auto. f_equal. auto. Qed.
Lemma map_snd_combine {A B} (a : list A) (b : list B) : length a = length b -> map snd (combine a b) = b.
Proof. revert b; induction a; intros [|y b] H; cbn in *; try discriminate; auto. f_equal. auto. Qed.
Lemma lhs2_strata n ry p rx : (forall i, in01 (rx i)) -> (forall i, in01 (ry i)) -> Permutation p (seq 0 n) ->
  one_per_stratum (map fst (latin_hypercube_2d n ry p rx)) n /\ one_per_stratum (map snd (latin_hypercube_2d n ry p rx)) n.
Proof.
  intros RX RY P. unfold latin_hypercube_2d.
  assert (L : length (jittered (seq 0 n) rx n) = length (shuffle 0 p (jittered (seq 0 n) ry n))).
  { rewrite jittered_length, seq_length, shuffle_length. rewrite (Permutation_length P). now rewrite seq_length. }
  rewrite map_fst_combine, map_snd_combine by auto. split.
  - now apply jittered_seq_strata.
  - now apply lhs1_strata.
Qed.

(** ** the sampler's state machine *)
Section Run.
  Variables (wx0 wx1 wy0 wy1 : Z) (xst yst : Z) (jitter : bool) (o c : R).
  Hypotheses (HX : (wx0 < wx1)%Z) (HY : (wy0 < wy1)%Z).
  Let s0 := stratified_make (IZR wx0) (IZR wx1) (IZR wy0) (IZR wy1) xst yst jitter o c.
  Let W := Z.to_nat (wx1 - wx0).
  Let H := Z.to_nat (wy1 - wy0).
  Definition pxk (k : nat) : Z := (wx0 + Z.of_nat (k mod W))%Z.
  Definition pyk (k : nat) : Z := (wy0 + Z.of_nat (k / W))%Z.
  Definition st (k : nat) : sampler :=
    mkSampler (IZR wx0) (IZR wx1) (IZR wy0) (IZR wy1) jitter o c (IZR (pxk k)) (IZR (pyk k))
      (xSamples s0) (ySamples s0).
  Lemma Wpos : (0 < W)%nat. Proof. unfold W; lia. Qed.
  Lemma Hpos : (0 < H)%nat. Proof. unfold H; lia. Qed.
  Lemma st_0 : st 0 = s0.
  Proof.
    pose proof Wpos. unfold st, pxk, pyk. rewrite Nat.mod_0_l, Nat.div_0_l by lia. cbn [Z.of_nat].
    rewrite !Z.add_0_r. reflexivity.
  Qed.
  Lemma IZR_eqb a b : Reqb (IZR a) (IZR b) = Z.eqb a b.
  Proof.
    destruct (Z.eqb_spec a b) as [->|N]; [now apply Reqb_true|]. apply Reqb_false. intros E. now apply eq_IZR in E.
  Qed.
  Lemma st_end smp rn : generate (st (W * H)) smp rn = Ok (false, smp, st (W * H)).
  Proof.
    unfold generate. cbn [st yPos ye]. rewrite IZR_eqb.
    unfold pyk. rewrite (Nat.mul_comm W H), Nat.div_mul by (pose proof Wpos; lia).
    replace (wy0 + Z.of_nat H =? wy1)%Z with true by (unfold H; symmetry; apply Z.eqb_eq; lia). reflexivity.
  Qed.
  Lemma enumerate_nth {A} (l : list A) d k : (k < length l)%nat -> nth k (enumerate l) (0%nat, d) = (k, nth k l d).
  Proof. intros HL. unfold enumerate. rewrite combine_nth by (now rewrite seq_length). rewrite seq_nth by auto. reflexivity. Qed.
  Lemma enumerate_length {A} (l : list A) : length (enumerate l) = length l.
  Proof. unfold enumerate. rewrite combine_length, seq_length. lia. Qed.
  Definition dsmp : sample := mkS 0 0 0 0 0 [] [] [] [].

  Definition call_good (k : nat) (old new : list sample) : Prop :=
    length new = length old /\
    (forall i, (i < length old)%nat -> sample_good s0 (pxk k) (pyk k) (nth i old dsmp) (nth i new dsmp)) /\
    one_per_cell (map (fun s => (imageX s - IZR (pxk k), imageY s - IZR (pyk k))) new) (xSamples s0) (ySamples s0).

  Lemma lerp_between t a b : in01 t -> a <= b -> a <= lerp t a b <= b.
  Proof. unfold in01, lerp. intros. nra. Qed.

  Lemma st_step k smp rn : (k < W * H)%nat -> length smp = (xSamples s0 * ySamples s0)%nat -> rnd_ok s0 smp rn ->
    exists smp', generate (st k) smp rn = Ok (true, smp', st (S k)) /\ call_good k smp smp'.
  Proof.
    intros Hk HL RO. pose proof Wpos as WP. pose proof Hpos as HP.
    unfold generate. cbn [st yPos ye xPos xs xe xSamples ySamples jit s_open s_close].
    assert (Reqb (IZR (pyk k)) (IZR wy1) = false) as ->.
    { rewrite IZR_eqb. apply Z.eqb_neq. unfold pyk.
      assert (k / W < H)%nat by (apply Nat.div_lt_upper_bound; lia). unfold H in *. lia. }
    rewrite <- HL, Nat.eqb_refl. cbn [negb].
    eexists. split.
    { assert (E : forall x y : R, (if Reqb (IZR (pxk k) + 1) (IZR wx1) then (x, y + 1) else (IZR (pxk k) + 1, y)) =
               (if (pxk k + 1 =? wx1)%Z then (x, y + 1) else (IZR (pxk k) + 1, y))).
      { intros. rewrite <- plus_IZR, IZR_eqb. reflexivity. }
      rewrite E.
      assert (Q : (if (pxk k + 1 =? wx1)%Z then (IZR wx0, IZR (pyk k) + 1) else (IZR (pxk k) + 1, IZR (pyk k))) =
              (IZR (pxk (S k)), IZR (pyk (S k)))).
      { pose proof (Nat.div_mod k W ltac:(lia)) as DM. pose proof (Nat.mod_upper_bound k W ltac:(lia)) as MB.
        destruct (Z.eqb_spec (pxk k + 1) wx1) as [EQ|NE].
        - assert (M : (k mod W = W - 1)%nat) by (unfold pxk in EQ; unfold W in *; lia).
          assert (S1 : (S k mod W = 0)%nat).
          { replace (S k) with (0 + (k / W + 1) * W)%nat by lia. rewrite Nat.mod_add by lia. apply Nat.mod_0_l. lia. }
          assert (S2 : (S k / W = S (k / W))%nat).
          { replace (S k) with (0 + (k / W + 1) * W)%nat at 1 by lia. rewrite Nat.div_add by lia. rewrite Nat.div_0_l by lia. lia. }
          unfold pxk, pyk. rewrite S1, S2. rewrite <- plus_IZR. f_equal; f_equal; lia.
        - assert (M : (k mod W < W - 1)%nat) by (unfold pxk in NE; unfold W in *; lia).
          assert (S1 : (S k mod W = S (k mod W))%nat).
          { replace (S k) with (S (k mod W) + (k / W) * W)%nat at 1 by lia. rewrite Nat.mod_add by lia. apply Nat.mod_small. lia. }
          assert (S2 : (S k / W = k / W)%nat).
          { replace (S k) with (S (k mod W) + (k / W) * W)%nat at 1 by lia. rewrite Nat.div_add by lia. rewrite Nat.div_small by lia. lia. }
          unfold pxk, pyk. rewrite S1, S2. rewrite <- plus_IZR. f_equal; f_equal; lia. }
      rewrite Q. reflexivity. }
    destruct RO as (R1&PL&PT&R2&R3).
    set (nx := xSamples s0) in *. set (ny := ySamples s0) in *.
    set (img0 := stratified_sample_2d nx ny jitter (r_ix rn) (r_iy rn)).
    set (lens0 := stratified_sample_2d nx ny jitter (r_lx rn) (r_ly rn)).
    set (img := map (fun '(x, y) => (x + IZR (pxk k), y + IZR (pyk k))) img0).
    set (lens := shuffle (0, 0) (p_lens rn) lens0).
    set (time := shuffle 0 (p_time rn) _).
    assert (IN : forall i, (i < nx * ny)%nat -> nth i img (0, 0) = (fst (nth i img0 (0,0)) + IZR (pxk k), snd (nth i img0 (0,0)) + IZR (pyk k))).
    { intros i Hi. unfold img. set (g := fun '(x, y) => (x + IZR (pxk k), y + IZR (pyk k))).
      rewrite nth_indep with (d' := g (0, 0)) by (rewrite map_length; unfold img0; now rewrite strat2d_length).
      rewrite (map_nth g). destruct (nth i img0 (0,0)); reflexivity. }
    destruct (perm_index _ _ PL) as (LPL&RPL&_). destruct (perm_index _ _ PT) as (LPT&RPT&_).
    set (f := fun '(i, smp0) => fill_sample (st k) rn img lens time i smp0).
    assert (NTH : forall i, (i < length smp)%nat ->
      nth i (map f (enumerate smp)) dsmp = fill_sample (st k) rn img lens time i (nth i smp dsmp)).
    { intros i Hi. rewrite nth_indep with (d' := f (0%nat, dsmp)) by (now rewrite map_length, enumerate_length).
      rewrite (map_nth f), enumerate_nth by auto. reflexivity. }
    split; [now rewrite map_length, enumerate_length|].
    split.
    - intros i Hi. rewrite NTH by auto. rewrite HL in Hi.
      unfold sample_good, fill_sample. cbn [imageX imageY lens_u lens_v stime n1D n2D oneD twoD st s_open s_close].
      rewrite IN by auto. cbn [fst snd].
      destruct (strat2d_in01 nx ny jitter (r_ix rn) (r_iy rn) i ltac:(intros; apply R1) ltac:(intros; apply R1) Hi) as [IX IY].
      fold img0 in IX, IY. unfold in01 in IX, IY.
      split; [lra|]. split; [lra|].
      assert (LI : nth i lens (0,0) = nth (nth i (p_lens rn) 0%nat) lens0 (0,0)) by (unfold lens; apply shuffle_nth; lia).
      rewrite LI.
      destruct (strat2d_in01 nx ny jitter (r_lx rn) (r_ly rn) (nth i (p_lens rn) 0%nat) ltac:(intros; apply R1) ltac:(intros; apply R1) (RPL i Hi)) as [LX LY].
      split; auto. split; auto. split.
      { change (s_open s0) with o. change (s_close s0) with c. apply lerp_between.
        unfold time. rewrite shuffle_nth by lia. unfold stratified_sample_1d.
        rewrite HL. rewrite jittered_nth by (rewrite seq_length; now apply RPT). rewrite seq_nth by (now apply RPT).
        apply frac_in01; [now apply RPT|]. apply jit_in01. intros; apply R1. }
      split; [now rewrite map_length, enumerate_length|]. split; [now rewrite map_length, enumerate_length|].
      rewrite <- HL in Hi.
      split.
      + intros j Hj. set (g := fun '(j, n) => latin_hypercube_1d n (r_1 rn i j) (p_1 rn i j)).
        rewrite nth_indep with (d' := g (0%nat, 0%nat)) by (now rewrite map_length, enumerate_length).
        rewrite (map_nth g), enumerate_nth by auto. unfold g. apply lhs1_strata; [intros; apply R2|]. now apply R3.
      + intros j Hj. set (g := fun '(j, n) => latin_hypercube_2d n (r_2y rn i j) (p_2 rn i j) (r_2x rn i j)).
        rewrite nth_indep with (d' := g (0%nat, 0%nat)) by (now rewrite map_length, enumerate_length).
        rewrite (map_nth g), enumerate_nth by auto. unfold g. apply lhs2_strata; try (intros; apply R2). now apply R3.
    - assert (EQ : map (fun s => (imageX s - IZR (pxk k), imageY s - IZR (pyk k))) (map f (enumerate smp)) = img0).
      { apply nth_ext with (d := (0,0)) (d' := (0,0)).
        - rewrite !map_length, enumerate_length. unfold img0. now rewrite strat2d_length.
        - intros i Hi. rewrite !map_length, enumerate_length in Hi.
          set (g := fun s => (imageX s - IZR (pxk k), imageY s - IZR (pyk k))).
          rewrite nth_indep with (d' := g dsmp) by (now rewrite !map_length, enumerate_length).
          rewrite (map_nth g), NTH by auto. unfold g, fill_sample; cbn [imageX imageY].
          rewrite IN by lia. cbn [fst snd]. destruct (nth i img0 (0,0)); cbn. f_equal; ring. }
      rewrite EQ. apply strat2d_cells; intros; apply R1.
  Qed.

  Definition darg : list sample * rnd := ([], mkRnd (fun _ => 0) (fun _ => 0) (fun _ => 0) (fun _ => 0) (fun _ => 0) [] []
    (fun _ _ _ => 0) (fun _ _ => []) (fun _ _ _ => 0) (fun _ _ _ => 0) (fun _ _ => [])).

  Lemma calls_from args : forall k0, (k0 <= W * H)%nat -> args_ok s0 args ->
    exists tr, calls (st k0) args = Ok (tr, st (Nat.min (k0 + length args) (W * H))) /\ length tr = length args /\
      forall i, (i < length args)%nat ->
        if ((k0 + i) <? W * H)%nat then
          fst (nth i tr (false, [])) = true /\ call_good (k0 + i) (fst (nth i args darg)) (snd (nth i tr (false, [])))
        else nth i tr (false, []) = (false, fst (nth i args darg)).
  Proof.
    induction args as [|[smp rn] args IH]; intros k0 Hk AO.
    - exists []. cbn. rewrite Nat.add_0_r, Nat.min_l by auto. repeat split; intros; lia.
    - pose proof (Forall_inv AO) as HD; pose proof (Forall_inv_tail AO) as TL. cbn [fst snd] in HD. destruct HD as [LS RO]. cbn [calls length].
      destruct (Nat.eq_dec k0 (W * H)) as [->|NE].
      + rewrite st_end. cbn [bind]. destruct (IH (W * H)%nat ltac:(lia) TL) as (tr&C&L&N). rewrite C. cbn [bind].
        exists ((false, smp) :: tr). split; [do 2 f_equal; f_equal; lia|]. split; [cbn; lia|].
        intros [|i] Hi.
        * rewrite Nat.add_0_r, Nat.ltb_irrefl. reflexivity.
        * specialize (N i ltac:(lia)). cbn [nth]. destruct (Nat.ltb_spec (W * H + S i) (W * H)); [lia|].
          destruct (Nat.ltb_spec (W * H + i) (W * H)); [lia|]. exact N.
      + destruct (st_step k0 smp rn ltac:(lia) LS RO) as (smp'&G&CG). rewrite G. cbn [bind].
        destruct (IH (S k0) ltac:(lia) TL) as (tr&C&L&N). rewrite C. cbn [bind].
        exists ((true, smp') :: tr). split; [do 2 f_equal; f_equal; lia|]. split; [cbn; lia|].
        intros [|i] Hi.
        * rewrite Nat.add_0_r. destruct (Nat.ltb_spec k0 (W * H)); [|lia]. cbn. auto.
        * specialize (N i ltac:(lia)). cbn [nth]. replace (k0 + S i)%nat with (S k0 + i)%nat by lia. exact N.
  Qed.
  Lemma calls_main args : args_ok s0 args ->
    exists tr s', calls s0 args = Ok (tr, s') /\ length tr = length args /\
      forall i, (i < length args)%nat ->
        if (i <? W * H)%nat then
          fst (nth i tr (false, [])) = true /\ call_good i (fst (nth i args darg)) (snd (nth i tr (false, [])))
        else nth i tr (false, []) = (false, fst (nth i args darg)).
  Proof.
    intros AO. destruct (calls_from args 0 ltac:(lia) AO) as (tr&C&L&N). rewrite st_0 in C. eauto.
  Qed.
End Run.
