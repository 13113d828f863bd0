(** What the levels of a mip map contain. *)
From Coq Require Import Reals List ZArith Bool Lra Lia.
From Verif Require Import Base M_Utility M_Film M_MipMap S_Texture P_Film P_Utility P_MipMap1 P_MipMap2 P_MipMap3 P_MipMap4.
Import ListNotations.
Open Scope R_scope.

Lemma zsum_ext n f g : (forall i, (0 <= i < Z.of_nat n)%Z -> f i = g i) -> zsum n f = zsum n g.
Proof. induction n as [|n IH]; intros H; [reflexivity|]. cbn [zsum]. rewrite IH by (intros; apply H; lia). now rewrite H by lia. Qed.
Lemma zsum_plus n f g : zsum n (fun i => f i + g i) = zsum n f + zsum n g.
Proof. induction n as [|n IH]; cbn [zsum]; [ring|]. rewrite IH. ring. Qed.
Lemma zsum_app n k f : zsum (n + k) f = zsum n f + zsum k (fun i => f (Z.of_nat n + i)%Z).
Proof.
  induction k as [|k IH]; [rewrite Nat.add_0_r; cbn; ring|]. rewrite Nat.add_succ_r. cbn [zsum]. rewrite IH. 
  replace (Z.of_nat (n + k)) with (Z.of_nat n + Z.of_nat k)%Z by lia. ring.
Qed.
Lemma block_split l k p q : block_mean l (S k) p q =
  / 4 * (block_mean l k (2 * p) (2 * q) + block_mean l k (2 * p) (2 * q + 1) + block_mean l k (2 * p + 1) (2 * q) + block_mean l k (2 * p + 1) (2 * q + 1)).
Proof.
  unfold block_mean. cbv zeta. set (n := Nat.pow 2 k). assert (N0 : (0 < n)%nat) by (unfold n; pose proof (Nat.pow_nonzero 2 k); lia).
  replace (2 ^ S k)%nat with (n + n)%nat by (unfold n; cbn; lia).
  assert (I : INR n <> 0) by (apply not_0_INR; lia).
  rewrite !mult_INR, plus_INR.
  set (f := fun i j => pixel l (p * Z.of_nat (n + n) + i) (q * Z.of_nat (n + n) + j)).
  assert (B : forall P Q d e, P = (2 * p + d)%Z -> Q = (2 * q + e)%Z -> zsum n (fun i => zsum n (fun j => pixel l (P * Z.of_nat n + i) (Q * Z.of_nat n + j))) =
              zsum n (fun i => zsum n (fun j => f (d * Z.of_nat n + i)%Z (e * Z.of_nat n + j)%Z))).
  { intros P Q d e -> ->. apply zsum_ext. intros i Hi. apply zsum_ext. intros j Hj. unfold f. f_equal; lia. }
  rewrite (B (2 * p) (2 * q) 0 0)%Z by lia. rewrite (B (2 * p) (2 * q + 1) 0 1)%Z by lia.
  rewrite (B (2 * p + 1) (2 * q) 1 0)%Z by lia. rewrite (B (2 * p + 1) (2 * q + 1) 1 1)%Z by lia.
  assert (T : zsum (n + n) (fun i => zsum (n + n) (fun j => f i j)) =
    zsum n (fun i => zsum n (fun j => f (0 * Z.of_nat n + i)%Z (0 * Z.of_nat n + j)%Z)) + zsum n (fun i => zsum n (fun j => f (0 * Z.of_nat n + i)%Z (1 * Z.of_nat n + j)%Z)) +
    (zsum n (fun i => zsum n (fun j => f (1 * Z.of_nat n + i)%Z (0 * Z.of_nat n + j)%Z)) + zsum n (fun i => zsum n (fun j => f (1 * Z.of_nat n + i)%Z (1 * Z.of_nat n + j)%Z)))).
  { rewrite zsum_app. rewrite <- !zsum_plus. apply zsum_ext; intros i Hi. rewrite !zsum_app. apply (f_equal2 Rplus); apply (f_equal2 Rplus); apply zsum_ext; intros j Hj; f_equal; lia. }
  fold f. match goal with |- ?x / _ = _ => change x with (zsum (n + n) (fun i => zsum (n + n) (fun j => f i j))) end.
  rewrite T. field. split; [exact I|lra].
Qed.
Lemma block_0 l p q : block_mean l 0 p q = pixel l p q.
Proof. unfold block_mean. cbn. rewrite !Z.mul_1_r, !Z.add_0_r. field. Qed.

Section Levels.
Context {m : mip} {l0 : image} {k : Z} (G : good m l0 k k).
Lemma sq_shape i : (Z.of_nat i <= k)%Z -> lshape i (2 ^ k) (2 ^ k) = (2 ^ (k - Z.of_nat i), 2 ^ (k - Z.of_nat i))%Z.
Proof. intros H. pose proof (g_a _ _ _ _ G). rewrite lshape_pow by assumption. rewrite Z.max_r by lia. now destruct (Nat.even i). Qed.
Lemma tx_in w l r c s t : (0 <= s < r)%Z -> (0 <= t < c)%Z -> tx w l r c s t = pixel l s t.
Proof.
  intros S T. destruct w; cbn.
  - rewrite !Z.mod_small by assumption. reflexivity.
  - destruct (_ || _) eqn:Q; [|reflexivity]. exfalso. repeat (apply orb_true_iff in Q as [Q|Q]); lia.
  - unfold zclip. f_equal; lia.
Qed.
Lemma level_blocks i : forall li p q, (Z.of_nat i <= k)%Z -> nth_error (m_pyr m) i = Some li ->
  (0 <= p < 2 ^ (k - Z.of_nat i))%Z -> (0 <= q < 2 ^ (k - Z.of_nat i))%Z ->
  pixel li p q = if Nat.even i then block_mean l0 i p q else block_mean l0 i q p.
Proof.
  induction i as [|i IH]; intros li p q Hk Hi Hp Hq.
  - rewrite (g_0 _ _ _ _ G) in Hi. injection Hi as <-. cbn [Nat.even]. now rewrite block_0.
  - destruct (nth_error (m_pyr m) i) as [lp|] eqn:Hl; [|apply nth_error_None in Hl; assert (nth_error (m_pyr m) (S i) <> None) by congruence; apply nth_error_Some in H; lia].
    destruct (g_lv _ _ _ _ G i lp Hl) as [Sh D]. specialize (D li Hi). rewrite sq_shape in Sh by lia. cbn [fst snd] in Sh.
    destruct (down_ok (m_wrap m) lp _ _ Sh) as (m' & D' & Sh' & P). rewrite D in D'. injection D' as <-.
    rewrite half_pow in P by lia. rewrite Z.max_r in P by lia. replace (k - Z.of_nat i - 1)%Z with (k - Z.of_nat (S i))%Z in P by lia.
    rewrite P by assumption. unfold avg4.
    assert (TW : (2 ^ (k - Z.of_nat i) = 2 * 2 ^ (k - Z.of_nat (S i)))%Z).
    { rewrite <- Z.pow_succ_r by lia. f_equal. lia. }
    rewrite !tx_in by lia.
    rewrite !(IH lp) by (auto; lia).
    rewrite Nat.even_succ, <- Nat.negb_even. destruct (Nat.even i); cbn [negb]; rewrite block_split; ring.
Qed.
End Levels.

(** bilinear lookup at texel centres *)
Lemma bil_centre w l r c i j : shaped l r c -> (0 <= i < r)%Z -> (0 <= j < c)%Z ->
  bil w l r c ((IZR i + / 2) / IZR r) ((IZR j + / 2) / IZR c) = pixel l i j.
Proof.
  intros (R & C & _) Hi Hj. unfold bil. cbv zeta.
  assert (0 < IZR r) by (apply IZR_lt; lia). assert (0 < IZR c) by (apply IZR_lt; lia).
  replace ((IZR i + / 2) / IZR r * IZR r - / 2) with (IZR i) by (field; lra). replace ((IZR j + / 2) / IZR c * IZR c - / 2) with (IZR j) by (field; lra).
  rewrite !Zfloor_IZR. rewrite tx_in by assumption. ring.
Qed.
Lemma bil_one w l s t : shaped l 1 1 -> w <> BLACK -> bil w l 1 1 s t = pixel l 0 0.
Proof.
  intros Sh W. assert (T : forall i j, tx w l 1 1 i j = pixel l 0 0).
  { intros i j. destruct w; [|contradiction|]; cbn; [rewrite !Z.mod_1_r; reflexivity|]. unfold zclip. f_equal; lia. }
  unfold bil. cbv zeta. rewrite !T. ring.
Qed.
Lemma bil_one_black l : shaped l 1 1 -> bil BLACK l 1 1 0 0 = / 4 * pixel l 0 0.
Proof.
  intros Sh. unfold bil. cbv zeta. replace (0 * 1 - / 2) with (- / 2) by ring.
  assert (F : Zfloor (- / 2) = (-1)%Z) by (apply Zfloor_unique; lra). rewrite F. cbn. lra.
Qed.
