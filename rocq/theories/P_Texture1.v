(** Noise: safety, bounds, periodicity, values on the lattice. *)
From Coq Require Import Reals List ZArith Bool Lra Lia.
From Verif Require Import Base M_Geometry M_Utility M_Film M_Texture P_Film P_Utility P_MipMap1.
Import ListNotations.
Open Scope R_scope.

Lemma perm_len : length NOISE_PERM = 512%nat. Proof. reflexivity. Qed.
Lemma perm_vals : List.Forall (fun v => (0 <= v <= 255)%Z) NOISE_PERM.
Proof.
  apply List.Forall_forall. intros v Hv. assert (H : forallb (fun v => (0 <=? v)%Z && (v <=? 255)%Z) NOISE_PERM = true) by (vm_compute; reflexivity).
  rewrite forallb_forall in H. specialize (H v Hv). apply andb_true_iff in H as [A B]. lia.
Qed.
Definition perm (i : Z) : Z := nth (Z.to_nat i) NOISE_PERM 0%Z.
Lemma perm_get i : (0 <= i < 512)%Z -> get1 NOISE_PERM i = Ok (perm i).
Proof. intros H. unfold perm. apply get1_in. rewrite perm_len. lia. Qed.
Lemma perm_range i : (0 <= i < 512)%Z -> (0 <= perm i <= 255)%Z.
Proof. intros H. apply (proj1 (List.Forall_forall _ _) perm_vals). apply nth_In. rewrite perm_len. lia. Qed.
Lemma perm_period i : (0 <= i < 256)%Z -> perm (i + 256) = perm i.
Proof.
  intros H. assert (Q : forallb (fun k => Z.eqb (perm (Z.of_nat k + 256)) (perm (Z.of_nat k))) (seq 0 256) = true) by (vm_compute; reflexivity).
  rewrite forallb_forall in Q. specialize (Q (Z.to_nat i)). rewrite Z2Nat.id in Q by lia. apply Z.eqb_eq, Q. apply in_seq. lia.
Qed.
(** the hash of a lattice point and the gradient it selects *)
Definition hash (x y z : Z) : Z := Z.land (perm (perm (perm x + y) + z)) 15.
Definition gradv (h : Z) (dx dy dz : R) : R :=
  let u := if (h <? 8)%Z || (h =? 12)%Z || (h =? 13)%Z then dx else dy in
  let v := if (h <? 4)%Z || (h =? 12)%Z || (h =? 13)%Z then dy else dz in
  (if negb (Z.land h 1 =? 0)%Z then -1 else u) + (if negb (Z.land h 2 =? 0)%Z then - v else v).
Lemma grad_ok x y z dx dy dz : (0 <= x <= 256)%Z -> (0 <= y <= 256)%Z -> (0 <= z <= 256)%Z ->
  grad x y z dx dy dz = Ok (gradv (hash x y z) dx dy dz).
Proof.
  intros X Y Z0. unfold grad. rewrite perm_get by lia. cbn [bind]. pose proof (perm_range x ltac:(lia)).
  rewrite perm_get by lia. cbn [bind]. pose proof (perm_range (perm x + y) ltac:(lia)). rewrite perm_get by lia. reflexivity.
Qed.
Lemma abs1 x : Rabs x <= 1 <-> -1 <= x <= 1.
Proof. split; [intros H; unfold Rabs in H; destruct Rcase_abs; lra|intros H; apply Rabs_le; lra]. Qed.
Lemma gradv_bound h dx dy dz : -1 <= dx <= 1 -> -1 <= dy <= 1 -> -1 <= dz <= 1 -> -2 <= gradv h dx dy dz <= 2.
Proof. intros X Y Z0. unfold gradv. cbv zeta. repeat match goal with |- context [if ?b then _ else _] => destruct b end; lra. Qed.
Lemma wt_range d : 0 <= d <= 1 -> 0 <= noise_wt d <= 1.
Proof.
  intros H. unfold noise_wt. split.
  - apply Rmult_le_pos; [|nra]. apply Rmult_le_pos; [|lra]. nra.
  - assert (Q : 1 - d * d * d * (10 - 15 * d + 6 * d * d) = (1 - d) * (1 - d) * (1 - d) * (6 * d * d + 3 * d + 1)) by ring.
    assert (0 <= (1 - d) * (1 - d) * (1 - d) * (6 * d * d + 3 * d + 1)); [|lra].
    apply Rmult_le_pos; [|nra]. apply Rmult_le_pos; [|lra]. nra.
Qed.
Lemma lerp_in t x y lo hi : 0 <= t <= 1 -> lo <= x <= hi -> lo <= y <= hi -> lo <= M_Utility.lerp t x y <= hi.
Proof. intros T X Y. unfold M_Utility.lerp. split; nra. Qed.

(** the value of noise in a cell *)
Definition cell (xi yi zi : Z) (dx dy dz : R) : R :=
  let g i j k := gradv (hash (xi + i) (yi + j) (zi + k)) (dx - IZR i) (dy - IZR j) (dz - IZR k) in
  let wx := noise_wt dx in let wy := noise_wt dy in let wz := noise_wt dz in
  let x00 := M_Utility.lerp wx (g 0 0 0)%Z (g 1 0 0)%Z in let x10 := M_Utility.lerp wx (g 0 1 0)%Z (g 1 1 0)%Z in
  let x01 := M_Utility.lerp wx (g 0 0 1)%Z (g 1 0 1)%Z in let x11 := M_Utility.lerp wx (g 0 1 1)%Z (g 1 1 1)%Z in
  M_Utility.lerp wz (M_Utility.lerp wy x00 x10) (M_Utility.lerp wz x01 x11).
Lemma land255 z : Z.land z 255 = (z mod 256)%Z.
Proof. change 255%Z with (Z.ones 8). rewrite Z.land_ones by lia. reflexivity. Qed.
Lemma noise_ok p : noise p = Ok (cell (Zfloor (vx p) mod 256) (Zfloor (vy p) mod 256) (Zfloor (vz p) mod 256)
  (vx p - IZR (Zfloor (vx p))) (vy p - IZR (Zfloor (vy p))) (vz p - IZR (Zfloor (vz p)))).
Proof.
  unfold noise, ftoi, NOISE_PERM_SIZE. cbv zeta. change (256 - 1)%Z with 255%Z. rewrite !land255.
  pose proof (Z.mod_pos_bound (Zfloor (vx p)) 256 ltac:(lia)). pose proof (Z.mod_pos_bound (Zfloor (vy p)) 256 ltac:(lia)).
  pose proof (Z.mod_pos_bound (Zfloor (vz p)) 256 ltac:(lia)).
  rewrite !grad_ok by lia. cbn [bind]. unfold cell. cbv zeta. rewrite !Z.add_0_r, !Rminus_0_r. reflexivity.
Qed.
Lemma cell_bound xi yi zi dx dy dz : 0 <= dx <= 1 -> 0 <= dy <= 1 -> 0 <= dz <= 1 -> -2 <= cell xi yi zi dx dy dz <= 2.
Proof.
  intros X Y Z0. unfold cell. cbv zeta. pose proof (wt_range dx X). pose proof (wt_range dy Y). pose proof (wt_range dz Z0).
  repeat (apply lerp_in; [assumption| |]); apply gradv_bound; lra.
Qed.
Lemma noise_bound p : exists v, noise p = Ok v /\ -2 <= v <= 2.
Proof.
  eexists. split; [apply noise_ok|]. destruct (Zfloor_spec (vx p)), (Zfloor_spec (vy p)), (Zfloor_spec (vz p)). apply cell_bound; lra.
Qed.
Lemma floor_add x k : Zfloor (x + IZR k) = (Zfloor x + k)%Z.
Proof. apply Zfloor_unique. rewrite plus_IZR. destruct (Zfloor_spec x). lra. Qed.
Lemma noise_period p i j k : noise (vadd p (mkV (256 * IZR i) (256 * IZR j) (256 * IZR k))) = noise p.
Proof.
  rewrite !noise_ok. unfold vadd, vmap2. cbn [vx vy vz].
  assert (F : forall x i, Zfloor (x + 256 * IZR i) = (Zfloor x + i * 256)%Z).
  { intros x i'. rewrite <- mult_IZR, floor_add. lia. }
  rewrite !F. rewrite !Z_mod_plus_full, !plus_IZR, !mult_IZR. do 2 f_equal; ring.
Qed.
Lemma wt0 : noise_wt 0 = 0. Proof. unfold noise_wt. ring. Qed.
Lemma cell_lattice x y z : cell x y z 0 0 0 = 0 \/ cell x y z 0 0 0 = -1.
Proof.
  assert (Q : cell x y z 0 0 0 = gradv (hash x y z) 0 0 0).
  { unfold cell, M_Utility.lerp. cbv zeta. rewrite wt0, !Z.add_0_r, !Rminus_0_r. ring. }
  rewrite Q. unfold gradv. cbv zeta. repeat match goal with |- context [if ?b then _ else _] => destruct b end; lra.
Qed.
Lemma noise_lattice i j k : noise (mkV (IZR i) (IZR j) (IZR k)) = Ok 0 \/ noise (mkV (IZR i) (IZR j) (IZR k)) = Ok (-1).
Proof.
  rewrite noise_ok. cbn [vx vy vz]. rewrite !Zfloor_IZR. replace (IZR i - IZR i) with 0 by ring. replace (IZR j - IZR j) with 0 by ring.
  replace (IZR k - IZR k) with 0 by ring. destruct (cell_lattice (i mod 256) (j mod 256) (k mod 256)) as [-> | ->]; auto.
Qed.
