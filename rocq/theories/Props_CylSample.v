(** C205: area sampling of cylinders is uniform and reaches every point *)
From Coq Require Import Reals Lra Lia List Bool ZArith.
From Coquelicot Require Import Coquelicot.
From Verif Require Import Base M_Geometry M_Transform M_Utility M_Shapes S_Geometry S_Transform S_Shapes P_Geometry P_Quadrics P_ShapesMore S_Area P_Area Props_Shapes.
Import ListNotations.
Local Open Scope R_scope.

(** The points sampled with u1 <= b and u2 <= a are the patch of the cylinder up to those parameters, and its area is the share a * b of
    the area that [area()] reports: equal areas are sampled equally often. *)
Theorem C205_uniform (c : cylinder) (a b : R) : 0 <= cy_r c -> 0 < cy_phimax c -> cy_zmin c < cy_zmax c -> 0 <= a <= 1 -> 0 <= b <= 1 ->
  patch_covers (cyl (cy_r c)) 0 (a * cy_phimax c) (cy_zmin c) (cy_zmin c + b * (cy_zmax c - cy_zmin c))
    (fun q => exists u1 u2, 0 <= u1 <= b /\ 0 <= u2 <= a /\ q = cylinder_sample_obj c u1 u2) /\
  patch_area (cyl (cy_r c)) 0 (a * cy_phimax c) (cy_zmin c) (cy_zmin c + b * (cy_zmax c - cy_zmin c)) (a * b * cylinder_area c).
Proof.
  intros Hr Hp Hz Ha Hb. split.
  - intros q. split.
    + intros (u1 & u2 & H1 & H2 & ->). exists (u2 * cy_phimax c), (cy_zmin c + u1 * (cy_zmax c - cy_zmin c)).
      split; [split; [nra|apply Rmult_le_compat_r; lra]|split; [split; nra|]].
      unfold cylinder_sample_obj, cyl, M_Geometry.lerp, M_Utility.lerp. apply V3_eq; cbn [vx vy vz]; try reflexivity. ring.
    + intros (u & v & Hu & Hv & ->). exists ((v - cy_zmin c) / (cy_zmax c - cy_zmin c)), (u / cy_phimax c).
      split; [|split].
      * split; [apply Rdiv_le_0_compat; lra|]. apply Rmult_le_reg_r with (cy_zmax c - cy_zmin c); [lra|].
        replace ((v - cy_zmin c) / (cy_zmax c - cy_zmin c) * (cy_zmax c - cy_zmin c)) with (v - cy_zmin c) by (field; lra). lra.
      * split; [apply Rdiv_le_0_compat; lra|]. apply Rmult_le_reg_r with (cy_phimax c); [lra|].
        replace (u / cy_phimax c * cy_phimax c) with u by (field; lra). lra.
      * unfold cylinder_sample_obj, cyl, M_Geometry.lerp, M_Utility.lerp. replace (u / cy_phimax c * cy_phimax c) with u by (field; lra). apply V3_eq; cbn [vx vy vz]; try reflexivity. field; lra.
  - replace (a * b * cylinder_area c) with (a * cy_phimax c * (cy_r c * (cy_zmin c + b * (cy_zmax c - cy_zmin c) - cy_zmin c)));
      [now apply cyl_area|unfold cylinder_area; ring].
Qed.
Print Assumptions C205_uniform.

(** Every point of the cylinder is sampled by some pair of numbers in [0,1]. *)
Theorem C205_onto (b : base) (rad z0 z1 pm : R) (q : vec) : 0 <= rad -> z0 <> z1 -> 0 < pm ->
  let c := cylinder_fields b rad z0 z1 pm in
  on_cylinder rad (Rmin z0 z1) (Rmax z0 z1) (phi_max_of pm) q <->
  exists u1 u2, 0 <= u1 <= 1 /\ 0 <= u2 <= 1 /\ q = cylinder_sample_obj c u1 u2.
Proof.
  intros Hr Hz Hp c. split.
  - intros H. assert (Hlt : pmin z0 z1 < pmax z0 z1) by (unfold pmin, pmax; Rcase; lra).
    assert (P0 : 0 < phi_max_of pm).
    { unfold phi_max_of, deg2rad. pose proof PI_RGT_0. assert (0 < clip pm 0 360) by (unfold clip, Rmin, Rmax; repeat destruct Rle_dec; lra). nra. }
    destruct (C205_uniform c 1 1) as [Cv _]; try (unfold c, cylinder_fields; cbn [cy_r cy_phimax cy_zmin cy_zmax]; lra).
    apply (proj2 (Cv q)). rewrite <- pmin_Rmin, <- pmax_Rmax in H.
    destruct (proj1 (cyl_covers rad (pmin z0 z1) (pmax z0 z1) (phi_max_of pm) Hr q) H) as (u & v & A & B & E).
    exists u, v. unfold c, cylinder_fields; cbn [cy_r cy_phimax cy_zmin cy_zmax]. repeat split; lra || exact E.
  - intros (u1 & u2 & A & B & ->). now apply C205_cylinder_sample.
Qed.
Print Assumptions C205_onto.
Example C205_onto_ex : 0 <= 2 /\ (-1) <> 1 /\ 0 < 90. Proof. repeat split; lra. Qed.
