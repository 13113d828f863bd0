(** Proofs about triangle meshes. *)
From Coq Require Import Reals Lra Lia List ZArith Bool Psatz.
From Verif Require Import Base M_Geometry S_Geometry P_Geometry M_Transform S_Transform P_Transform P_Transform2
  M_MonteCarlo M_Film M_Shapes S_Shapes P_Quadrics.
Import ListNotations.
Open Scope R_scope.

Lemma get1_nth {A} (l : list A) (i : Z) d : (0 <= i < Z.of_nat (length l))%Z -> get1 l i = Ok (nth (Z.to_nat i) l d).
Proof.
  intros H. unfold get1, np_index.
  replace ((0 <=? i)%Z && (i <? Z.of_nat (length l))%Z) with true by (symmetry; apply andb_true_iff; lia).
  cbn [bind]. rewrite (nth_error_nth' l d) by lia. reflexivity.
Qed.

Ltac ifn hy := match goal with |- (if ?c then _ else _) = _ -> _ => destruct c eqn:hy; [discriminate|] end.
(** Möller-Trumbore: with a non-zero determinant the three numbers are the solution. *)
Definition mt_div (r : ray) (p1 p2 p3 : vec) : R := vdot (vcross (rd r) (vsub p3 p1)) (vsub p2 p1).
Definition mt_b1 (r : ray) (p1 p2 p3 : vec) : R := vdot (vsub (ro r) p1) (vcross (rd r) (vsub p3 p1)) * (1 / mt_div r p1 p2 p3).
Definition mt_b2 (r : ray) (p1 p2 p3 : vec) : R := vdot (rd r) (vcross (vsub (ro r) p1) (vsub p2 p1)) * (1 / mt_div r p1 p2 p3).
Definition mt_t (r : ray) (p1 p2 p3 : vec) : R := vdot (vsub p3 p1) (vcross (vsub (ro r) p1) (vsub p2 p1)) * (1 / mt_div r p1 p2 p3).
Lemma mt_sound r p1 p2 p3 : mt_div r p1 p2 p3 <> 0 ->
  ray_at r (mt_t r p1 p2 p3) =
  vadd (vadd (vscale (1 - mt_b1 r p1 p2 p3 - mt_b2 r p1 p2 p3) p1) (vscale (mt_b1 r p1 p2 p3) p2)) (vscale (mt_b2 r p1 p2 p3) p3).
Proof.
  intros H. unfold mt_t, mt_b1, mt_b2. set (D := mt_div r p1 p2 p3) in *.
  assert (E : D * (1 / D) = 1) by (field; auto). set (i := 1 / D) in *. clearbody i.
  unfold D, mt_div in E.
  destruct r as [[ox oy oz] [dx dy dz] rz mi ma de ti], p1 as [ax ay az], p2 as [bx by' bz], p3 as [cx cy cz].
  unfold ray_at, vadd, vscale, vsub, vdot, vcross, vmap2, vmap in *; cbn in *.
  apply V3_eq; cbn.
  - apply Rminus_diag_uniq; transitivity ((ox - ax) * (1 - ((dy * (cz - az) - dz * (cy - ay)) * (bx - ax) + (dz * (cx - ax) - dx * (cz - az)) * (by' - ay) + (dx * (cy - ay) - dy * (cx - ax)) * (bz - az)) * i)); [ring|rewrite E; ring].
  - apply Rminus_diag_uniq; transitivity ((oy - ay) * (1 - ((dy * (cz - az) - dz * (cy - ay)) * (bx - ax) + (dz * (cx - ax) - dx * (cz - az)) * (by' - ay) + (dx * (cy - ay) - dy * (cx - ax)) * (bz - az)) * i)); [ring|rewrite E; ring].
  - apply Rminus_diag_uniq; transitivity ((oz - az) * (1 - ((dy * (cz - az) - dz * (cy - ay)) * (bx - ax) + (dz * (cx - ax) - dx * (cz - az)) * (by' - ay) + (dx * (cy - ay) - dy * (cx - ax)) * (bz - az)) * i)); [ring|rewrite E; ring].
Qed.
Lemma mt_unique r p1 p2 p3 t b1 b2 : mt_div r p1 p2 p3 <> 0 ->
  ray_at r t = vadd (vadd (vscale (1 - b1 - b2) p1) (vscale b1 p2)) (vscale b2 p3) ->
  t = mt_t r p1 p2 p3 /\ b1 = mt_b1 r p1 p2 p3 /\ b2 = mt_b2 r p1 p2 p3.
Proof.
  intros H. unfold mt_t, mt_b1, mt_b2. set (D := mt_div r p1 p2 p3) in *.
  assert (E : D * (1 / D) = 1) by (field; auto). set (i := 1 / D) in *. clearbody i.
  unfold D, mt_div in E.
  destruct r as [[ox oy oz] [dx dy dz] rz mi ma de ti], p1 as [ax ay az], p2 as [bx by' bz], p3 as [cx cy cz].
  unfold ray_at, vadd, vscale, vsub, vdot, vcross, vmap2, vmap in *; cbn in *.
  intros Q. injection Q as Q1 Q2 Q3.
  assert (X : ox = (1 - b1 - b2) * ax + b1 * bx + b2 * cx - t * dx) by lra.
  assert (Y : oy = (1 - b1 - b2) * ay + b1 * by' + b2 * cy - t * dy) by lra.
  assert (W : oz = (1 - b1 - b2) * az + b1 * bz + b2 * cz - t * dz) by lra.
  clear Q1 Q2 Q3. subst ox oy oz.
  set (G := (dy * (cz - az) - dz * (cy - ay)) * (bx - ax) + (dz * (cx - ax) - dx * (cz - az)) * (by' - ay) +
      (dx * (cy - ay) - dy * (cx - ax)) * (bz - az)) in *.
  split; [|split].
  - transitivity (t * (G * i)); [rewrite E; ring|unfold G; ring].
  - transitivity (b1 * (G * i)); [rewrite E; ring|unfold G; ring].
  - transitivity (b2 * (G * i)); [rewrite E; ring|unfold G; ring].
Qed.
Lemma mt_div_normal r p1 p2 p3 : mt_div r p1 p2 p3 = - vdot (rd r) (tri_normal p1 p2 p3).
Proof.
  unfold mt_div, tri_normal. destruct (rd r), p1, p2, p3.
  unfold vdot, vcross, vsub, vmap2; cbn. ring.
Qed.

(** The three corner reads of a face succeed. *)
Lemma tri_vert_ok b nt nv vi P N S uv al f k : faces_ok vi (length P) -> (3 * f + k < length vi)%nat -> (k < 3)%nat ->
  tri_vert (mesh_make b nt nv vi P N S uv al) (3 * Z.of_nat f) (Z.of_nat k) = Ok (corner (b_o2w b) vi P f k).
Proof.
  intros HF Hl Hk. unfold tri_vert, mesh_make; cbn [m_vi m_p].
  rewrite (get1_nth _ _ 0%Z) by lia. cbn [bind].
  replace (Z.to_nat (3 * Z.of_nat f + Z.of_nat k)) with (3 * f + k)%nat by lia.
  assert (HI : (0 <= nth (3 * f + k) vi 0 < Z.of_nat (length P))%Z).
  { apply (proj1 (Forall_forall _ _) HF). now apply nth_In. }
  rewrite (get1_nth _ _ (t_point (b_o2w b) vzero)) by (rewrite map_length; lia).
  rewrite map_nth. reflexivity.
Qed.
Lemma tri_verts_ok b nt nv vi P N S uv al f : faces_ok vi (length P) -> (3 * f + 2 < length vi)%nat ->
  tri_vert (mesh_make b nt nv vi P N S uv al) (3 * Z.of_nat f) 0 = Ok (corner (b_o2w b) vi P f 0) /\
  tri_vert (mesh_make b nt nv vi P N S uv al) (3 * Z.of_nat f) 1 = Ok (corner (b_o2w b) vi P f 1) /\
  tri_vert (mesh_make b nt nv vi P N S uv al) (3 * Z.of_nat f) 2 = Ok (corner (b_o2w b) vi P f 2).
Proof.
  intros HF Hl. split; [|split].
  - apply (tri_vert_ok b nt nv vi P N S uv al f 0 HF); lia.
  - apply (tri_vert_ok b nt nv vi P N S uv al f 1 HF); lia.
  - apply (tri_vert_ok b nt nv vi P N S uv al f 2 HF); lia.
Qed.
Definition uv_ok (uv : option (list R)) (f : nat) : Prop :=
  match uv with None => True | Some l => (6 * f + 6 <= length l)%nat end.
Lemma tri_uvs_ok b nt nv vi P N S uv al f : uv_ok uv f ->
  exists t, tri_uvs (mesh_make b nt nv vi P N S uv al) (3 * Z.of_nat f) = Ok t.
Proof.
  intros H. unfold tri_uvs, mesh_make; cbn [m_uv]. destruct uv as [l|]; [|eauto]. cbn in H.
  repeat (rewrite (get1_nth _ _ 0) by lia; cbn [bind]). eauto.
Qed.

Section Face.
Variables (b : base) (nt nv : nat) (vi : list Z) (P : list vec) (N S : option (list vec)) (uv : option (list R)).
Variables (al : option (dgeom -> R)) (f : nat) (r : ray).
Hypothesis HF : faces_ok vi (length P).
Hypothesis Hl : (3 * f + 2 < length vi)%nat.
Let m := mesh_make b nt nv vi P N S uv al.
Let p1 := corner (b_o2w b) vi P f 0.
Let p2 := corner (b_o2w b) vi P f 1.
Let p3 := corner (b_o2w b) vi P f 2.
Lemma tri_intersect_unfold : tri_intersect m (3 * Z.of_nat f) r =
  if Reqb (mt_div r p1 p2 p3) 0 then Ok None else
  if Rltb (mt_b1 r p1 p2 p3) 0 || Rltb 1 (mt_b1 r p1 p2 p3) then Ok None else
  if Rltb (mt_b2 r p1 p2 p3) 0 || Rltb 1 (mt_b1 r p1 p2 p3 + mt_b2 r p1 p2 p3) then Ok None else
  let t := mt_t r p1 p2 p3 in
  if eltb (Fin t) (rmint r) || eltb (rmaxt r) (Fin t) then Ok None else
  do uvs <- tri_uvs m (3 * Z.of_nat f);
  let g := tri_dg m p1 p2 p3 (ray_at r t) uvs (mt_b1 r p1 p2 p3) (mt_b2 r p1 p2 p3) in
  if match al with Some f => Reqb (f g) 0 | None => false end then Ok None
  else Ok (Some (mkHit t (0.001 * t) g)).
Proof.
  unfold tri_intersect, m.
  destruct (tri_verts_ok b nt nv vi P N S uv al f HF Hl) as (-> & -> & ->).
  cbn [bind]. fold p1 p2 p3. reflexivity.
Qed.
Lemma tri_intersect_p_unfold : tri_intersect_p m (3 * Z.of_nat f) r =
  match tri_intersect m (3 * Z.of_nat f) r with Ok None => Ok false | Ok (Some _) => Ok true | Err e => Err e end.
Proof.
  rewrite tri_intersect_unfold. unfold tri_intersect_p, m.
  destruct (tri_verts_ok b nt nv vi P N S uv al f HF Hl) as (-> & -> & ->).
  cbn [bind]. fold p1 p2 p3. cbv zeta.
  fold (mt_div r p1 p2 p3). fold (mt_b1 r p1 p2 p3). fold (mt_b2 r p1 p2 p3). fold (mt_t r p1 p2 p3).
  destruct (Reqb _ _); [reflexivity|].
  destruct (_ || _); [reflexivity|]. destruct (_ || _); [reflexivity|]. destruct (_ || _); [reflexivity|].
  destruct (tri_uvs _ _); [|reflexivity]. cbn [bind mesh_make m_alpha].
  match goal with |- context [match ?x with Some _ => _ | None => false end] => destruct x; [destruct (Reqb _ _); reflexivity|reflexivity] end.
Qed.
(** Soundness, for any texture and attribute tables. *)
Lemma tri_hit_sound h : notnan (rmint r) -> notnan (rmaxt r) -> tri_intersect m (3 * Z.of_nat f) r = Ok (Some h) ->
  in_range r (h_t h) /\ in_triangle p1 p2 p3 (ray_at r (h_t h)) /\ dg_p (h_dg h) = ray_at r (h_t h) /\
  (forall t', in_triangle p1 p2 p3 (ray_at r t') -> t' = h_t h).
Proof.
  intros Hm HM. rewrite tri_intersect_unfold.
  destruct (Reqb _ _) eqn:E0; [discriminate|]. Rb.
  ifn K1. ifn K2. cbv zeta. ifn K3.
  destruct (tri_uvs m (3 * Z.of_nat f)) as [uvs|]; cbn [bind]; [|discriminate].
  match goal with |- (if ?c then _ else _) = _ -> _ => destruct c; [discriminate|] end.
  intros H; injection H as <-. cbn [h_t h_dg].
  apply orb_false_iff in K1, K2, K3. destruct K1 as [A1 A2], K2 as [A3 A4], K3 as [A5 A6]. Rb.
  apply eltb_ele in A5; auto. apply eltb_ele in A6; auto.
  split; [split; auto|]. split; [|split].
  - exists (1 - mt_b1 r p1 p2 p3 - mt_b2 r p1 p2 p3), (mt_b1 r p1 p2 p3), (mt_b2 r p1 p2 p3).
    repeat split; try lra. now apply mt_sound.
  - destruct uvs as [[[u0 v0] [u1 v1]] [u2 v2]]. unfold tri_dg.
    destruct (Reqb _ _); [destruct (coordinate_system _) as [[? ?] ?]|]; reflexivity.
  - intros t' (x & y & z & X & Y & W & Q & HQ).
    replace x with (1 - y - z) in HQ by lra. apply mt_unique in HQ; auto. tauto.
Qed.
(** Completeness for opaque meshes. *)
Lemma tri_hit_complete t : al = None -> uv_ok uv f -> notnan (rmint r) -> notnan (rmaxt r) ->
  vdot (rd r) (tri_normal p1 p2 p3) <> 0 -> in_range r t -> in_triangle p1 p2 p3 (ray_at r t) ->
  exists h, tri_intersect m (3 * Z.of_nat f) r = Ok (Some h) /\ h_t h = t.
Proof.
  intros HA HU Hm HM Hd [R1 R2] (x & y & z & X & Y & W & Q & HQ).
  rewrite tri_intersect_unfold.
  assert (D : mt_div r p1 p2 p3 <> 0) by (rewrite mt_div_normal; lra).
  replace x with (1 - y - z) in HQ by lra. apply mt_unique in HQ; auto. destruct HQ as (-> & -> & ->).
  replace (Reqb (mt_div r p1 p2 p3) 0) with false by (symmetry; now apply Reqb_false).
  replace (Rltb (mt_b1 r p1 p2 p3) 0 || Rltb 1 (mt_b1 r p1 p2 p3)) with false
    by (symmetry; apply orb_false_iff; rewrite !Rltb_false; lra).
  replace (Rltb (mt_b2 r p1 p2 p3) 0 || Rltb 1 (mt_b1 r p1 p2 p3 + mt_b2 r p1 p2 p3)) with false
    by (symmetry; apply orb_false_iff; rewrite !Rltb_false; lra).
  cbv zeta.
  replace (eltb (Fin (mt_t r p1 p2 p3)) (rmint r) || eltb (rmaxt r) (Fin (mt_t r p1 p2 p3))) with false
    by (symmetry; apply orb_false_iff; rewrite !eltb_ele; auto).
  destruct (tri_uvs_ok b nt nv vi P N S uv al f HU) as [uvs HUV]. fold m in HUV. rewrite HUV. cbn [bind].
  rewrite HA. eexists; split; reflexivity.
Qed.
End Face.
