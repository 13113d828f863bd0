(** Property theorems C276 (media and the other aggregates) and a further part of C66.  Vocabulary: S_BVH.v,
    S_Aggregate.v. *)
From Coq Require Import Reals Lra Lia List ZArith Bool.
From Verif Require Import Base M_Geometry S_Geometry P_Geometry M_BVH S_BVH P_BVHWit M_Aggregate S_Aggregate P_Aggregate P_Grid P_GridWalk M_Aggregate2 P_Aggregate2 P_GridWalk2 P_SceneBound.
Import ListNotations.
Local Open Scope R_scope.

(** C66: what the grid does find.  A ray that starts in the bounding box of a primitive it goes on to hit is reported
    to hit something, no farther than that primitive; the reported primitive really is hit at the reported parameter. *)
Theorem C66_starts_in_box_partial bounds g surf pi r0 m fuel i t :
  Forall (fun b => vle (fst b) (snd b)) bounds -> grid_make bounds = Ok g -> (192 <= fuel)%nat ->
  rmint r0 = Fin m -> notnan (rmaxt r0) -> nearest_contract surf pi r0 ->
  (i < length bounds)%nat -> between (fst (nth i bounds (vzero, vzero))) (ray_at r0 m) (snd (nth i bounds (vzero, vzero))) ->
  surf i t -> m <= t -> ele (Fin t) (rmaxt r0) ->
  exists j t', grid_intersect fuel g pi r0 = Ok (Some (ray_set_maxt r0 (Fin t'), Some j)) /\ t' <= t /\
    (j < length bounds)%nat /\ surf j t' /\ m <= t'.
Proof. exact (grid_first_voxel bounds g surf pi r0 m fuel i t). Qed.
Print Assumptions C66_starts_in_box_partial.

(** the witness scene: two boxes 2 apart on the x axis; a ray from the middle of the first one meets it at 1/4 *)
Definition in_ray : ray := mkRay (mkV (/4) (/2) (/2)) (mkV 1 0 0) (mkV false false false) (Fin 0) PInf 0%Z 0.
Definition in_f (i : nat) : option R := if (i =? 0)%nat then Some (/4) else None.
Definition fog : box := fbox (mkV (-10) 0 0) (mkV (-9) 1 1).

Lemma wit_ordered : Forall (fun b => vle (fst b) (snd b)) wit_bounds.
Proof. unfold wit_bounds, vle. repeat constructor; cbn; lra. Qed.
Lemma wit_grid : exists g, grid_make wit_bounds = Ok g.
Proof.
  apply (grid_make_total wit_bounds wit_ordered). split; [discriminate|]. unfold agg_lo, agg_hi. rewrite wit_agg. cbn. intros E. injection E. lra.
Qed.
Lemma in_within : within_bounds (pts_surf in_f) (fun i => nth i wit_bounds (vzero, vzero)) in_ray 2.
Proof.
  intros i t Hi Hs. unfold pts_surf, in_f in Hs. destruct (Nat.eqb_spec i 0) as [->|]; [|discriminate]. injection Hs as <-.
  cbn. unfold between, vle; cbn. lra.
Qed.
Example C66_starts_ex : exists g, grid_make wit_bounds = Ok g /\
  nearest_contract (pts_surf in_f) (pts_pi in_f) in_ray /\
  between (fst (nth 0 wit_bounds (vzero, vzero))) (ray_at in_ray 0) (snd (nth 0 wit_bounds (vzero, vzero))) /\ pts_surf in_f 0 (/4).
Proof.
  destruct wit_grid as [g G]. exists g. split; [exact G|]. split; [apply pts_contract|]. split; [|reflexivity].
  cbn. unfold between, vle; cbn. lra.
Qed.

(** C66: a family of rays for which the walk is right.  If every component of the direction is 1, or +0 while the
    coordinate of the origin is negative there (so for rays along the positive axes through scenes at negative other
    coordinates, and for diagonal rays), the grid reports the nearest hit, wherever the ray starts, unless a hit lies
    exactly on a far face of the grid's box while the ray moves along two axes. *)
Theorem C66_unit_steps_partial bounds g surf pi r0 m fuel :
  Forall (fun b => vle (fst b) (snd b)) bounds -> grid_make bounds = Ok g -> (192 <= fuel)%nat ->
  rmint r0 = Fin m -> 0 <= m -> notnan (rmaxt r0) -> unit_steps r0 ->
  within_bounds surf (fun i => nth i bounds (vzero, vzero)) r0 (length bounds) ->
  (forall i t, (i < length bounds)%nat -> surf i t -> ele (rmint r0) (Fin t) -> ele (Fin t) (rmaxt r0) -> off_far_edges bounds r0 t) ->
  nearest_contract surf pi r0 ->
  exists r' hit, grid_intersect fuel g pi r0 = Ok (Some (r', hit)) /\
    match hit with
    | None => r' = r0 /\ forall i, (i < length bounds)%nat -> ~ meets surf r0 i
    | Some j => (j < length bounds)%nat /\ exists t, r' = ray_set_maxt r0 (Fin t) /\ surf j t /\ nearest_param surf (length bounds) r0 t
    end.
Proof. intros HV HG Hf Hm M0 HN HU HW HE. exact (grid_finds bounds g surf r0 m fuel HV HG Hf Hm M0 HN HU HW HE pi). Qed.
Print Assumptions C66_unit_steps_partial.
Theorem C66_unit_steps_any_partial bounds g surf pp r0 m fuel :
  Forall (fun b => vle (fst b) (snd b)) bounds -> grid_make bounds = Ok g -> (192 <= fuel)%nat ->
  rmint r0 = Fin m -> 0 <= m -> unit_steps r0 ->
  within_bounds surf (fun i => nth i bounds (vzero, vzero)) r0 (length bounds) ->
  (forall i t, (i < length bounds)%nat -> surf i t -> ele (rmint r0) (Fin t) -> ele (Fin t) (rmaxt r0) -> off_far_edges bounds r0 t) ->
  any_contract surf pp r0 ->
  exists b, grid_intersect_p fuel g pp r0 = Ok (Some b) /\ (b = true <-> exists i, (i < length bounds)%nat /\ meets surf r0 i).
Proof. intros HV HG Hf Hm M0 HU HW HE. exact (grid_finds_any bounds g surf r0 m fuel HV HG Hf Hm M0 HU HW HE pp). Qed.
Print Assumptions C66_unit_steps_any_partial.
(** two boxes 2 apart; a ray along the x axis from outside meets the second *)
Definition neg_bounds : list (vec * vec) := [(mkV 0 (-2) (-2), mkV (/2) (-1) (-1)); (mkV (5/2) (-2) (-2), mkV 3 (-1) (-1))].
Definition neg_ray : ray := mkRay (mkV (-1) (-3/2) (-3/2)) (mkV 1 0 0) (mkV false false false) (Fin 0) PInf 0%Z 0.
Definition neg_f (i : nat) : option R := if (i =? 1)%nat then Some (19/5) else None.
Example C66_unit_steps_ex : exists g, grid_make neg_bounds = Ok g /\ Forall (fun b => vle (fst b) (snd b)) neg_bounds /\ unit_steps neg_ray /\
  within_bounds (pts_surf neg_f) (fun i => nth i neg_bounds (vzero, vzero)) neg_ray (length neg_bounds) /\
  (forall i t, (i < length neg_bounds)%nat -> pts_surf neg_f i t -> ele (rmint neg_ray) (Fin t) -> ele (Fin t) (rmaxt neg_ray) -> off_far_edges neg_bounds neg_ray t) /\
  nearest_contract (pts_surf neg_f) (pts_pi neg_f) neg_ray /\ meets (pts_surf neg_f) neg_ray 1.
Proof.
  assert (O : Forall (fun b => vle (fst b) (snd b)) neg_bounds) by (unfold neg_bounds, vle; repeat constructor; cbn; lra).
  assert (A : agg_bounds neg_bounds = fbox (mkV 0 (-2) (-2)) (mkV 3 (-1) (-1))).
  { unfold agg_bounds, neg_bounds, fbox, vmap; cbn. unfold union_bb, vmap2, emin, emax; cbn. rdec. reflexivity. }
  assert (G : exists g, grid_make neg_bounds = Ok g).
  { apply (grid_make_total neg_bounds O). split; [discriminate|]. unfold agg_lo, agg_hi. rewrite A. cbn. intros E. injection E. lra. }
  destruct G as [g G]. exists g. split; [exact G|]. split; [exact O|]. split; [|split; [|split; [|split]]].
  - intros k Hk. destruct k as [|[|[|]]]; [| | |lia]; cbn; [left; reflexivity|right; split; [reflexivity|split; [reflexivity|lra]]..].
  - intros i t Hi Hs. unfold pts_surf, neg_f in Hs. destruct (Nat.eqb_spec i 1) as [->|]; [|discriminate]. injection Hs as <-. cbn. unfold between, vle; cbn. lra.
  - intros i t _ _ _ _ k j Hk Hj NE D1 D2. exfalso. destruct k as [|[|[|]]]; try lia; destruct j as [|[|[|]]]; try lia; cbn in *; lra.
  - apply pts_contract.
  - exists (19/5). split; [reflexivity|]. split; [apply ele_Fin; lra|reflexivity].
Qed.

(** C276: adding a medium to a scene over the exhaustive aggregate changes no query: the same hit flag, the same range
    and the same record, for every box the medium may have *)
Theorem C276_simple_partial bounds surf pi r0 (vlo vhi : vec) :
  bounds <> [] -> Forall (fun b => vle (fst b) (snd b)) bounds -> vle vlo vhi ->
  let '(b, s') := scene_simple (simple_make bounds) (Some (fbox vlo vhi)) in
  ray_face_ok (agg_lo bounds) (agg_hi bounds) r0 -> ray_face_ok (vmap corner (bmin b)) (vmap corner (bmax b)) r0 ->
  notnan (rmint r0) -> notnan (rmaxt r0) ->
  within_bounds surf (fun i => nth i bounds (vzero, vzero)) r0 (length bounds) ->
  nearest_contract surf pi r0 ->
  simple_query pi s' r0 = simple_query pi (simple_make bounds) r0.
Proof.
  intros NE HV Hv. destruct (scene_simple _ _) as [b s'] eqn:ES. intros HF HF' HN1 HN2 HW HC.
  cbn [scene_simple simple_make s_bounds s_n] in ES.
  destruct (agg_bounds_finite bounds NE) as [EB F].
  assert (EU : union_bb (agg_bounds bounds) (fbox vlo vhi) = fbox (vmap2 Rmin (agg_lo bounds) vlo) (vmap2 Rmax (agg_hi bounds) vhi)).
  { rewrite EB. apply union_fbox. }
  rewrite EU in ES. injection ES as <- <-.
  assert (HVV : vle (agg_lo bounds) (agg_hi bounds)).
  { destruct bounds as [|b0 bs]; [congruence|]. destruct (F (fst b0) (snd b0)) as [A B]; [left; now destruct b0|].
    apply Forall_inv in HV. unfold vle in *. lra. }
  cbn [fbox bmin bmax] in HF'.
  assert (EC : forall v, vmap corner (vmap Fin v) = v) by (intros []; reflexivity). rewrite !EC in HF'.
  set (lo := vmap2 Rmin _ _) in *. set (hi := vmap2 Rmax _ _) in *.
  assert (LL : vle lo (agg_lo bounds) /\ vle (agg_hi bounds) hi).
  { unfold vle, lo, hi, vmap2. cbn [vx vy vz]. repeat split; first [apply Rmin_l|apply Rmax_l]. }
  assert (BL : forall p, between (agg_lo bounds) p (agg_hi bounds) -> between lo p hi).
  { intros p [A B]. unfold between, vle in *. lra. }
  assert (W : forall i t, (i < length bounds)%nat -> surf i t -> between (agg_lo bounds) (ray_at r0 t) (agg_hi bounds)).
  { intros i t Hi Hs. eapply between_agg; [exact Hi|]. now apply HW. }
  destruct (simple_query pi (mkSimple (length bounds) (fbox lo hi)) r0) as [[a1 r1] c1] eqn:E1.
  destruct (simple_query pi (simple_make bounds) r0) as [[a2 r2] c2] eqn:E2.
  apply (same_outcome surf (length bounds) r0).
  - assert (VL : vle lo hi) by (unfold vle in *; lra).
    exact (box_main surf r0 (length bounds) lo hi VL HF' HN1 HN2 (fun i t Hi Hs => BL _ (W i t Hi Hs)) pi _ eq_refl HC _ _ _ E1).
  - exact (box_main surf r0 (length bounds) (agg_lo bounds) (agg_hi bounds) HVV HF HN1 HN2 W pi _ EB HC _ _ _ E2).
Qed.
Print Assumptions C276_simple_partial.
Theorem C276_simple_any_partial bounds surf pp r0 (vlo vhi : vec) :
  bounds <> [] -> Forall (fun b => vle (fst b) (snd b)) bounds -> vle vlo vhi ->
  let '(b, s') := scene_simple (simple_make bounds) (Some (fbox vlo vhi)) in
  ray_face_ok (agg_lo bounds) (agg_hi bounds) r0 -> ray_face_ok (vmap corner (bmin b)) (vmap corner (bmax b)) r0 ->
  notnan (rmint r0) -> notnan (rmaxt r0) ->
  within_bounds surf (fun i => nth i bounds (vzero, vzero)) r0 (length bounds) ->
  any_contract surf pp r0 ->
  simple_query_p pp s' r0 = simple_query_p pp (simple_make bounds) r0.
Proof.
  intros NE HV Hv. destruct (scene_simple _ _) as [b s'] eqn:ES. intros HF HF' HN1 HN2 HW HC.
  cbn [scene_simple simple_make s_bounds s_n] in ES.
  destruct (agg_bounds_finite bounds NE) as [EB F].
  assert (EU : union_bb (agg_bounds bounds) (fbox vlo vhi) = fbox (vmap2 Rmin (agg_lo bounds) vlo) (vmap2 Rmax (agg_hi bounds) vhi)).
  { rewrite EB. apply union_fbox. }
  rewrite EU in ES. injection ES as <- <-.
  assert (HVV : vle (agg_lo bounds) (agg_hi bounds)).
  { destruct bounds as [|b0 bs]; [congruence|]. destruct (F (fst b0) (snd b0)) as [A B]; [left; now destruct b0|].
    apply Forall_inv in HV. unfold vle in *. lra. }
  cbn [fbox bmin bmax] in HF'.
  assert (EC : forall v, vmap corner (vmap Fin v) = v) by (intros []; reflexivity). rewrite !EC in HF'.
  set (lo := vmap2 Rmin _ _) in *. set (hi := vmap2 Rmax _ _) in *.
  assert (LL : vle lo (agg_lo bounds) /\ vle (agg_hi bounds) hi).
  { unfold vle, lo, hi, vmap2. cbn [vx vy vz]. repeat split; first [apply Rmin_l|apply Rmax_l]. }
  assert (BL : forall p, between (agg_lo bounds) p (agg_hi bounds) -> between lo p hi).
  { intros p [A B]. unfold between, vle in *. lra. }
  assert (W : forall i t, (i < length bounds)%nat -> surf i t -> between (agg_lo bounds) (ray_at r0 t) (agg_hi bounds)).
  { intros i t Hi Hs. eapply between_agg; [exact Hi|]. now apply HW. }
  assert (VL : vle lo hi) by (unfold vle in *; lra).
  pose proof (box_p_main surf r0 (length bounds) lo hi VL HF' HN1 HN2 (fun i t Hi Hs => BL _ (W i t Hi Hs)) pp _ eq_refl HC) as A.
  pose proof (box_p_main surf r0 (length bounds) (agg_lo bounds) (agg_hi bounds) HVV HF HN1 HN2 W pp _ EB HC) as B.
  unfold simple_make. destruct (simple_query_p pp (mkSimple _ (fbox lo hi)) r0), (simple_query_p pp (mkSimple _ (agg_bounds bounds)) r0); auto; exfalso.
  - assert (false = true) by (apply B, A; reflexivity). discriminate.
  - assert (false = true) by (apply A, B; reflexivity). discriminate.
Qed.
Print Assumptions C276_simple_any_partial.
(** over the grid the queries stay safe: they terminate, never leave the voxel array and report only real hits *)
Theorem C276_grid_sound_partial bounds g surf pi pp r0 m fuel (vb : option box) :
  Forall (fun b => vle (fst b) (snd b)) bounds -> grid_make bounds = Ok g -> (192 <= fuel)%nat ->
  rmint r0 = Fin m -> notnan (rmaxt r0) -> nearest_contract surf pi r0 -> any_contract surf pp r0 ->
  (exists r' hit, grid_intersect fuel (snd (scene_grid g vb)) pi r0 = Ok (Some (r', hit)) /\
    match hit with
    | None => r' = r0
    | Some i => (i < length bounds)%nat /\ exists t, r' = ray_set_maxt r0 (Fin t) /\ surf i t /\
        ele (rmint r0) (Fin t) /\ ele (Fin t) (rmaxt r0)
    end) /\
  exists b, grid_intersect_p fuel (snd (scene_grid g vb)) pp r0 = Ok (Some b) /\
    (b = true -> exists i, (i < length bounds)%nat /\ meets surf r0 i).
Proof.
  intros. split; [now apply (enlarged_sound bounds g surf pi r0 m fuel vb)|now apply (enlarged_p_sound bounds g surf pp r0 m fuel vb)].
Qed.
Print Assumptions C276_grid_sound_partial.
(** but hits get lost: without the medium the ray finds the box it starts in; a medium far away on the left shifts the
    voxels the rays are looked up in, and the same ray finds nothing *)
Theorem C276_grid_refuted : exists g,
  grid_make wit_bounds = Ok g /\
  within_bounds (pts_surf in_f) (fun i => nth i wit_bounds (vzero, vzero)) in_ray 2 /\
  nearest_contract (pts_surf in_f) (pts_pi in_f) in_ray /\
  (forall fuel, (192 <= fuel)%nat -> grid_intersect fuel (snd (scene_grid g None)) (pts_pi in_f) in_ray =
     Ok (Some (ray_set_maxt in_ray (Fin (/4)), Some 0%nat))) /\
  (forall fuel, (1 <= fuel)%nat -> grid_intersect fuel (snd (scene_grid g (Some fog))) (pts_pi in_f) in_ray = Ok (Some (in_ray, None))).
Proof.
  destruct wit_grid as [g HG]. pose proof wit_ordered as HV. exists g. split; [exact HG|]. split; [exact in_within|].
  destruct (pts_contract in_f in_ray) as [HC _]. split; [exact HC|]. split.
  - intros fuel Hf. cbn [scene_grid snd].
    destruct (grid_first_voxel wit_bounds g (pts_surf in_f) (pts_pi in_f) in_ray 0 fuel 0 (/4) HV HG Hf eq_refl ltac:(discriminate) HC) as (j & t' & E0 & _ & Hj & Hs & _).
    + cbn; lia.
    + cbn. unfold between, vle; cbn. lra.
    + reflexivity.
    + lra.
    + reflexivity.
    + rewrite E0. unfold pts_surf, in_f in Hs. destruct (Nat.eqb_spec j 0) as [->|]; [|discriminate]. now injection Hs as <-.
  - intros fuel Hf. destruct fuel as [|fuel]; [lia|].
    pose proof (wit_nv g HG) as NV.
    destruct (grid_make_spec wit_bounds g HV HG) as (RN&VL&EL&EH&WD&IW&MEM&_).
    assert (LO : g_lo g = mkV 0 0 0) by (rewrite EL; unfold agg_lo; now rewrite wit_agg).
    assert (HI : g_hi g = mkV 3 1 1) by (rewrite EH; unfold agg_hi; now rewrite wit_agg).
    assert (W : g_w g = mkV 1 1 1).
    { pose proof (WD 0%nat ltac:(lia)) as (_&W0&_). pose proof (WD 1%nat ltac:(lia)) as (_&W1&_).
      pose proof (WD 2%nat ltac:(lia)) as (_&W2&_). rewrite LO, HI, NV in *. cbn in W0, W1, W2. apply V3_eq; cbn; lra. }
    assert (IW1 : g_iw g = mkV 1 1 1).
    { rewrite IW, W. unfold vmap, inv_width; cbn. rdec. replace (1 / 1) with 1 by field. reflexivity. }
    assert (V0 : valid_voxel g 2 0 0) by (unfold valid_voxel; rewrite NV; cbn; lia).
    assert (P0 : forall i, In i (voxel_prims g 2 0 0) -> i = 1%nat).
    { intros i Hi. apply MEM in Hi; auto. destruct Hi as (Hi&p&Bp&Vp). cbn in Hi.
      destruct i as [|[|]]; [|reflexivity|lia]. exfalso. cbn in Bp. unfold between, vle in Bp. cbn in Bp.
      unfold in_voxel, in_cell in Vp. rewrite LO, W, NV in Vp. cbn in Vp. lra. }
    unfold scene_grid, fog. rewrite LO, HI, union_fbox. cbn [snd fbox bmin bmax].
    assert (EC : forall v, vmap corner (vmap Fin v) = v) by (intros []; reflexivity). rewrite !EC.
    replace (vmap2 Rmin (mkV 0 0 0) (mkV (-10) 0 0)) with (mkV (-10) 0 0)
      by (unfold vmap2; cbn [vx vy vz]; rewrite !Rmin_right by lra; reflexivity).
    replace (vmap2 Rmax (mkV 3 1 1) (mkV (-9) 1 1)) with (mkV 3 1 1)
      by (unfold vmap2; cbn [vx vy vz]; rewrite !Rmax_left by lra; reflexivity).
    rewrite NV, W, IW1.
    set (g' := mkGrid _ _ _ _ _ _).
    unfold grid_intersect. cbn [rmint in_ray]. fold in_ray. cbv zeta. cbn [g_lo g_hi g'].
    replace (inside (fbox (mkV (-10) 0 0) (mkV 3 1 1)) (ray_at in_ray 0)) with true.
    2:{ unfold inside; cbn. rdec. reflexivity. }
    unfold grid_start. cbv zeta. cbn [grid_walk].
    assert (PX : pos2voxel g' (ray_at in_ray 0) 0 = 2%Z).
    { unfold pos2voxel, pos2voxel_, g'. cbn. unfold Zclip.
      rewrite Ztrunc_nonneg by lra. rewrite (Zfloor_unique _ 10) by (cbn; lra). reflexivity. }
    assert (PY : pos2voxel g' (ray_at in_ray 0) 1 = 0%Z /\ pos2voxel g' (ray_at in_ray 0) 2 = 0%Z).
    { unfold pos2voxel, pos2voxel_, g'. cbn. unfold Zclip. split;
      (rewrite Ztrunc_nonneg by lra; rewrite (Zfloor_unique _ 0) by (cbn; lra); reflexivity). }
    destruct PY as [PY PZ]. rewrite PX, PY, PZ. cbn [vx vy vz].
    assert (VP : voxel_prims g 2 0 0 = nth 2 (g_vox g) []) by (unfold voxel_prims; rewrite NV; reflexivity).
    unfold goffset. cbn [g_nv g_vox g' vx vy vz Z.mul Z.add Z.to_nat Pos.mul Pos.to_nat Pos.iter_op].
    rewrite NV in VL. cbn in VL.
    destruct (g_vox g) as [|l0 [|l1 [|l ls]]] eqn:GV; try (cbn in VL; lia).
    change (nth_error (l0 :: l1 :: l :: ls) _) with (Some l).
    cbn in VP.
    assert (LL : forall l' , (forall i, In i l' -> i = 1%nat) -> leaf_loop (pts_pi in_f) l' (in_ray, None) = (in_ray, None)).
    { induction l' as [|i l' IH]; intros Hl; [reflexivity|]. cbn [leaf_loop fst].
      rewrite (Hl i) by now left. cbn. apply IH. intros; apply Hl; now right. }
    cbv iota. rewrite LL by (rewrite <- VP; exact P0). cbn [fst].
    assert (N0 : g_next g' in_ray 0 (ray_at in_ray 0) 2 0 = Fin (- 29 / 4)).
    { unfold g_next, voxel2pos, g'. cbn. rdec. unfold edivz. rdec. cbn. f_equal. field. }
    assert (N1 : g_next g' in_ray 0 (ray_at in_ray 0) 0 1 = NInf).
    { unfold g_next, voxel2pos, g'. cbn. rdec. unfold edivz. rdec. reflexivity. }
    assert (N2 : g_next g' in_ray 0 (ray_at in_ray 0) 0 2 = NInf).
    { unfold g_next, voxel2pos, g'. cbn. rdec. unfold edivz. rdec. reflexivity. }
    rewrite N0, N1, N2. cbn [argmin argmin_from eltb vnth vx vy vz].
    cbn [rmaxt in_ray]. fold in_ray. cbn [eltb].
    unfold g_step, g_out. cbn [g_nv g' vnth vx vy vz rd in_ray]. fold in_ray.
    replace (Rltb 0 0) with false by (symmetry; apply Rltb_false; lra). reflexivity.
Qed.
Print Assumptions C276_grid_refuted.
(** the hypotheses are met: two squares and a fog box *)
Example C276_ex : two_bounds <> [] /\ Forall (fun b => vle (fst b) (snd b)) two_bounds /\ vle (mkV (-3) (-3) (-3)) (mkV (-2) (-2) (-2)) /\
  ray_face_ok (agg_lo two_bounds) (agg_hi two_bounds) two_ray /\
  within_bounds (pts_surf two_f) (fun i => nth i two_bounds (vzero, vzero)) two_ray 2 /\
  nearest_contract (pts_surf two_f) (pts_pi two_f) two_ray /\
  let b := fst (scene_simple (simple_make two_bounds) (Some (fbox (mkV (-3) (-3) (-3)) (mkV (-2) (-2) (-2))))) in
  ray_face_ok (vmap corner (bmin b)) (vmap corner (bmax b)) two_ray.
Proof.
  destruct two_ok as (A&B&C&D&E). destruct (pts_contract two_f two_ray) as [F _].
  split; [discriminate|]. split; [exact A|]. split; [unfold vle; cbn; lra|]. split; [exact B|]. split; [exact E|]. split; [exact F|].
  cbv zeta. unfold ray_face_ok, slab_ok; cbn; repeat split; intros; discriminate.
Qed.
