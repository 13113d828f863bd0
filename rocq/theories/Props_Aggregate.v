(** Property theorems C33-C35, C66, C67 (aggregates).  Vocabulary: S_BVH.v, S_Aggregate.v. *)
From Coq Require Import Reals Lra Lia List ZArith Bool.
From Verif Require Import Base M_Geometry S_Geometry M_BVH S_BVH M_Aggregate S_Aggregate
  P_Refine P_Aggregate P_Grid P_GridWalk M_VoxelThreads P_VoxelThreads.
Import ListNotations.
Open Scope R_scope.

(** C33: the exhaustive aggregate.  What holds: the result is True exactly when some primitive meets the
    range, ray.maxt becomes the nearest parameter, and the record is that of the first primitive of the
    list that meets the range - which is the nearest one only if it comes first.
    [ray_face_ok] excludes negative-zero directions on a face plane of the bounds, see C04. *)
Theorem C33_hit_and_range_partial bounds surf pi r0 :
  Forall (fun b => vle (fst b) (snd b)) bounds -> ray_face_ok (agg_lo bounds) (agg_hi bounds) r0 ->
  notnan (rmint r0) -> notnan (rmaxt r0) ->
  within_bounds surf (fun i => nth i bounds (vzero, vzero)) r0 (length bounds) ->
  nearest_contract surf pi r0 ->
  forall any r' rec, simple_intersect pi bounds r0 = (any, r', rec) ->
    (any = true <-> exists i, (i < length bounds)%nat /\ meets surf r0 i) /\
    (any = false -> r' = r0 /\ rec = None) /\
    (any = true -> exists t, r' = ray_set_maxt r0 (Fin t) /\ nearest_param surf (length bounds) r0 t) /\
    (forall f, rec = Some f <-> ((f < length bounds)%nat /\ meets surf r0 f /\
                                forall j, (j < f)%nat -> ~ meets surf r0 j)).
Proof. exact (simple_main bounds surf pi r0). Qed.
Print Assumptions C33_hit_and_range_partial.
Theorem C33_any_hit_partial bounds surf pp r0 :
  Forall (fun b => vle (fst b) (snd b)) bounds -> ray_face_ok (agg_lo bounds) (agg_hi bounds) r0 ->
  notnan (rmint r0) -> notnan (rmaxt r0) ->
  within_bounds surf (fun i => nth i bounds (vzero, vzero)) r0 (length bounds) ->
  any_contract surf pp r0 ->
  (simple_intersect_p pp bounds r0 = true <-> exists i, (i < length bounds)%nat /\ meets surf r0 i).
Proof. exact (simple_p_main bounds surf pp r0). Qed.
Print Assumptions C33_any_hit_partial.
Example C33_ex : Forall (fun b => vle (fst b) (snd b)) two_bounds /\
  ray_face_ok (agg_lo two_bounds) (agg_hi two_bounds) two_ray /\ notnan (rmint two_ray) /\ notnan (rmaxt two_ray) /\
  within_bounds (pts_surf two_f) (fun i => nth i two_bounds (vzero, vzero)) two_ray 2 /\
  nearest_contract (pts_surf two_f) (pts_pi two_f) two_ray.
Proof.
  destruct two_ok as (A&B&C&D&E). destruct (pts_contract two_f two_ray) as [F _].
  exact (conj A (conj B (conj C (conj D (conj E F))))).
Qed.
(** The record need not be the nearest primitive: two squares at distance 2 and 1 (in this order). *)
Theorem C33_record_refuted :
  simple_intersect (pts_pi two_f) two_bounds two_ray = (true, ray_set_maxt two_ray (Fin 1), Some 0%nat) /\
  nearest_param (pts_surf two_f) 2 two_ray 1 /\ ~ pts_surf two_f 0 1.
Proof. exact simple_wrong_record. Qed.
Print Assumptions C33_record_refuted.

(** C34: full_refine terminates within as many iterations as the hierarchy has nodes, appends one
    primitive per leaf (in right-to-left order), inheriting material and light, with fresh ids. *)
Theorem C34_full_refine p refined next fuel : (shp_nodes (gp_shape p) <= fuel)%nat -> (gp_id p < next)%nat ->
  (forall q, In q refined -> (gp_id q < next)%nat /\ gp_id q <> gp_id p) -> NoDup (map gp_id refined) ->
  exists out next', full_refine fuel p refined next = Some (refined ++ out, next') /\
    map (fun q => gp_shape q) out = map SLeaf (rev (leaves (gp_shape p))) /\
    Forall (fun q => gp_mat q = gp_mat p /\ gp_light q = gp_light p) out /\
    NoDup (map gp_id (refined ++ out)) /\ (forall q, In q (refined ++ out) -> (gp_id q < next')%nat).
Proof. exact (full_refine_main p refined next fuel). Qed.
Print Assumptions C34_full_refine.
Example C34_ex : full_refine 5 (mkGP 1 (SComp 0 [SLeaf 7; SComp 1 [SLeaf 8]]) 3 None) [] 2 =
  Some ([mkGP 4 (SLeaf 8) 3 None; mkGP 2 (SLeaf 7) 3 None], 5%nat).
Proof. reflexivity. Qed.

(** C35: the grid. *)
Theorem C35_construction bounds : Forall (fun b => vle (fst b) (snd b)) bounds ->
  (exists g, grid_make bounds = Ok g) <-> bounds <> [] /\ agg_lo bounds <> agg_hi bounds.
Proof. exact (grid_make_total bounds). Qed.
Print Assumptions C35_construction.
Theorem C35_registration bounds g : Forall (fun b => vle (fst b) (snd b)) bounds -> grid_make bounds = Ok g ->
  (forall k, (k < 3)%nat -> (1 <= vnth (g_nv g) k <= 64)%Z) /\
  Z.of_nat (length (g_vox g)) = (vx (g_nv g) * vy (g_nv g) * vz (g_nv g))%Z /\
  (forall k, (k < 3)%nat -> vnth (g_lo g) k + IZR (vnth (g_nv g) k) * vnth (g_w g) k = vnth (g_hi g) k) /\
  (forall x y z i, valid_voxel g x y z ->
     (In i (voxel_prims g x y z) <-> (i < length bounds)%nat /\
       exists p, between (fst (nth i bounds (vzero, vzero))) p (snd (nth i bounds (vzero, vzero))) /\
                 in_voxel g x y z p)) /\
  (forall x y z, valid_voxel g x y z -> NoDup (voxel_prims g x y z)).
Proof.
  exact (fun HV HG => match grid_make_spec bounds g HV HG with
    conj A (conj B (conj _ (conj _ (conj W (conj _ (conj M N)))))) =>
      conj A (conj B (conj (fun k Hk => proj1 (proj2 (W k Hk))) (conj M N))) end).
Qed.
Print Assumptions C35_registration.
Theorem C35_positions bounds g p : Forall (fun b => vle (fst b) (snd b)) bounds -> grid_make bounds = Ok g ->
  valid_voxel g (pos2voxel g p 0) (pos2voxel g p 1) (pos2voxel g p 2) /\
  (between (agg_lo bounds) p (agg_hi bounds) -> forall x y z, valid_voxel g x y z ->
     (in_voxel g x y z p <-> x = pos2voxel g p 0 /\ y = pos2voxel g p 1 /\ z = pos2voxel g p 2)).
Proof. exact (grid_pos2voxel bounds g p). Qed.
Print Assumptions C35_positions.
Example C35_ex : Forall (fun b => vle (fst b) (snd b)) wit_bounds /\ wit_bounds <> [] /\ agg_lo wit_bounds <> agg_hi wit_bounds.
Proof.
  split; [unfold wit_bounds, vle; repeat constructor; cbn; lra|]. split; [discriminate|].
  unfold agg_lo, agg_hi. rewrite wit_agg. cbn. intros E. injection E. lra.
Qed.

(** C66: walking the grid terminates within 192 voxels, never leaves the voxel array, and reports only
    real hits; it does not find all of them. *)
Theorem C66_walk_sound_partial bounds g surf pi r0 m fuel :
  Forall (fun b => vle (fst b) (snd b)) bounds -> grid_make bounds = Ok g -> (192 <= fuel)%nat ->
  rmint r0 = Fin m -> notnan (rmaxt r0) -> nearest_contract surf pi r0 ->
  exists r' hit, grid_intersect fuel g pi r0 = Ok (Some (r', hit)) /\
    match hit with
    | None => r' = r0
    | Some i => (i < length bounds)%nat /\ exists t, r' = ray_set_maxt r0 (Fin t) /\ surf i t /\
        ele (rmint r0) (Fin t) /\ ele (Fin t) (rmaxt r0)
    end.
Proof. exact (grid_intersect_sound bounds g surf pi r0 m fuel). Qed.
Print Assumptions C66_walk_sound_partial.
Theorem C66_any_sound_partial bounds g surf pp r0 m fuel :
  Forall (fun b => vle (fst b) (snd b)) bounds -> grid_make bounds = Ok g -> (192 <= fuel)%nat ->
  rmint r0 = Fin m -> any_contract surf pp r0 ->
  exists b, grid_intersect_p fuel g pp r0 = Ok (Some b) /\
    (b = true -> exists i, (i < length bounds)%nat /\ meets surf r0 i).
Proof. exact (grid_intersect_p_sound bounds g surf pp r0 m fuel). Qed.
Print Assumptions C66_any_sound_partial.
(** A ray along the x axis through both of two boxes leaves the walk after the first voxel. *)
Theorem C66_missed_hit_refuted : exists g,
  grid_make wit_bounds = Ok g /\
  within_bounds wit_surf (fun i => nth i wit_bounds (vzero, vzero)) wit_ray 2 /\
  nearest_contract wit_surf wit_pi wit_ray /\ meets wit_surf wit_ray 1 /\
  forall fuel, (1 <= fuel)%nat -> grid_intersect fuel g wit_pi wit_ray = Ok (Some (wit_ray, None)).
Proof. exact grid_misses. Qed.
Print Assumptions C66_missed_hit_refuted.

(** C67: with any number of threads and any schedule, no query ever uses an unrefined primitive, every
    finished query used all primitives (refined) in order, each primitive is refined at most once, and no
    reachable state is deadlocked: a thread can always step unless it waits for the lock, in which case
    some other thread (the holder) can. *)
Theorem C67_lazy_refinement_safe (A B : Type) (refined : A -> B) (cells : list (@cell A B)) (s : @vstate A B) :
  vreach refined cells s ->
  (forall t a, v_pc s t <> Broken a) /\
  (forall t u, v_pc s t = Done u -> u = expected refined cells) /\
  NoDup (v_log s) /\ (forall i, In i (v_log s) -> exists a, nth_error cells i = Some (inl a)).
Proof. exact (voxel_safe refined cells s). Qed.
Print Assumptions C67_lazy_refinement_safe.
Theorem C67_no_deadlock (A B : Type) (refined : A -> B) (cells : list (@cell A B)) (s : @vstate A B) (t : nat) :
  vreach refined cells s -> exists u s', vstep refined u s s' /\ (v_pc s t <> Acquire -> u = t).
Proof. exact (voxel_progress refined cells s t). Qed.
Print Assumptions C67_no_deadlock.
(** two threads interleave: both see the flag unset, one refines, the other finds the work done *)
Example C67_ex : exists s, vreach (fun a : nat => a) [inl 5%nat; inr 6%nat] s /\ v_pc s 0%nat = Acquire /\ v_pc s 1%nat = Look 2.
Proof.
  pose proof (vr_init (fun a : nat => a) [inl 5%nat; inr 6%nat]) as H.
  Ltac go H t r :=
    match type of H with vreach ?f ?c ?s =>
      let H' := fresh in
      epose proof (vr_step f c s t _ H (ltac:(eapply r; reflexivity))) as H'; clear H; rename H' into H
    end.
  go H 0%nat (@s_begin nat nat). go H 1%nat (@s_begin nat nat).
  go H 0%nat (@s_check_f nat nat). go H 1%nat (@s_check_f nat nat). go H 1%nat (@s_acquire nat nat).
  go H 1%nat (@s_look_raw nat nat). go H 1%nat (@s_put nat nat). go H 1%nat (@s_look_ok nat nat).
  eexists. split; [exact H|split; reflexivity].
Qed.
