(** The parts linked: a scene of geometric primitives (M_Primitive), their materials (M_Material) and point lights
    (M_Light) as the environment the integrators of M_Integrator run in.  Everything here only connects definitions
    of those files the way scene/scene.py:25-48, aggregate/intersection.py:33-52, aggregate/primitive.py:80-133 and
    integrator/surface do.  Simplifications: an exception or an unfinished traversal of the scene is reported as "no
    hit" (the theorems show that neither happens); no volume integrator; the specular differentials are arbitrary. *)
From Coq Require Import Reals List ZArith Bool.
From Verif Require Import Base M_Python M_Sampler M_Geometry M_Transform M_Shapes M_Reflection M_Light M_BVH M_Primitive M_Material M_Integrator.
Import ListNotations.
Open Scope R_scope.

(** shape.get_shading_geometry: shape/__init__.py:86-88 and triangle.py:317-391 *)
Definition shape_shading (s : shape) (g : dgeom) : res dgeom :=
  match s with
  | STri m v => tri_shading m v (b_o2w (m_base m)) g
  | _ => Ok (dg_copy (b_flip (shape_base s)) g)
  end.
(** numbers that are finite here *)
Definition fin_part (x : E) : R := match x with Fin a => a | _ => 0 end.
(** light/light.py:118-152: PointLight as the integrators see it.  pdf is 0 (line 145), le the base class's
    (lines 108-115) *)
Definition point_light (l2w : transform) (i : vec) : light :=
  mkLight true
    (fun p eps _ time => let s := point_sample_l l2w i p eps time in Ok (vmap fin_part (ls_L s), ls_wi s, ls_pdf s, ls_vis s))
    (fun _ _ => 0) (fun _ => base_le).

(** scene/scene.py:25-39 (aggregate, lights) with the materials of the primitives *)
Record world := mkW {
  w_scene : option (list lnode * list gprim);
  w_mats : nat -> material;
  w_lights : list light;
  w_fuel : nat;
  w_diffs : bool -> raydiff -> isect -> bsdf -> vec -> bool * vec * vec * vec * vec }.

(** the ray object after its [maxt] was overwritten by the shapes *)
Definition rd_with (r : raydiff) (q : ray) : raydiff := mkRD q (rd_has r) (rd_rxo r) (rd_ryo r) (rd_rxd r) (rd_ryd r).
(** scene.py:41-42 *)
Definition world_hit (w : world) (r : raydiff) : raydiff * option isect :=
  match scene_intersect (w_fuel w) (w_scene w) (rd_ray r) isect_new with
  | Ok (Some (true, q, i)) => (rd_with r q, Some i)
  | Ok (Some (false, q, _)) => (rd_with r q, None)
  | _ => (r, None)
  end.
(** light/utility.py:53-59: the tester's ray is a Ray object; its direction is a difference, which is never -0 *)
Definition lray_ray (l : lray) : ray := mkRay (l_o l) (l_d l) (mkV false false false) (Fin (l_mint l)) (l_maxt l) 0%Z (l_time l).
(** scene.py:44-45 *)
Definition world_hit_p (w : world) (l : lray) : bool :=
  match scene_intersect_p (w_fuel w) (w_scene w) (lray_ray l) with Ok (Some b) => b | _ => false end.
(** intersection.py:33-35 with primitive.py:127-129 *)
Definition world_bsdf (w : world) (i : isect) (r : raydiff) : res bsdf :=
  match is_prim i, is_dg i with
  | Some p, Some g => isect_bsdf (w_mats w (gp_material p)) (b_flip (shape_base (gp_shape p))) (shape_shading (gp_shape p)) g r
  | _, _ => Err AttributeError
  end.
(** bsdf.dgs.p: the copied point of the hit (diffgeom.py:21-42) *)
Definition isect_p (i : isect) : vec := match is_dg i with Some g => dg_p g | None => vzero end.
(** intersection.py:41-52 *)
Definition world_le (i : isect) (wo : vec) : vec := match isect_le i wo with Ok l => l | Err _ => vzero end.
(** everything the integrators ask a scene for *)
Definition env_of (w : world) : env isect :=
  mkEnv isect (w_lights w) (world_hit w) (world_hit_p w) world_le is_eps
    (fun i r => do b <- world_bsdf w i r; Ok (isect_p i, b))
    (fun i r => match world_bsdf w i r with Ok b => bs_nn b | Err _ => vzero end)
    (w_diffs w) None.
(** whitted.py:26-59 under renderer.py:58-75 *)
Definition whitted (w : world) (u : nat -> R) (md : Z) (time : R) (fuel : nat) (r : raydiff) (k : nat)
  : option (res (rout (V := isect))) :=
  renderer_li (env_of w) u md time (whitted_local (env_of w) u) fuel r isect_new k.
(** integrator/surface/direct.py:70-105 (the direct-lighting integrator, sampling all lights) under renderer.py:58-75; [s]: the sample object, [lo],
    [bo]: the offsets it was asked for (direct.py:46-62) *)
Definition direct_lighting (w : world) (u : nat -> R) (s : sample) (lo bo : list offset) (md : Z) (time : R) (fuel : nat) (r : raydiff) (k : nat)
  : option (res (rout (V := isect))) :=
  renderer_li (env_of w) u md time (direct_all_local (env_of w) u s lo bo) fuel r isect_new k.
