(** A whole picture: SamplerRenderer.render (renderer/renderer.py:84-198) with a camera, the scene of M_World and the
    Whitted integrator (integrator/surface/whitted.py:21-59).  Everything here only connects definitions of M_Render,
    M_Renderer and M_World.  Simplification: a traversal or recursion that did not finish within its step bound is
    reported as an exception (the theorems show that it does not happen). *)
From Coq Require Import Reals List ZArith Bool.
From Verif Require Import Base M_Aggregate M_Sampler M_Film M_Geometry M_Transform M_Shapes M_Reflection M_Light M_BVH M_Primitive M_Material M_Integrator
  M_Renderer M_Render M_World.
Import ListNotations.
Open Scope R_scope.

(** renderer.py:165-166: camera.generate_ray_differential(sample); the cameras return weight 1 (projective.py:128, 233).
    The state is the number of random draws so far. *)
Definition world_cam (cam : sample -> res raydiff) (smp : sample) (k : nat) : res (R * raydiff * nat) :=
  do r <- cam smp; Ok (1, r, k).
(** renderer.py:168: scene.intersect_p(ray) *)
Definition world_seen (w : world) (r : raydiff) (k : nat) : res (bool * nat) :=
  match scene_intersect_p (w_fuel w) (w_scene w) (rd_ray r) with
  | Ok (Some b) => Ok (b, k)
  | Ok None => Err RuntimeError
  | Err x => Err x
  end.
(** renderer.py:179 with 58-75: renderer.li(scene, ray, sample, isect, rng) *)
Definition world_li (w : world) (u : nat -> R) (md : Z) (depth : nat) (r : raydiff) (smp : sample) (k : nat) : res (V3 E * nat) :=
  match whitted w u md (stime smp) depth r k with
  | Some (Ok (L, _, _, k', _)) => Ok (vmap Fin L, k')
  | Some (Err x) => Err x
  | None => Err RuntimeError
  end.
(** renderer.py:84-111 *)
Definition world_render (w : world) (cam : sample -> res raydiff) (u : nat -> R) (md : Z) (depth : nat)
    (s : sampler) (orig : sample) (rn : nat -> rnd) (k fuel : nat) (f : film) (sc : R) : option (res (list (list vec))) :=
  render (world_cam cam) (world_seen w) (world_li w u md depth) s orig rn k fuel f sc.
(** renderer.py:179 with 58-75 and the direct-lighting integrator (direct.py:70-105), the surface integrator that the interface
    uses by default (interface/option.py) *)
Definition world_direct_li (w : world) (u : nat -> R) (lo bo : list offset) (md : Z) (depth : nat) (r : raydiff) (smp : sample) (k : nat) : res (V3 E * nat) :=
  match direct_lighting w u smp lo bo md (stime smp) depth r k with
  | Some (Ok (L, _, _, k', _)) => Ok (vmap Fin L, k')
  | Some (Err x) => Err x
  | None => Err RuntimeError
  end.
(** renderer.py:84-111: Sample(sampler, surf, vol, scene) lets the integrator request its numbers (sampler/sample.py:36-54,
    direct.py:46-62) for the scene's lights, [ns] per light after rounding; then the render loop *)
Definition world_direct_render (w : world) (cam : sample -> res raydiff) (u : nat -> R) (md : Z) (depth : nat)
    (ns : list nat) (s : sampler) (rn : nat -> rnd) (k fuel : nat) (f : film) (sc : R) : option (res (list (list vec))) :=
  let '(orig, lo, bo) := direct_request ns (mkS 0 0 0 0 0 [] [] [] []) in
  render (world_cam cam) (world_seen w) (world_direct_li w u lo bo md depth) s orig rn k fuel f sc.
