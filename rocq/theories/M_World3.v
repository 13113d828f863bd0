(** A whole picture by path tracing: SamplerRenderer (renderer/renderer.py:84-198) with a camera, the scene of M_World and the
    path integrator (integrator/surface/path.py:26-144).  Everything here only connects definitions of M_Render, M_Renderer, M_World and
    M_Integrator.  Simplifications as in M_World2: an unfinished traversal or path is reported as an exception; no volume integrator. *)
From Coq Require Import Reals List ZArith Bool.
From Verif Require Import Base M_Aggregate M_Sampler M_Film M_Geometry M_Transform M_Shapes M_Reflection M_Light M_BVH M_Primitive M_Material M_Integrator
  M_Renderer M_Render M_World M_World2.
Import ListNotations.
Open Scope R_scope.

(** renderer.py:58-75: the assertion on the time, scene.intersect, then surf_integrator.li (path.py:44-144) with the ray shortened by the intersection, or
    the lights' radiance along a ray that leaves the scene *)
Definition path_lighting (w : world) (u : nat -> R) (s : sample) (po : list path_offs) (md : Z) (time : R) (fuel : nat) (r : raydiff) (k : nat) : option (res (vec * nat)) :=
  let e := env_of w in
  if negb (Reqb (rtm r) time) then Some (Err AssertionError)
  else match hit e r with
       | (r1, Some v) => match path_li e u md s po fuel r1 v k with
                         | Some (Ok (L, k', _)) => Some (Ok (L, k'))
                         | Some (Err x) => Some (Err x)
                         | None => None
                         end
       | (r1, None) => Some (Ok (sum_le e r1 (spec 1) (spec 0), k))
       end.
(** renderer.py:179 *)
Definition world_path_li (w : world) (u : nat -> R) (po : list path_offs) (md : Z) (steps : nat) (r : raydiff) (smp : sample) (k : nat) : res (V3 E * nat) :=
  match path_lighting w u smp po md (stime smp) steps r k with
  | Some (Ok (L, k')) => Ok (vmap Fin L, k')
  | Some (Err x) => Err x
  | None => Err RuntimeError
  end.
(** renderer.py:84-111 with the numbers the integrator requested, [req]: the sample object and the offsets *)
Definition path_render_with (req : sample * list path_offs) (w : world) (cam : sample -> res raydiff) (u : nat -> R) (md : Z) (steps : nat)
    (s : sampler) (rn : nat -> rnd) (k fuel : nat) (f : film) (sc : R) : option (res (list (list vec))) :=
  let '(orig, po) := req in render (world_cam cam) (world_seen w) (world_path_li w u po md steps) s orig rn k fuel f sc.
(** renderer.py:84-111: Sample(sampler, surf, vol, scene) lets the integrator request its numbers (path.py:35-42), three bounces; then the render loop *)
Definition world_path_render (w : world) (cam : sample -> res raydiff) (u : nat -> R) (md : Z) (steps : nat)
    (s : sampler) (rn : nat -> rnd) (k fuel : nat) (f : film) (sc : R) : option (res (list (list vec))) :=
  path_render_with (path_request SAMPLE_DEPTH (mkS 0 0 0 0 0 [] [] [] [])) w cam u md steps s rn k fuel f sc.
