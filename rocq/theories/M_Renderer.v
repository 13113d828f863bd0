(** Model of the rendering loop: SamplerRendererTask.__call__ (renderer/renderer.py:132-198) and of Scene
    (scene/scene.py:21-41).  Radiance values may be infinite or NaN, so spectra here are triples of extended numbers. *)
From Coq Require Import Reals List Bool ZArith.
From Verif Require Import Base M_Geometry M_Sampler.
Import ListNotations.
Open Scope R_scope.

(** spectral/spectrum.py:587-589 (RGBSpectrum.y) on extended numbers *)
Definition ey (L : V3 E) : E :=
  eadd (eadd (emul (Fin 0.212671) (vx L)) (emul (Fin 0.715160) (vy L))) (emul (Fin 0.072169) (vz L)).
(** spectral/spectrum.py:216-217 *)
Definition is_nan (x : E) : bool := match x with NaN => true | _ => false end.
Definition has_nans (L : V3 E) : bool := is_nan (vx L) || is_nan (vy L) || is_nan (vz L).
Definition black : V3 E := mkV (Fin 0) (Fin 0) (Fin 0).
(** renderer.py:185-193 *)
Definition sanitise (L : V3 E) : V3 E :=
  if has_nans L then black
  else if eltb (ey L) (Fin (- EPS)) then black
  else if eeqb (ey L) PInf then black
  else L.

Section Task.
(** Camera.generate_ray_differential, Scene.intersect_p and SamplerRenderer.li with the state (random numbers and
    whatever else they touch) threaded explicitly; [vis]: the flag vis_obj_id *)
Context {W : Type}.
Variables (cam : sample -> W -> res (R * raydiff * W)) (hitp : raydiff -> W -> res (bool * W))
  (li : raydiff -> sample -> W -> res (V3 E * W)) (vis : bool) (spp : nat).
(** renderer.py:161-193: one sample *)
Definition shade (smp : sample) (w : W) : res (V3 E * W) :=
  do c <- cam smp w; let '(wt, r0, w1) := c in
  let r := scale_differential r0 (1 / sqrt (INR spp)) in
  do h <- hitp r w1; let '(h, w2) := h in
  if vis then Ok (sanitise (if h && Rltb 0 wt then mkV (Fin 1) (Fin 1) (Fin 1) else black), w2)
  else if h && Rltb 0 wt then
    do l <- li r smp w2; let '(L, w3) := l in Ok (sanitise (vmap (fun x => emul x (Fin wt)) L), w3)
  else Ok (sanitise black, w2).
(** renderer.py:161-193: the samples of a batch, in order *)
Fixpoint shade_all (l : list sample) (w : W) : res (list (V3 E) * W) :=
  match l with
  | [] => Ok ([], w)
  | s :: l' => do a <- shade s w; let '(L, w1) := a in do b <- shade_all l' w1; let '(Ls, w2) := b in Ok (L :: Ls, w2)
  end.
(** renderer.py:156-198.  Result: the calls film.add_sample(sample, L), in order.  Sampler.report_results
    (sampler/sampler/__init__.py:69-74) is always True.  [rn k]: the random numbers of the k-th generate call; [fuel]
    counts iterations, None: not finished. *)
Fixpoint task_loop (fuel : nat) (s : sampler) (samples : list sample) (rn : nat -> rnd) (k : nat) (w : W)
  : option (res (list (sample * V3 E))) :=
  match fuel with
  | O => None
  | S fuel' =>
      match generate s samples (rn k) with
      | Err x => Some (Err x)
      | Ok (false, _, _) => Some (Ok [])
      | Ok (true, samples', s') =>
          match shade_all samples' w with
          | Err x => Some (Err x)
          | Ok (Ls, w') =>
              match task_loop fuel' s' samples' rn (S k) w' with
              | None => None
              | Some (Err x) => Some (Err x)
              | Some (Ok rest) => Some (Ok (combine samples' Ls ++ rest))
              end
          end
      end
  end.
End Task.
(** renderer.py:132-198; [orig]: the sample object with the integrator's requests *)
Definition task {W} cam hitp li vis (s : sampler) (orig : sample) (rn : nat -> rnd) (w : W) (fuel : nat) :=
  task_loop cam hitp li vis (xSamples s * ySamples s) fuel s (duplicate orig (maximum_sample_cnt s)) rn 0 w.
