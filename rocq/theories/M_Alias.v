(** The in-place update of integrator/utility.py:222.  A DiffuseAreaLight hands out its own array of emitted radiance
    (light/light.py:506-511, 515-521: [l] returns self.emit itself when the light's front is seen, a new black spectrum
    otherwise), and estimate_direct multiplies the received array in place by the transmittance.  Here the light's array is a
    piece of state threaded through a sequence of estimates; everything else is as in M_Integrator. *)
From Coq Require Import Reals List Bool ZArith.
From Verif Require Import Base M_Geometry M_MonteCarlo M_Reflection M_Utility M_Light M_Integrator.
Import ListNotations.
Open Scope R_scope.

(** light/light.py:484-547: the emitted radiance, and what the shape set answers to sample_p / pdf for the given
    arguments: whether the sampled normal faces the point (n.dot(w) > 0), the direction, the density, the shadow ray *)
Record alight := mkAL { al_emit : vec; al_geom : vec -> R -> R * R * R -> R -> res (bool * vec * R * lray); al_pdf : vec -> vec -> R }.
(** light/light.py:506-511 (le, l), 515-521 (sample_l), 538 (pdf), 546-547 *)
Definition area_light (a : alight) : light :=
  mkLight false
    (fun p eps s t => do g <- al_geom a p eps s t; let '(front, wi, pdf, vis) := g in
                      Ok (if front then al_emit a else spec 0, wi, pdf, vis))
    (al_pdf a) (fun _ => al_emit a).

Section Scene.
Context {V : Type} (e : env V).
(** integrator/utility.py:215-229 for such a light; also returns the light's array afterwards *)
Definition area_light_half (a : alight) (p n wo : vec) (eps time : R) (b : bsdf) (lsmp : R * R * R) (flags : Z) (k : nat)
  : res (vec * vec * nat) :=
  do g <- al_geom a p eps lsmp time;
  let '(front, wi, lpdf, vis) := g in
  let Li := if front then al_emit a else spec 0 in
  if Rltb 0 lpdf && negb (is_black Li) then
    do f <- bsdf_f b wo wi flags;
    if negb (is_black f) && unoccluded (hit_p e) vis then
      let '(T, k1) := transmittance e (inr vis) k in
      let Li' := smul Li T in
      let emit' := if front then Li' else al_emit a in
      let w := power_heuristic 1 lpdf 1 (bsdf_pdf b wo wi flags) in
      Ok (vscale (abs_dot wi n * w / lpdf) (smul f Li'), emit', k1)
    else Ok (spec 0, al_emit a, k)
  else Ok (spec 0, al_emit a, k).

(** One request for direct light: point, normal, outgoing direction, offset, time, BSDF, light sample, lobes asked for. *)
Record request := mkRq { rq_p : vec; rq_n : vec; rq_wo : vec; rq_eps : R; rq_time : R; rq_b : bsdf; rq_smp : R * R * R; rq_flags : Z }.
(** A history of requests answered one after the other (integrator/utility.py:64-75 over the whole rendering): the
    answers, the light's array at the end, the position in the random stream *)
Fixpoint serve (a : alight) (qs : list request) (k : nat) : res (list vec * vec * nat) :=
  match qs with
  | [] => Ok ([], al_emit a, k)
  | q :: qs' =>
      do r <- area_light_half a (rq_p q) (rq_n q) (rq_wo q) (rq_eps q) (rq_time q) (rq_b q) (rq_smp q) (rq_flags q) k;
      let '(Ld, emit', k1) := r in
      do r' <- serve (mkAL emit' (al_geom a) (al_pdf a)) qs' k1;
      let '(Ls, emit'', k2) := r' in Ok (Ld :: Ls, emit'', k2)
  end.
End Scene.

(** ** Radiance of rays that leave the scene *)
(** a light as SamplerRenderer.li sees it when the ray hits nothing: point, spot, projection, goniometric and distant lights
    inherit Light.le (light/light.py:108-115); DiffuseAreaLight (light/light.py:506-507); InfiniteAreaLight
    (light/light.py:597-601, see M_InfLight.inf_le) *)
Inductive escape_light := EDelta | EArea (emit : vec) | EInfinite.
(** light/light.py:108-115, 506-507, 597-601 *)
Definition escape_le (l : escape_light) : res vec :=
  match l with EDelta => Ok (spec 0) | EArea em => Ok em | EInfinite => Err TypeError end.
(** renderer/renderer.py:63, 66-68 *)
Fixpoint escape_sum (ls : list escape_light) (acc : vec) : res vec :=
  match ls with [] => Ok acc | l :: t => do x <- escape_le l; escape_sum t (vadd acc x) end.
Definition escape (ls : list escape_light) : res vec := escape_sum ls (spec 0).
