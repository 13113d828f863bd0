(** Vocabulary for the integrator and renderer properties. *)
From Coq Require Import Reals List Bool ZArith.
From Verif Require Import Base M_Geometry M_Reflection M_Spectrum M_Sampler M_Light M_Integrator.
Import ListNotations.
Open Scope R_scope.

(** every channel is at least 0 *)
Definition nn (s : vec) : Prop := 0 <= vx s /\ 0 <= vy s /\ 0 <= vz s.
(** tracing a ray may shorten it but keeps its depth and its time *)
Definition keeps_depth {V} (e : env V) : Prop := forall r, rdepth (rd_ray (fst (hit e r))) = rdepth (rd_ray r).
Definition keeps_time {V} (e : env V) : Prop := forall r, rtm (fst (hit e r)) = rtm r.
(** nothing in the scene answers with a negative radiance, reflectance or density *)
Definition physical {V} (e : env V) : Prop :=
  (forall v w, nn (v_le e v w)) /\
  (forall l r, In l (lights e) -> nn (lt_le l r)) /\
  (forall r k, nn (fst (transmittance e r k))) /\
  (forall v r p b wo u0 u1 uc s, v_bsdf e v r = Ok (p, b) -> bsdf_sample b wo u0 u1 uc ALL = Ok s ->
     nn (sm_f s) /\ 0 <= sm_pdf s) /\
  (forall l p eps a t Li wi pdf vis, In l (lights e) -> lt_sample l p eps a t = Ok (Li, wi, pdf, vis) -> nn Li) /\
  (forall v r p b wo wi fl f, v_bsdf e v r = Ok (p, b) -> bsdf_f b wo wi fl = Ok f -> nn f).
(** the scene [e] has the geometry and materials of [e1] and of [e2] and the light sources of both *)
Definition both_lit {V} (e1 e2 e : env V) : Prop :=
  (forall r, hit e r = hit e1 r /\ hit e r = hit e2 r) /\
  (forall v r, v_bsdf e v r = v_bsdf e1 v r /\ v_bsdf e v r = v_bsdf e2 v r) /\
  (forall v r, b_dgs_nn e v r = b_dgs_nn e1 v r /\ b_dgs_nn e v r = b_dgs_nn e2 v r) /\
  (forall v, v_eps e v = v_eps e1 v /\ v_eps e v = v_eps e2 v) /\
  (forall r k, transmittance e r k = transmittance e1 r k /\ transmittance e r k = transmittance e2 r k) /\
  (forall v w, v_le e v w = vadd (v_le e1 v w) (v_le e2 v w)) /\
  lights e = lights e1 ++ lights e2.
(** a sample object whose arrays have the requested sizes (what a sampler delivers: C24, C64) *)
Definition filled (s : sample) (d1 : list nat) (d2 : list nat) : Prop :=
  map (@length R) (oneD s) = d1 /\ map (@length (R * R)) (twoD s) = d2.
(** index j of the arrays behind an offset exists *)
Definition readable (s : sample) (o : offset) (j : nat) : Prop := exists a, smp_from_sample s o j = Ok a.
(** sum of spectra *)
Definition vsum (l : list vec) : vec := fold_right vadd (spec 0) l.

(** mirror direction and refracted direction (relative index [eta], normal on wo's side) *)
Definition mirror (wo n : vec) : vec := vadd (vneg wo) (vscale (2 * vdot wo n) n).
Definition refract (eta : R) (wo n : vec) : vec :=
  vadd (vscale (- eta) wo) (vscale (eta * vdot wo n - sqrt (1 - eta * eta * (1 - vdot wo n * vdot wo n))) n).
(** [D] is the derivative at 0 of the vector-valued function [g] *)
Definition vderiv (g : R -> vec) (D : vec) : Prop :=
  derivable_pt_lim (fun t => vx (g t)) 0 (vx D) /\ derivable_pt_lim (fun t => vy (g t)) 0 (vy D) /\
  derivable_pt_lim (fun t => vz (g t)) 0 (vz D).
Definition moved (a d : vec) (t : R) : vec := vadd a (vscale t d).
