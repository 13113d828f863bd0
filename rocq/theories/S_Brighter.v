(** Specification: more light. *)
From Coq Require Import Reals List Bool ZArith.
From Verif Require Import Base M_Geometry M_MonteCarlo M_Aggregate M_Reflection M_Utility M_Spectrum M_Sampler M_Film M_Light M_Shapes M_Material M_Integrator S_Reflection S_Superpose.
Import ListNotations.
Local Open Scope R_scope.

(** Every channel at least as bright. *)
Definition no_darker (a b : vec) : Prop := vx a <= vx b /\ vy a <= vy b /\ vz a <= vz b.
(** A surface point whose reflection function and mirror sample are never negative. *)
Definition reflects_light (b : bsdf) : Prop :=
  (forall wo wi f, bsdf_f b wo wi ALL = Ok f -> spec_ge0 f) /\
  (forall wo x y z s, bsdf_sample b wo x y z (Z.lor REFLECTION SPECULAR) = Ok s -> 0 < sm_pdf s -> spec_ge0 (sm_f s)).
(** A light that does not use random numbers, whose radiance and density are never negative. *)
Definition gives_light (l : light) : Prop :=
  steady_light l /\ (forall r, spec_ge0 (lt_le l r)) /\
  (forall p eps a t Li wi pdf vis, lt_sample l p eps a t = Ok (Li, wi, pdf, vis) -> spec_ge0 Li /\ 0 <= pdf).
(** Matte without roughness, mirrors, glass (of positive index), with any textures and bump maps. *)
Definition simple_material (m : material) : Prop :=
  match m with
  | Matte _ sigma _ => forall g, sigma g <= 0
  | Mirror _ _ => True
  | Glass _ _ index _ => forall g, 0 < index g
  | _ => False
  end.
