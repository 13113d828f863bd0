(** Specification for adding light sources together. *)
From Coq Require Import Reals List Bool ZArith.
From Verif Require Import Base M_Geometry M_MonteCarlo M_Aggregate M_Reflection M_Utility M_Spectrum M_Sampler M_Film M_Light M_Shapes M_Material M_Integrator.
Import ListNotations.
Local Open Scope R_scope.

(** The same geometry and materials with the lights [ls] and the surface emission [le]. *)
Definition lit_with {V} (e : env V) (ls : list light) (le : V -> vec -> vec) : env V :=
  mkEnv V ls (hit e) (hit_p e) le (v_eps e) (v_bsdf e) (b_dgs_nn e) (diffs e) (vol e).
(** A light whose sample is the same whatever the random numbers (point, spot, goniometric lights). *)
Definition steady_light (l : light) : Prop := forall p eps a a' t, lt_sample l p eps a t = lt_sample l p eps a' t.
(** A surface point where there is at most one way to be reflected, and one to be transmitted, like a mirror or glass:
    the sample does not depend on the random numbers, which are in [0,1). *)
Definition in_unit (x : R) : Prop := 0 <= x < 1.
Definition steady_bsdf (b : bsdf) : Prop := forall (flags : Z) wo x y z x' y' z',
  flags = Z.lor REFLECTION SPECULAR \/ flags = Z.lor TRANSMISSION SPECULAR ->
  in_unit x -> in_unit y -> in_unit z -> in_unit x' -> in_unit y' -> in_unit z' ->
  bsdf_sample b wo x y z flags = bsdf_sample b wo x' y' z' flags.
Definition steady_surfaces {V} (e : env V) : Prop := forall v r p b, v_bsdf e v r = Ok (p, b) -> steady_bsdf b.
Definition steady_stream (u : nat -> R) : Prop := forall j, in_unit (u j).
(** UberMaterial transmits straight through where it is not opaque, and refracts where kt is not black: at most one of the two. *)
Definition one_transmission (m : material) : Prop :=
  match m with
  | Uber _ _ _ kt _ opacity _ _ => (forall g, kt g = spec 0) \/ (forall g, opacity g = spec 1)
  | _ => True
  end.
