(** Specification vocabulary for the reflection properties. *)
From Coq Require Import Reals List ZArith Bool.
From Verif Require Import Base M_Geometry S_Geometry M_Reflection.
Import ListNotations.
Open Scope R_scope.

(** every bit of a is a bit of b *)
Definition subset_bits (a b : Z) : Prop := forall i, Z.testbit a i = true -> Z.testbit b i = true.
(** the lobe carries the reflection (bit 0) / transmission (bit 1) flag *)
Definition reflective (b : bdf) : Prop := Z.testbit (bdf_type b) 0 = true.
Definition transmissive (b : bdf) : Prop := Z.testbit (bdf_type b) 1 = true.

(** both directions strictly on the same side of the plane with normal n *)
Definition same_side (n a b : vec) : Prop := 0 < vdot a n * vdot b n.

(** componentwise order on spectra *)
Definition spec_ge0 (s : vec) : Prop := 0 <= vx s /\ 0 <= vy s /\ 0 <= vz s.
Definition spec_le (s t : vec) : Prop := vx s <= vx t /\ vy s <= vy t /\ vz s <= vz t.

(** sum of a list of possibly failing spectra: the first failure wins *)
Fixpoint sum_res (l : list (res vec)) : res vec :=
  match l with
  | [] => Ok vzero
  | Ok v :: l' => match sum_res l' with Ok s => Ok (vadd v s) | Err e => Err e end
  | Err e :: _ => Err e
  end.
Definition sumR (l : list R) : R := fold_right Rplus 0 l.

(** A generic pair of unit directions: neither grazing, nor exactly opposite, nor exactly opposite after
    mirroring one of them in the surface (where the half vector does not exist). *)
Definition generic_pair (wo wi : vec) : Prop :=
  unit wo /\ unit wi /\ vz wo <> 0 /\ vz wi <> 0 /\
  ~ (vx wo = - vx wi /\ vy wo = - vy wi /\ Rabs (vz wo) = Rabs (vz wi)).

(** Textbook Fresnel reflectance of a dielectric for unpolarised light: cosines ci, ct of the angles of
    incidence and transmission in media with indices ei, et. *)
Definition fresnel_dielectric (ci ct ei et : R) : R :=
  (Rsqr ((et * ci - ei * ct) / (et * ci + ei * ct)) + Rsqr ((ei * ci - et * ct) / (ei * ci + et * ct))) / 2.

(** wi lies in the plane of wo and the surface normal, on the other side of the normal: the tangential
    parts are anti-parallel with ratio k (Snell's law: k = index on wo's side / index on wi's side). *)
Definition refracts (k : R) (wo wi : vec) : Prop :=
  vx wi = - k * vx wo /\ vy wi = - k * vy wo.

(** lobes that are neither adapters nor specular *)
Definition plain (b : bdf) : Prop :=
  match b with
  | Lambertian _ | OrenNayar _ _ _ | Microfacet _ _ _ | FresnelBlend _ _ _ | ReHalfangle _ _ _ _ => True
  | _ => False
  end.

(** Lobes built from legal parameters: microfacet exponents above -1, tables of the announced size. *)
Definition dist_ok (d : mdist) : Prop :=
  match d with Blinn e => -1 < e | Aniso ex ey => -1 < ex /\ -1 < ey end.
Definition table_shape (data : list (list (list vec))) (a b c : Z) : Prop :=
  (1 <= a)%Z /\ (1 <= b)%Z /\ (1 <= c)%Z /\ Z.of_nat (length data) = a /\
  Forall (fun m => Z.of_nat (length m) = b /\ Forall (fun r => Z.of_nat (length r) = c) m) data.
Fixpoint lobe_ok (b : bdf) : Prop :=
  match b with
  | Microfacet _ _ d | FresnelBlend _ _ d => dist_ok d
  | ReHalfangle data x y z => table_shape data x y z
  | SpecularTransmission _ ei et => 0 < ei /\ 0 < et
  | BRDF2BTDF b | ScaledBDF b _ => lobe_ok b
  | _ => True
  end.

(** Non-negative, physically sensible parameters. *)
Definition fresnel_ok (f : fresnel) : Prop :=
  match f with
  | FrCond eta k => 0 < vx eta /\ 0 < vy eta /\ 0 < vz eta
  | FrDiel ei et => 0 < ei /\ 0 < et
  | FrFull => True
  end.
Fixpoint params_ok (b : bdf) : Prop :=
  match b with
  | Lambertian r => spec_ge0 r
  | OrenNayar r A B => spec_ge0 r /\ exists sig r', OrenNayar r' A B = oren_nayar r' sig
  | Microfacet r fr d => spec_ge0 r /\ fresnel_ok fr /\ dist_ok d
  | FresnelBlend rd rs d => spec_ge0 rd /\ spec_ge0 rs /\ spec_le rs (mkV 1 1 1) /\ dist_ok d
  | ReHalfangle data a b c => table_shape data a b c /\ Forall (Forall (Forall spec_ge0)) data
  | SpecularReflection r fr => spec_ge0 r /\ fresnel_ok fr
  | SpecularTransmission t ei et => spec_ge0 t /\ 0 < ei /\ 0 < et
  | BRDF2BTDF b => params_ok b
  | ScaledBDF b s => params_ok b /\ spec_ge0 s
  end.
(** the pair of local directions is on the side(s) the lobe describes *)
Definition lobe_side (b : bdf) (wo wi : vec) : Prop :=
  (reflective b -> 0 < vz wo * vz wi) /\ (transmissive b -> vz wo * vz wi < 0).

(** every channel of s lies between the least and the greatest value of that channel in the list *)
Definition within (lo hi s : vec) : Prop := spec_le lo s /\ spec_le s hi.

(** A right-handed orthonormal shading frame (sn, tn, nn). *)
Definition bs_ok (s : bsdf) : Prop :=
  unit (bs_sn s) /\ unit (bs_nn s) /\ orth (bs_sn s) (bs_nn s) /\ bs_tn s = vcross (bs_nn s) (bs_sn s).
(** The frame consists of the world axes, up to sign. *)
Definition world_axes (s : bsdf) : Prop :=
  (exists e, (e = 1 \/ e = -1) /\ bs_sn s = mkV e 0 0) /\
  (exists e, (e = 1 \/ e = -1) /\ bs_tn s = mkV 0 e 0) /\
  (exists e, (e = 1 \/ e = -1) /\ bs_nn s = mkV 0 0 e).
(** The index ratio SpecularTransmission uses: et/ei above the surface, ei/et below. *)
Definition used_ratio (ei et : R) (wo : vec) : R := if Rltb 0 (vz wo) then et / ei else ei / et.
(** The ratio Snell's law prescribes: index on wo's side over index on the other side, for a lobe whose
    outside index is ei and inside index et. *)
Definition snell_ratio (ei et : R) (wo : vec) : R := if Rltb 0 (vz wo) then ei / et else et / ei.
