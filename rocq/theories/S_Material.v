(** Specification vocabulary for the material properties. *)
From Coq Require Import String.
From Coq Require Import Reals List ZArith Bool.
From Verif Require Import Base M_Geometry S_Geometry M_Shapes M_Reflection S_Reflection M_Material.
Import ListNotations.
Open Scope R_scope.

(** negative coefficients replaced by 0 *)
Definition positive_part (s : vec) : vec := mkV (Rmax 0 (vx s)) (Rmax 0 (vy s)) (Rmax 0 (vz s)).
(** every coefficient below 10^-5 *)
Definition nearly_black (s : vec) : Prop := vx s < EPS /\ vy s < EPS /\ vz s < EPS.
(** a usable surface parametrisation *)
Definition regular (g : dgeom) : Prop := vcross (dg_dpdu g) (dg_dpdv g) <> vzero.
(** the geometry a material's textures are evaluated at: the shading geometry, its normal recomputed from the
    parametrisation ([flip]: the surface's orientation is reversed) and without a filter footprint *)
Definition at_hit (flip : bool) (s : dgeom) : dgeom :=
  mkDG (dg_p s) (dg_dpdu s) (dg_dpdv s) (dg_dndu s) (dg_dndv s)
       (vscale (if flip then -1 else 1) (normalize (vcross (dg_dpdu s) (dg_dpdv s)))) (dg_u s) (dg_v s)
       0 0 0 0 vzero vzero.
(** Oren and Nayar's reflectance of a rough diffuse surface with normal n, albedo r and facet slope deviation of
    [deg] degrees; wo, wi unit vectors.  cos(phi_i - phi_o) sin(alpha) tan(beta) is written with dot products. *)
Definition oren_nayar_value (r : vec) (deg : R) (n wo wi : vec) : vec :=
  let s := deg * PI / 180 in
  let A := 1 - s * s / (2 * (s * s + 33 / 100)) in
  let B := 45 / 100 * (s * s) / (s * s + 9 / 100) in
  let co := vdot wo n in let ci := vdot wi n in
  vscale ((A + B * (Rmax 0 (vdot wo wi - co * ci) / Rmax (Rabs co) (Rabs ci))) / PI) r.
(** not closer to the normal than the shading code's threshold *)
Definition off_normal (n w : vec) : Prop := EPS * EPS < 1 - vdot w n * vdot w n.

(** a texture that depends on the position and the surface coordinates only *)
Definition pointwise {A} (t : dgeom -> A) : Prop :=
  forall g h, dg_p g = dg_p h -> dg_u g = dg_u h -> dg_v g = dg_v h -> t g = t h.

(** Materials without bump map whose texture values at q are physically sensible. *)
Definition sensible (m : material) (q : dgeom) : Prop :=
  match m with
  | Matte _ _ None | Mirror _ None => True
  | Plastic _ _ rough None => 0 < rough q
  | Metal eta _ rough None => 0 < rough q /\ 0 < vx (eta q) /\ 0 < vy (eta q) /\ 0 < vz (eta q)
  | Glass _ _ index None => 0 < index q
  | Uber _ _ _ _ rough opacity eta None =>
      0 < rough q /\ 0 < eta q /\ vx (opacity q) <= 1 /\ vy (opacity q) <= 1 /\ vz (opacity q) <= 1
  | KdSubsurface _ _ _ eta None => 0 < eta q
  | _ => False
  end.

(** a measured sample: angles of incidence and exitance (theta, phi) and one value per wavelength *)
Record msample := mkMS { ms_thi : R; ms_phi : R; ms_tho : R; ms_pho : R; ms_vals : list R }.
(** the numbers of a data file: the number of wavelengths, the wavelengths, then the samples *)
Definition encode (wls : list R) (l : list msample) : list R :=
  INR (length wls) :: wls ++
  flat_map (fun s => ms_thi s :: ms_phi s :: ms_tho s :: ms_pho s :: ms_vals s) l.
(** the numbers a text contains: blank lines and lines starting with '#' do not count *)
Inductive spells : list (list tok) -> list R -> Prop :=
| sp_nil : spells [] []
| sp_blank lines v : spells lines v -> spells ([] :: lines) v
| sp_comment rest lines v : spells lines v -> spells ((Hash :: rest) :: lines) v
| sp_data nums lines v : nums <> [] -> spells lines v -> spells (map Num nums :: lines) (nums ++ v).
Definition dir_of (theta phi : R) : vec := mkV (sin theta * cos phi) (sin theta * sin phi) (cos theta).
