(** Model of pytracer/reflection/{utility,fresnel,bsdf}.py and
    pytracer/reflection/bdf/{bdf,fresnelblend,measured,orennayar,torrance}.py.
    Floats are reals and a Spectrum is an RGB triple (spectral/__init__.py selects RGBSpectrum; numpy
    arithmetic on it is componentwise).  Divisions by zero (numpy inf/nan) are outside the domain: the
    theorems carry the hypotheses that exclude them. *)
From Coq Require Import Reals List ZArith Bool.
From Verif Require Import Base M_Geometry M_Transform M_MonteCarlo M_Film M_Shapes.
Import ListNotations.
Open Scope R_scope.

(** Spectrum(x) for a float x (spectral/spectrum.py: every coefficient is x) *)
Definition spec (x : R) : vec := mkV x x x.
(** numpy componentwise product, quotient *)
Definition smul : vec -> vec -> vec := vmap2 Rmult.
Definition sdiv (s : vec) (k : R) : vec := vmap (fun x => x / k) s.
(** numpy.power(x, e) for a base x >= 0 (0 ** 0 = 1; 0 ** e = 0 for e > 0; a negative exponent at 0 is
    outside the domain) *)
Definition np_power (x e : R) : R :=
  if Reqb x 0 then (if Reqb e 0 then 1 else 0) else Rpower x e.

(** ** reflection/utility.py *)
(** reflection/utility.py:19-20 *)
Definition cos_theta (w : vec) : R := vz w.
(** reflection/utility.py:23-24 *)
Definition abs_cos_theta (w : vec) : R := Rabs (vz w).
(** reflection/utility.py:27-28 *)
Definition sin_theta_sq (w : vec) : R := pmax 0 (1 - vz w * vz w).
(** reflection/utility.py:31-32 *)
Definition sin_theta (w : vec) : R := sqrt (pmax 0 (1 - vz w * vz w)).
(** reflection/utility.py:35-37 *)
Definition cos_phi (w : vec) : R :=
  if Reqb (pmax 0 (1 - vz w * vz w)) 0 then 1
  else clip (vx w / sqrt (pmax 0 (1 - vz w * vz w))) (-1) 1.
(** reflection/utility.py:40-42 *)
Definition sin_phi (w : vec) : R :=
  if Reqb (pmax 0 (1 - vz w * vz w)) 0 then 0
  else clip (vy w / sqrt (pmax 0 (1 - vz w * vz w))) (-1) 1.
(** reflection/utility.py:46-57 (called with scalar indices; the first denominator is as written) *)
Definition fr_diel (ci ct ei et : R) : R :=
  let r_para := (et * ci - ei * ct) / (et * ci + et * ct) in
  let r_perp := (ei * ci - et * ct) / (ei * ci + et * ct) in
  (1/2) * (r_para * r_para + r_perp * r_perp).
(** reflection/utility.py:60-73, one coefficient *)
Definition fr_cond1 (c eta k : R) : R :=
  let tmp := (eta * eta + k * k) * c * c in
  let r_para := (tmp - 2 * eta * c + 1) / (tmp + 2 * eta * c + 1) in
  let tmp' := eta * eta + k * k in
  let r_perp := (tmp' - 2 * eta * c + c * c) / (tmp' + 2 * eta * c + c * c) in
  (1/2) * (r_para + r_perp).
(** reflection/utility.py:60-73 *)
Definition fr_cond (c : R) (eta k : vec) : vec := vmap2 (fr_cond1 c) eta k.
(** reflection/utility.py:76-90 *)
Definition brdf_remap (wo wi : vec) : vec :=
  let d0 := spherical_phi wi - spherical_phi wo in
  let d1 := if Rltb d0 0 then d0 + 2 * PI else d0 in
  let d2 := if Rltb (2 * PI) d1 then d1 - 2 * PI else d1 in
  let d3 := if Rltb PI d2 then 2 * PI - d2 else d2 in
  mkV (sin_theta wi * sin_theta wo) (d3 * (1 / PI)) (cos_theta wi * cos_theta wo).

(** ** reflection/fresnel.py *)
(** reflection/fresnel.py:36-38, 50-52, 75-81: the three Fresnel classes and their fields *)
Inductive fresnel := FrCond (eta k : vec) | FrDiel (ei et : R) | FrFull.
(** reflection/fresnel.py:54-72 (FresnelDielectric.__call__) *)
Definition fr_diel_call (ei0 et0 cosi : R) : R :=
  let ci := clip cosi (-1) 1 in
  let '(ei, et) := if Rltb cosi 0 then (et0, ei0) else (ei0, et0) in
  let st := ei / et * sqrt (pmax 0 (1 - ci * ci)) in
  if Rleb 1 st then 1
  else let ct := sqrt (pmax 0 (1 - st * st)) in fr_diel (Rabs ci) ct ei et.
(** reflection/fresnel.py:40-41, 54-72, 82-83: __call__; a scalar result is used as a constant spectrum *)
Definition fresnel_call (f : fresnel) (cosi : R) : vec :=
  match f with
  | FrCond eta k => fr_cond (Rabs cosi) eta k
  | FrDiel ei et => spec (fr_diel_call ei et cosi)
  | FrFull => spec 1
  end.

(** ** reflection/bdf/torrance.py: microfacet distributions *)
(** torrance.py:66-67, 106-108: the fields after construction *)
Inductive mdist := Blinn (e : R) | Aniso (ex ey : R).
(** torrance.py:66-67 (np.clip(e, -inf, 10000)) *)
Definition blinn_make (e : R) : mdist := Blinn (Rmin e 10000).
(** torrance.py:106-108 *)
Definition aniso_make (ex ey : R) : mdist := Aniso (Rmin ex 10000) (Rmin ey 10000).
(** torrance.py:69-70, 110-118 *)
Definition mdist_D (d : mdist) (wh : vec) : R :=
  match d with
  | Blinn e => (e + 2) * (1 / (2 * PI)) * np_power (abs_cos_theta wh) e
  | Aniso ex ey =>
      let cth := abs_cos_theta wh in
      let d := 1 - cth * cth in
      if Reqb d 0 then 0
      else sqrt ((ex + 2) * (ey + 2)) * (1 / (2 * PI)) *
           np_power cth ((ex * vx wh * vx wh + ey * vy wh * vy wh) / d)
  end.
(** torrance.py:95-102, 174-184 *)
Definition mdist_pdf (d : mdist) (wo wi : vec) : R :=
  let wh := normalize (vadd wo wi) in
  let ct := abs_cos_theta wh in
  match d with
  | Blinn e =>
      if Rleb (vdot wo wh) 0 then 0
      else ((e + 1) * np_power ct e) / (2 * PI * 4 * vdot wo wh)
  | Aniso ex ey =>
      let ds := 1 - ct * ct in
      if Rltb 0 ds && Rltb 0 (vdot wo wh) then
        (sqrt ((ex + 1) * (ey + 1)) * (1 / (2 * PI)) *
         np_power ct ((ex * vx wh * vx wh + ey * vy wh * vy wh) / ds)) / (4 * vdot wo wh)
      else 0
  end.
(** torrance.py:120-135 (__sample_first_quad) *)
Definition first_quad (ex ey u1 u2 : R) : R * R :=
  let phi := if Reqb ex ey then PI * u1 * (1/2)
             else atan (sqrt ((ex + 1) / (ey + 1)) * tan (PI * u1 * (1/2))) in
  let cp := cos phi in let sp := sin phi in
  (phi, np_power u2 (1 / (ex * cp * cp + ey * sp * sp + 1))).
(** torrance.py:75-81 and 140-158: the sampled half vector and its cosine before flipping *)
Definition mdist_half (d : mdist) (wo : vec) (u1 u2 : R) : vec * R :=
  let '(phi, ct) :=
    match d with
    | Blinn e => (u2 * 2 * PI, np_power u1 (1 / (e + 1)))
    | Aniso ex ey =>
        if Rltb u1 (1/4) then first_quad ex ey (4 * u1) u2
        else if Rltb u1 (1/2) then
          let '(phi, ct) := first_quad ex ey (4 * (1/2 - u1)) u2 in (PI - phi, ct)
        else if Rltb u1 (3/4) then
          let '(phi, ct) := first_quad ex ey (4 * (u1 - 1/2)) u2 in (phi + PI, ct)
        else
          let '(phi, ct) := first_quad ex ey (4 * (1 - u1)) u2 in (2 * PI - phi, ct)
    end in
  let st := sqrt (pmax 0 (1 - ct * ct)) in
  let wh := spherical_direction st ct phi in
  (if Rleb (vz wo * vz wh) 0 then vscale (-1) wh else wh, ct).
(** torrance.py:84, 161: -wo + 2 (wo . wh) wh *)
Definition reflect_about (wo wh : vec) : vec := vadd (vneg wo) (vscale (2 * vdot wo wh) wh).
(** torrance.py:72-93, 137-172 (sample_f): [pdf, wi] *)
Definition mdist_sample (d : mdist) (wo : vec) (u1 u2 : R) : R * vec :=
  let '(wh, ct) := mdist_half d wo u1 u2 in
  let wi := reflect_about wo wh in
  match d with
  | Blinn e =>
      let pdf := ((e + 1) * np_power ct e) / (2 * PI * 4 * vdot wo wh) in
      (if Rleb (vdot wo wh) 0 then 0 else pdf, wi)
  | Aniso ex ey =>
      let ct := abs_cos_theta wh in
      let ds := 1 - ct * ct in
      if Rltb 0 ds && Rltb 0 (vdot wo wh) then
        ((sqrt ((ex + 1) * (ey + 1)) * (1 / (2 * PI)) *
          np_power ct ((ex * vx wh * vx wh + ey * vy wh * vy wh) / ds)) / (4 * vdot wo wh), wi)
      else (0, wi)
  end.

(** ** Lobes (reflection/bdf/*.py) *)
(** The constructible lobe classes and their fields: bdf.py:182-184, 211-214, 236-239, 267-272, 317-325,
    fresnelblend.py:29-33, measured.py:78-83, orennayar.py:36-42, torrance.py:194-198.
    OrenNayar stores A and B; use [oren_nayar] to construct it.  (IrIsotropicBRDF is modelled separately
    below.) *)
Inductive bdf :=
| Lambertian (r : vec)
| OrenNayar (r : vec) (A B : R)
| Microfacet (r : vec) (fr : fresnel) (d : mdist)
| FresnelBlend (rd rs : vec) (d : mdist)
| ReHalfangle (data : list (list (list vec))) (nth ntd npd : Z)
| SpecularReflection (r : vec) (fr : fresnel)
| SpecularTransmission (t : vec) (ei et : R)
| BRDF2BTDF (b : bdf)
| ScaledBDF (b : bdf) (s : vec).
(** orennayar.py:36-42 *)
Definition oren_nayar (r : vec) (sig : R) : bdf :=
  let sig := deg2rad sig in
  let sq := sig * sig in
  OrenNayar r (1 - (sq / (2 * (sq + 33/100)))) (45/100 * sq / (sq + 9/100)).

(** bdf.py:60-70 *)
Definition REFLECTION : Z := 1.
(** bdf.py:61 *)
Definition TRANSMISSION : Z := 2.
(** bdf.py:62 *)
Definition DIFFUSE : Z := 4.
(** bdf.py:63 *)
Definition GLOSSY : Z := 8.
(** bdf.py:64 *)
Definition SPECULAR : Z := 16.
(** bdf.py:65-70 *)
Definition ALL : Z := Z.lor REFLECTION (Z.lor TRANSMISSION (Z.lor DIFFUSE (Z.lor GLOSSY SPECULAR))).

(** the type field set by each constructor: bdf.py:183, 212, 237, 268, 321, fresnelblend.py:30,
    measured.py:79, orennayar.py:37, torrance.py:195 *)
Fixpoint bdf_type (b : bdf) : Z :=
  match b with
  | Lambertian _ | OrenNayar _ _ _ => Z.lor REFLECTION DIFFUSE
  | Microfacet _ _ _ | FresnelBlend _ _ _ | ReHalfangle _ _ _ _ => Z.lor REFLECTION GLOSSY
  | SpecularReflection _ _ => Z.lor REFLECTION SPECULAR
  | SpecularTransmission _ _ _ => Z.lor TRANSMISSION SPECULAR
  | BRDF2BTDF b => Z.lxor (bdf_type b) (Z.lor REFLECTION TRANSMISSION)
  | ScaledBDF b _ => bdf_type b
  end.
(** bdf.py:166-170 *)
Definition match_flag (b : bdf) (flag : Z) : bool := (Z.land (bdf_type b) flag =? bdf_type b)%Z.

(** bdf.py:186-188 *)
Definition switch (w : vec) : vec := mkV (vx w) (vy w) (- vz w).

(** orennayar.py:44-62 *)
Definition oren_nayar_f (r : vec) (A B : R) (wo wi : vec) : vec :=
  let st_i := sin_theta wi in
  let st_o := sin_theta wo in
  let mc := if Rltb EPS st_i && Rltb EPS st_o
            then pmax 0 (cos_phi wi * cos_phi wo + sin_phi wi * sin_phi wo) else 0 in
  let '(sa, tb) := if Rltb (abs_cos_theta wo) (abs_cos_theta wi)
                   then (st_o, st_i / abs_cos_theta wi) else (st_i, st_o / abs_cos_theta wo) in
  vscale (A + B * mc * sa * tb) (vscale (1 / PI) r).
(** torrance.py:214-216 *)
Definition mf_G (wo wi wh : vec) : R :=
  pmin 1 (pmin (2 * abs_cos_theta wh * abs_cos_theta wo / abs_dot wo wh)
               (2 * abs_cos_theta wh * abs_cos_theta wi / abs_dot wo wh)).
(** torrance.py:200-212 *)
Definition microfacet_f (r : vec) (fr : fresnel) (d : mdist) (wo wi : vec) : vec :=
  let ct_i := cos_theta wi in
  let ct_o := cos_theta wo in
  if Reqb ct_i 0 || Reqb ct_o 0 then spec 0
  else
    let wh := normalize (vadd wi wo) in
    let ct_h := vdot wi wh in
    let F := fresnel_call fr ct_h in
    sdiv (smul (vscale (mf_G wo wi wh) (vscale (mdist_D d wh) r)) F) (4 * ct_i * ct_o).
(** fresnelblend.py:35-40 *)
Definition schlick (rs : vec) (ct : R) : vec := vadd rs (vscale ((1 - ct) ^ 5) (vsub (spec 1) rs)).
(** fresnelblend.py:63-75 *)
Definition fresnel_blend_f (rd rs : vec) (d : mdist) (wo wi : vec) : vec :=
  let diffuse := vscale (1 - (1 - (1/2) * abs_cos_theta wo) ^ 5)
                   (vscale (1 - (1 - (1/2) * abs_cos_theta wi) ^ 5)
                     (smul (vscale (28 / (23 * PI)) rd) (vsub (spec 1) rs))) in
  let wh := normalize (vadd wi wo) in
  let specular := vscale (mdist_D d wh / (4 * abs_dot wi wh * pmax (abs_cos_theta wi) (abs_cos_theta wo)))
                         (schlick rs (vdot wi wh)) in
  vadd diffuse specular.
(** measured.py:85-107: numpy.clip on an integer index *)
Definition zclip (x lo hi : Z) : Z := Z.min (Z.max x lo) hi.
(** measured.py:85-107: the three table indices *)
Definition rehalf_index (nth ntd npd : Z) (wo wi : vec) : Z * Z * Z :=
  let wh := normalize (vadd wi wo) in
  let t := spherical_theta wh in
  let cp := cos_phi wh in let sp := sin_phi wh in
  let ct := cos_theta wh in let st := sin_theta wh in
  let x := mkV (cp * ct) (sp * ct) (- st) in
  let y := mkV (- sp) cp 0 in
  let wd := mkV (vdot wi x) (vdot wi y) (vdot wi wh) in
  let wdt := spherical_theta wd in
  let wdp0 := spherical_phi wd in
  let wdp := if Rltb PI wdp0 then wdp0 - PI else wdp0 in
  (zclip (Ztrunc (sqrt (pmax 0 (t / (PI / 2))) / IZR nth)) 0 (nth - 1),
   zclip (Ztrunc (wdt / (IZR ntd * PI))) 0 (ntd - 1),
   zclip (Ztrunc (wdp / (IZR npd * PI))) 0 (npd - 1)).
(** measured.py:85-108; the table entry is an RGB triple and RGBSpectrum.from_rgb keeps it *)
Definition rehalf_f (data : list (list (list vec))) (nth ntd npd : Z) (wo wi : vec) : res vec :=
  let '(i, j, k) := rehalf_index nth ntd npd wo wi in
  do a <- get1 data i; do b <- get1 a j; get1 b k.

(** f(wo, wi): bdf.py:191, 217 (ScaledBDF reads the missing attribute [brdf]), 241-246, 274-279, 327-332
    and the functions above *)
Fixpoint bdf_f (b : bdf) (wo wi : vec) : res vec :=
  match b with
  | Lambertian r => Ok (vscale (1 / PI) r)
  | OrenNayar r A B => Ok (oren_nayar_f r A B wo wi)
  | Microfacet r fr d => Ok (microfacet_f r fr d wo wi)
  | FresnelBlend rd rs d => Ok (fresnel_blend_f rd rs d wo wi)
  | ReHalfangle data nth ntd npd => rehalf_f data nth ntd npd wo wi
  | SpecularReflection _ _ | SpecularTransmission _ _ _ => Ok (spec 0)
  | BRDF2BTDF b => bdf_f b wo (switch wi)
  | ScaledBDF _ _ => Err AttributeError
  end.
(** bdf.py:97-106 (BDF.pdf) *)
Definition base_pdf (wo wi : vec) : R :=
  if Rltb 0 (vz wo * vz wi) then abs_cos_theta wi * (1 / PI) else 0.
(** pdf(wo, wi): bdf.py:97-106 (also inherited by BRDF2BTDF and ScaledBDF), 248-249, 281-282,
    fresnelblend.py:58-61, torrance.py:225-228 *)
Definition bdf_pdf (b : bdf) (wo wi : vec) : R :=
  match b with
  | Microfacet _ _ d => if Rleb (vz wi * vz wo) 0 then 0 else mdist_pdf d wo wi
  | FresnelBlend _ _ d =>
      if Rleb (vz wo * vz wi) 0 then 0
      else (1/2) * (abs_cos_theta wi * (1 / PI) + mdist_pdf d wo wi)
  | SpecularReflection _ _ | SpecularTransmission _ _ _ => 0
  | _ => base_pdf wo wi
  end.
(** bdf.py:122-124 and fresnelblend.py:47-49: cosine sample moved to wo's side *)
Definition cosine_side (wo : vec) (u1 u2 : R) : vec :=
  let wi := cosine_sample_hemisphere u1 u2 in
  if Rltb (vz wo) 0 then mkV (vx wi) (vy wi) (vz wi * -1) else wi.
(** What sample_f returns: [pdf, wi, f]; wi and f are None only on total internal reflection. *)
Definition lobe_sample : Type := R * option (vec * vec).
(** bdf.py:121-126 (BDF.sample_f) *)
Definition base_sample (b : bdf) (wo : vec) (u1 u2 : R) : res lobe_sample :=
  let wi := cosine_side wo u1 u2 in
  do f <- bdf_f b wo wi; Ok (bdf_pdf b wo wi, Some (wi, f)).
(** bdf.py:251-256 *)
Definition mirror_dir (wo : vec) : vec := mkV (- vx wo) (- vy wo) (vz wo).
(** bdf.py:284-302: the transmitted direction, with the index pair (ei, et) in use; None on total internal
    reflection *)
Definition transmit_dir (ei0 et0 : R) (wo : vec) : option (vec * R * R) :=
  let '(ei, et) := if Rltb 0 (cos_theta wo) then (et0, ei0) else (ei0, et0) in
  let eta := ei / et in
  let st_sq := eta * eta * sin_theta_sq wo in
  if Rleb 1 st_sq then None
  else
    let ct := sqrt (pmax 0 (1 - st_sq)) in
    Some (mkV (eta * - vx wo) (eta * - vy wo) (if Rltb 0 (cos_theta wo) then - ct else ct), ei, et).
(** sample_f(wo, u1, u2): bdf.py:108-126, 193-195, 219-221, 251-256, 284-307, fresnelblend.py:42-56,
    torrance.py:218-223 *)
Fixpoint bdf_sample (b : bdf) (wo : vec) (u1 u2 : R) : res lobe_sample :=
  match b with
  | Lambertian _ | OrenNayar _ _ _ | ReHalfangle _ _ _ _ => base_sample b wo u1 u2
  | Microfacet r fr d =>
      let '(pdf, wi) := mdist_sample d wo u1 u2 in
      if Rleb (vz wi * vz wo) 0 then Ok (pdf, Some (wi, spec 0))
      else do f <- bdf_f b wo wi; Ok (pdf, Some (wi, f))
  | FresnelBlend rd rs d =>
      if Rltb u1 (1/2) then
        let wi := cosine_side wo (2 * u1) u2 in
        do f <- bdf_f b wo wi; Ok (bdf_pdf b wo wi, Some (wi, f))
      else
        let '(pdf, wi) := mdist_sample d wo (2 * (u1 - 1/2)) u2 in
        if Rleb (vz wo * vz wi) 0 then Ok (pdf, Some (wi, spec 0))
        else do f <- bdf_f b wo wi; Ok (bdf_pdf b wo wi, Some (wi, f))
  | SpecularReflection r fr =>
      let wi := mirror_dir wo in
      Ok (1, Some (wi, sdiv (smul (fresnel_call fr (cos_theta wo)) r) (abs_cos_theta wi)))
  | SpecularTransmission t ei0 et0 =>
      match transmit_dir ei0 et0 wo with
      | None => Ok (0, None)
      | Some (wi, ei, et) =>
          let F := fresnel_call (FrDiel ei0 et0) (cos_theta wo) in
          Ok (1, Some (wi, sdiv (smul (vscale (et * et / (ei * ei)) (vsub (spec 1) F)) t)
                                (abs_cos_theta wi)))
      end
  | BRDF2BTDF b =>
      do s <- bdf_sample b wo u1 u2;
      match snd s with
      | Some (wi, f) => Ok (fst s, Some (switch wi, f))
      | None => Err AttributeError
      end
  | ScaledBDF _ _ => Err AttributeError
  end.

(** bdf.py:128-144 (rho_hd of the base class): [acc] is r, [n] the number of samples *)
Fixpoint rho_hd_loop (b : bdf) (w : vec) (samples : list (R * R)) (acc : vec) : res vec :=
  match samples with
  | [] => Ok acc
  | (u1, u2) :: rest =>
      do s <- bdf_sample b w u1 u2;
      match s with
      | (pdf, Some (wi, f)) =>
          rho_hd_loop b w rest
            (if Rltb 0 pdf then vadd acc (sdiv (vscale (abs_cos_theta wi) f) pdf) else acc)
      | (pdf, None) => rho_hd_loop b w rest acc
      end
  end.
(** bdf.py:128-144, 197, 223, 334-335 *)
Fixpoint bdf_rho_hd (b : bdf) (w : vec) (samples : list (R * R)) : res vec :=
  match b with
  | Lambertian r => Ok r
  | BRDF2BTDF b => bdf_rho_hd b w samples
  | ScaledBDF _ _ => Err AttributeError
  | _ => do r <- rho_hd_loop b w samples (spec 0); Ok (sdiv r (INR (length samples)))
  end.

(** ** BSDF (reflection/bsdf.py) *)
(** bsdf.py:78-94 *)
Record bsdf := mkBSDF { bs_nn : vec; bs_sn : vec; bs_tn : vec; bs_ng : vec; bs_bdfs : list bdf }.
(** bsdf.py:78-94 (the index of refraction is stored but unused) *)
Definition bsdf_make (dg : dgeom) (ng : vec) : bsdf :=
  let sn := normalize (dg_dpdu dg) in
  mkBSDF (dg_nn dg) sn (vcross (dg_nn dg) sn) ng [].
(** bsdf.py:169-174 *)
Definition push_back (s : bsdf) (b : bdf) : bsdf :=
  mkBSDF (bs_nn s) (bs_sn s) (bs_tn s) (bs_ng s) (bs_bdfs s ++ [b]).
(** bsdf.py:187-194 *)
Definition w2l (s : bsdf) (v : vec) : vec := mkV (vdot v (bs_sn s)) (vdot v (bs_tn s)) (vdot v (bs_nn s)).
(** bsdf.py:196-205, as written *)
Definition l2w (s : bsdf) (v : vec) : vec :=
  mkV (vx (bs_sn s) * vx v + vx (bs_tn s) * vx v + vx (bs_nn s) * vx v)
      (vy (bs_sn s) * vy v + vy (bs_tn s) * vy v + vy (bs_nn s) * vy v)
      (vz (bs_sn s) * vz v + vz (bs_tn s) * vz v + vz (bs_nn s) * vz v).
(** bsdf.py:180-185 *)
Fixpoint count_matching (l : list bdf) (flags : Z) (n : nat) : nat :=
  match l with
  | [] => n
  | b :: l' => count_matching l' flags (if match_flag b flags then S n else n)
  end.
(** bsdf.py:180-185 *)
Definition n_components (s : bsdf) (flags : Z) : nat := count_matching (bs_bdfs s) flags 0.
(** bsdf.py:114-119: the first loop of sample_f; None: the loop ends without binding [bdf]
    (UnboundLocalError at 124) *)
Fixpoint pick (l : list bdf) (flags : Z) (cnt : Z) : option bdf :=
  match l with
  | [] => None
  | b :: l' => if match_flag b flags
               then if (cnt =? 0)%Z then Some b else pick l' flags (cnt - 1)
               else pick l' flags cnt
  end.
(** bsdf.py:113 *)
Definition pick_index (u_com : R) (n : nat) : Z :=
  Z.min (Zfloor (u_com * INR n)) (Z.of_nat n - 1).
(** bsdf.py:207-222: the sum over matching lobes *)
Fixpoint sum_f (l : list bdf) (flags : Z) (wo wi : vec) (acc : vec) : res vec :=
  match l with
  | [] => Ok acc
  | b :: l' => if match_flag b flags
               then do f <- bdf_f b wo wi; sum_f l' flags wo wi (vadd acc f)
               else sum_f l' flags wo wi acc
  end.
(** bsdf.py:211-216: the flags in force, by the side of the geometric normal *)
Definition side_flags (s : bsdf) (wo_w wi_w : vec) (flags : Z) : Z :=
  if Rltb 0 (vdot wi_w (bs_ng s) * vdot wo_w (bs_ng s))
  then Z.land flags (Z.lnot TRANSMISSION) else Z.land flags (Z.lnot REFLECTION).
(** bsdf.py:207-224 (BSDF.f) *)
Definition bsdf_f (s : bsdf) (wo_w wi_w : vec) (flags : Z) : res vec :=
  sum_f (bs_bdfs s) (side_flags s wo_w wi_w flags) (w2l s wo_w) (w2l s wi_w) (spec 0).
(** bsdf.py:162-165 *)
Fixpoint sum_pdf (l : list bdf) (flags : Z) (wo wi : vec) (acc : R) : R :=
  match l with
  | [] => acc
  | b :: l' => sum_pdf l' flags wo wi (if match_flag b flags then acc + bdf_pdf b wo wi else acc)
  end.
(** bsdf.py:156-167 (BSDF.pdf) *)
Definition bsdf_pdf (s : bsdf) (wo_w wi_w : vec) (flags : Z) : R :=
  match bs_bdfs s with
  | [] => 0
  | _ =>
      let n := n_components s flags in
      let p := sum_pdf (bs_bdfs s) flags (w2l s wo_w) (w2l s wi_w) 0 in
      if (0 <? n)%nat then p / INR n else 0
  end.
(** What BSDF.sample_f returns: [pdf, wi_w, type, f]; None stands for Python's None. *)
Record bsdf_smp := mkSmp { sm_pdf : R; sm_wi : option vec; sm_type : option Z; sm_f : vec }.
(** bsdf.py:100-154 (BSDF.sample_f).  [bdf.type & BDFType.SPECULAR] (132, 141) is a BDFType object, which is
    always truthy, so the two [not ...] branches are never taken. *)
Definition bsdf_sample (s : bsdf) (wo_w : vec) (u0 u1 u_com : R) (flags : Z) : res bsdf_smp :=
  let n := n_components s flags in
  if (n =? 0)%nat then Ok (mkSmp 0 None None (spec 0))
  else
    match pick (bs_bdfs s) flags (pick_index u_com n) with
    | None => Err UnboundLocalError
    | Some b =>
        do r <- bdf_sample b (w2l s wo_w) u0 u1;
        let '(pdf, o) := r in
        if Reqb pdf 0 then Ok (mkSmp pdf None (Some (bdf_type b)) (spec 0))
        else match o with
             | None => Err AttributeError
             | Some (wi, f) =>
                 Ok (mkSmp (if (1 <? n)%nat then pdf / INR n else pdf) (Some (l2w s wi))
                           (Some (bdf_type b)) f)
             end
    end.

(** ** IrIsotropicBRDF (reflection/bdf/measured.py:39-66) *)
(** measured.py:51-66; [query m d] is the k-d tree's query_ball_point.  Result: None is the all-NaN
    spectrum 0/0 (no sample within reach); the natural number counts the queries.  [fuel] bounds the
    [while True]; running out of fuel is reported as the outer None. *)
Fixpoint ir_loop (query : vec -> R -> list nat) (data : list (vec * vec)) (m : vec) (max_dist : R)
  (fuel k : nat) : option (res (option vec) * nat) :=
  match fuel with
  | O => None
  | S fuel' =>
      let idx := query m max_dist in
      if (2 <? length idx)%nat || Rltb (3/2) max_dist then
        let step := fun (a : res (R * vec)) i =>
          do s <- a;
          do smp <- nth_res data i;
          let wt := exp (sq_length (vsub (fst smp) m) * -100) in
          Ok (fst s + wt, vadd (snd s) (vscale wt (snd smp))) in
        Some (do r <- fold_left step idx (Ok (0, spec 0));
              Ok (if Reqb (fst r) 0 then None
                  else Some (sdiv (vmap (fun x => Rmax x 0) (snd r)) (fst r))), S k)
      else ir_loop query data m (max_dist * (1414/1000)) fuel' (S k)
  end.
(** measured.py:51-66 *)
Definition ir_f (query : vec -> R -> list nat) (data : list (vec * vec)) (wo wi : vec) (fuel : nat)
  : option (res (option vec) * nat) := ir_loop query data (brdf_remap wo wi) (1/100) fuel 0.
