(** Model of pytracer/material/material.py, geometry/diffgeom.py:47-48 (copy) and
    aggregate/intersection.py:33-39, aggregate/primitive.py:127-133 (get_bsdf, get_bssrdf).
    Floats are reals, a Spectrum is an RGB triple.  A texture is a total function of the differential geometry
    it is called with (a texture that raises makes get_bsdf raise the same way; not modelled here). *)
From Coq Require Import String.
From Coq Require Import Reals List ZArith Bool.
From Verif Require Import Base M_Python M_Geometry M_Transform M_MonteCarlo M_Film M_Shapes M_Reflection.
From Verif Require M_Utility.
Import ListNotations.
Open Scope R_scope.

(** Spectrum and FLOAT textures: material.py:113-120 ([self.Kd], [self.sigma], ...) *)
Definition stex := dgeom -> vec.
Definition ftex := dgeom -> R.
(** spectral/spectrum.py:219-220 with the default bounds 0 and infinity *)
Definition sclip (s : vec) : vec := vmap (fun x => Rmax x 0) s.
(** spectral/spectrum.py:182-187 *)
Definition sblack (s : vec) : bool := Rltb (vx s) EPS && Rltb (vy s) EPS && Rltb (vz s) EPS.

(** geometry/diffgeom.py:47-48 through 21-42: [flip] is shape.ro xor shape.transform_swaps_handedness *)
Definition dg_copy (flip : bool) (g : dgeom) : dgeom :=
  dg_make flip (dg_p g) (dg_dpdu g) (dg_dpdv g) (dg_dndu g) (dg_dndv g) (dg_u g) (dg_v g).

(** material.py:52-99 (Material.bump): the three texture look-ups succeed and then line 90 reads the missing
    attribute Vector.fromNormal, whatever the texture *)
Definition bump (d : ftex) (dgg dgs : dgeom) : res dgeom := py_attr vector_names "fromNormal"%string (Ok dgs).
(** material.py:124-128 and the same lines of every other get_bsdf: the shading geometry used *)
Definition shading (flip : bool) (bm : option ftex) (dg_g dg_s : dgeom) : res dgeom :=
  match bm with Some d => bump d dg_g dg_s | None => Ok (dg_copy flip dg_s) end.
(** material.py:184, 253, 353: Blinn(1. / rough).  A roughness of exactly 0 is a Python float division by zero
    (a numpy float would give inf instead; simplification). *)
Definition blinn_of (rough : R) : res mdist :=
  if Reqb rough 0 then Err ZeroDivisionError else Ok (blinn_make (1 / rough)).

(** The material classes and their fields: material.py:113-120, 156-164, 200-206, 231-240, 269-278, 314-327,
    374-381, 533-540, 574-580.  (MeasuredMaterial is modelled below.) *)
Inductive material :=
| Matte (kd : stex) (sigma : ftex) (bm : option ftex)
| Plastic (kd ks : stex) (rough : ftex) (bm : option ftex)
| Mirror (kr : stex) (bm : option ftex)
| Metal (eta k : stex) (rough : ftex) (bm : option ftex)
| Glass (kr kt : stex) (index : ftex) (bm : option ftex)
| Uber (kd ks kr kt : stex) (rough : ftex) (opacity : stex) (eta : ftex) (bm : option ftex)
| Mix (m1 m2 : material) (scale : stex)
| Subsurface (scale : R) (kr sigma_a sigma_ps : stex) (eta : ftex) (bm : option ftex)
| KdSubsurface (kd kr : stex) (mfp : ftex) (eta : ftex) (bm : option ftex).

(** material.py:348-353, the glossy lobe of UberMaterial *)
Definition uber_glossy (ks : vec) (e rough : R) (s : bsdf) : res bsdf :=
  if sblack ks then Ok s
  else do d <- blinn_of rough; Ok (push_back s (Microfacet ks (FrDiel e 1) d)).
(** RGBSpectrum.__eq__ with [1., 1., 1.] (spectral/spectrum.py:60-61, used at material.py:341) *)
Definition is_white (op : vec) : bool := Reqb (vx op) 1 && Reqb (vy op) 1 && Reqb (vz op) 1.
(** material.py:339-362: the lobes pushed by UberMaterial, in order *)
Definition uber_lobes (op kd0 ks0 kr0 kt0 : vec) (rough e : R) (s0 : bsdf) : res bsdf :=
  let s1 := if is_white op then s0 else push_back s0 (SpecularTransmission (vsub (spec 1) op) 1 1) in
  let kd := smul op (sclip kd0) in
  let s2 := if sblack kd then s1 else push_back s1 (Lambertian kd) in
  let ks := smul op (sclip ks0) in
  do s3 <- uber_glossy ks e rough s2;
  let kr := smul op (sclip kr0) in
  let s4 := if sblack kr then s3 else push_back s3 (SpecularReflection kr (FrDiel e 1)) in
  let kt := smul op (sclip kt0) in
  Ok (if sblack kt then s4 else push_back s4 (SpecularTransmission kt e 1)).

(** get_bsdf(dg_g, dg_s): material.py:122-141, 166-189, 208-222, 242-258, 280-298, 329-364, 383-400, 542-555,
    582-596 *)
Fixpoint get_bsdf (m : material) (flip : bool) (dg_g dg_s : dgeom) : res bsdf :=
  match m with
  | Matte kd sigma bm =>
      do dgs <- shading flip bm dg_g dg_s;
      let s := bsdf_make dgs (dg_nn dg_g) in
      let r := sclip (kd dgs) in
      let sg := clip (sigma dgs) 0 90 in
      Ok (push_back s (if Reqb sg 0 then Lambertian r else oren_nayar r sg))
  | Plastic kd ks rough bm =>
      do dgs <- shading flip bm dg_g dg_s;
      let s := bsdf_make dgs (dg_nn dg_g) in
      do d <- blinn_of (rough dgs);
      Ok (push_back (push_back s (Lambertian (sclip (kd dgs)))) (Microfacet (sclip (ks dgs)) (FrDiel (3/2) 1) d))
  | Mirror kr bm =>
      do dgs <- shading flip bm dg_g dg_s;
      let s := bsdf_make dgs (dg_nn dg_g) in
      let r := sclip (kr dgs) in
      Ok (if sblack r then s else push_back s (SpecularReflection r FrFull))
  | Metal eta k rough bm =>
      do dgs <- shading flip bm dg_g dg_s;
      let s := bsdf_make dgs (dg_nn dg_g) in
      do d <- blinn_of (rough dgs);
      Ok (push_back s (Microfacet (spec 1) (FrCond (eta dgs) (k dgs)) d))
  | Glass kr kt index bm =>
      do dgs <- shading flip bm dg_g dg_s;
      let ior := index dgs in
      let s := bsdf_make dgs (dg_nn dg_g) in
      let r := sclip (kr dgs) in
      let s1 := if sblack r then s else push_back s (SpecularReflection r (FrDiel 1 ior)) in
      let t := sclip (kt dgs) in
      Ok (if sblack t then s1 else push_back s1 (SpecularTransmission t 1 ior))
  | Uber kd ks kr kt rough opacity eta bm =>
      do dgs <- shading flip bm dg_g dg_s;
      uber_lobes (sclip (opacity dgs)) (kd dgs) (ks dgs) (kr dgs) (kt dgs) (rough dgs) (eta dgs)
                 (bsdf_make dgs (dg_nn dg_g))
  | Mix m1 m2 scale =>
      do b1 <- get_bsdf m1 flip dg_g dg_s;
      do b2 <- get_bsdf m2 flip dg_g dg_s;
      (* material.py:395-398: [for i, b in b1.bdfs] unpacks a lobe object, a TypeError for the first lobe *)
      match bs_bdfs b1, bs_bdfs b2 with [], [] => Ok b1 | _, _ => Err TypeError end
  | Subsurface scale kr sa sps eta bm =>
      do dgs <- shading flip bm dg_g dg_s;
      (* material.py:549: util.clip(R = ...), an unknown keyword argument *)
      Err TypeError
  | KdSubsurface kd kr mfp eta bm =>
      do dgs <- shading flip bm dg_g dg_s;
      let r := sclip (kr dgs) in
      let s := bsdf_make dgs (dg_nn dg_g) in
      Ok (if M_Utility.is_black r then s else push_back s (SpecularReflection r (FrDiel 1 (eta dgs))))
  end.

(** volume/bssrdf.py:25-28 *)
Record bssrdf := mkBSSRDF { ss_sigma_a : vec; ss_sigma_ps : vec; ss_eta : R }.
(** volume/utility.py:56-63 (subsurface_from_diffuse) has no return statement *)
Definition subsurface_from_diffuse : option bssrdf := None.
(** get_bssrdf(dg_g, dg_s): material.py:42-50 (None), 557-565, 598-610 (volume/utility.py:56-63 returns None,
    which cannot be unpacked) *)
Definition get_bssrdf (m : material) (dg_g dg_s : dgeom) : res (option bssrdf) :=
  match m with
  | Subsurface scale kr sa sps eta bm =>
      Ok (Some (mkBSSRDF (vscale scale (sa dg_s)) (vscale scale (sps dg_s)) (eta dg_s)))
  | KdSubsurface _ _ _ _ _ => do s <- py_unpack subsurface_from_diffuse; Ok (Some s)
  | _ => Ok None
  end.

(** aggregate/intersection.py:33-35 with aggregate/primitive.py:127-129: [shade] is
    shape.get_shading_geometry(o2w, .) *)
Definition isect_bsdf (m : material) (flip : bool) (shade : dgeom -> res dgeom) (g : dgeom) (r : raydiff) : res bsdf :=
  let dg := compute_differential g r in
  do dgs <- shade dg; get_bsdf m flip dg dgs.

(** ** MeasuredMaterial (material.py:403-524) *)
(** A whitespace-separated word of a .brdf file: material.py:444-450 *)
Inductive tok := Num (x : R) | Hash | Word.
(** material.py:444-450: comment and blank lines are skipped, the other words are converted *)
Fixpoint numbers (l : list tok) : res (list R) :=
  match l with
  | [] => Ok []
  | Num x :: l' => do r <- numbers l'; Ok (x :: r)
  | _ :: _ => Err ValueError
  end.
(** material.py:443-450 *)
Fixpoint file_values (lines : list (list tok)) : res (list R) :=
  match lines with
  | [] => Ok []
  | line :: rest =>
      match line with
      | [] | Hash :: _ => file_values rest
      | _ => do a <- numbers line; do b <- file_values rest; Ok (a ++ b)
      end
  end.
(** material.py:468-480: the sample loop; [conv wls v] is Spectrum.from_sampled; each sample is its remapped
    position and its value *)
Fixpoint sample_loop (conv : list R -> list R -> vec) (fuel : nat) (wls : list R) (n : nat) (val : list R)
  : res (list (vec * vec)) :=
  match fuel with
  | O => Ok []
  | S fuel' =>
      match val with
      | [] => Ok []
      | thi :: phi :: tho :: pho :: rest =>
          let wo := spherical_direction (sin tho) (cos tho) pho in
          let wi := spherical_direction (sin thi) (cos thi) phi in
          do l <- sample_loop conv fuel' wls n (skipn n rest);
          Ok ((brdf_remap wo wi, conv wls (firstn n rest)) :: l)
      | _ => Err ValueError
      end
  end.
(** material.py:443-485: reading the file.  A negative number of wavelengths is outside the domain (ValueError). *)
Definition read_brdf (conv : list R -> list R -> vec) (lines : list (list tok)) : res (list (vec * vec)) :=
  do val <- file_values lines;
  match val with
  | [] => Err IndexError
  | v0 :: rest =>
      let n := Ztrunc v0 in
      if (n <? 0)%Z then Err ValueError
      else if negb ((Z.of_nat (length val) - 1 - n) mod (4 + n) =? 0)%Z then Err RuntimeError
      else sample_loop conv (length val) (firstn (Z.to_nat n) rest) (Z.to_nat n) (skipn (Z.to_nat n) rest)
  end.
(** material.py:421-424, 483-485: what a constructed MeasuredMaterial holds: [theta_phi_samples] and the positions
    stored in the k-d tree, either of which may be None *)
Record measured := mkMeas { me_samples : option (list (vec * vec)); me_tree : option (list vec) }.
(** pytracer/__init__.py:30: IrIsotropicData, keyed by the file's base name *)
Definition registry := list (string * list (vec * vec)).
(** material.py:432, 434: dictionary look-up *)
Fixpoint reg_get (r : registry) (k : string) : option (list (vec * vec)) :=
  match r with [] => None | (k', v) :: r' => if String.eqb k k' then Some v else reg_get r' k end.
(** material.py:410-485 (MeasuredMaterial.__init__) for a name ending in .brdf: [fs dir file] is the content of the
    file, None when it does not exist.  On the cached path line 434 assigns [theta_phi_sample], so
    [theta_phi_samples] stays None. *)
Definition measured_make (conv : list R -> list R -> vec) (fs : string -> string -> option (list (list tok)))
  (reg : registry) (dir file : string) : res (measured * registry) :=
  match reg_get reg file with
  | Some smp => Ok (mkMeas None (Some (map fst smp)), reg)
  | None =>
      match fs dir file with
      | None => Err RuntimeError
      | Some lines =>
          do smp <- read_brdf conv lines;
          Ok (mkMeas (Some smp) (Some (map fst smp)), (file, smp) :: reg)
      end
  end.
(** material.py:504-524 with bdf/measured.py:51-66: evaluating the lobe of a measured material; [query] is the k-d
    tree's query_ball_point on the stored positions; indexing None is a TypeError *)
Definition measured_f (query : list vec -> vec -> R -> list nat) (m : measured) (wo wi : vec)
  : option (res (option vec)) :=
  match me_tree m with
  | None => Some (Ok (Some (spec 0)))
  | Some t =>
      match me_samples m with
      | None => Some (Err TypeError)
      | Some smp => option_map fst (ir_f (query t) smp wo wi 16)
      end
  end.
