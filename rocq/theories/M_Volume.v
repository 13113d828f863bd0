(** Model of pytracer/volume/utility.py and pytracer/volume/volume.py.
    Spectra are RGB triples; floats are reals.  [E] is used for ray parameters, because ray ranges
    may be infinite. *)
From Coq Require Import String.
From Coq Require Import Reals Lra List Bool ZArith.
From Verif Require Import Base M_Python M_Geometry M_Transform.
Import ListNotations.
Open Scope R_scope.

(** ** Phase functions *)
(** volume/utility.py:21-22 (phase_isotrophic) *)
Definition phase_isotropic (w wp : vec) : R := 1 / (4 * PI).
(** volume/utility.py:25-27 (phase_rayleigh) *)
Definition phase_rayleigh (w wp : vec) : R :=
  let ct := vdot w wp in 3 / (16 * PI) * (1 + ct * ct).
(** volume/utility.py:30-32 (phase_mie_hazy); the exponent 8. is integral *)
Definition phase_mie_hazy (w wp : vec) : R :=
  let ct := vdot w wp in (1 / 2 + 9 / 2 * (1 / 2 * (1 + ct)) ^ 8) / (4 * PI).
(** volume/utility.py:35-37 (phase_mie_murky); the exponent 32. is integral *)
Definition phase_mie_murky (w wp : vec) : R :=
  let ct := vdot w wp in (1 / 2 + 33 / 2 * (1 / 2 * (1 + ct)) ^ 32) / (4 * PI).
(** volume/utility.py:40-46 (phase_hg).  numpy.power(x, 1.5) is modelled for x > 0 only, which
    covers unit directions and |g| < 1. *)
Definition phase_hg (w wp : vec) (g : R) : R :=
  let ct := vdot w wp in
  (1 - g * g) / Rpower (1 + g * g - 2 * g * ct) (3 / 2) / (4 * PI).
(** volume/utility.py:49-52 (phase_schlick): the expression divides by (1 - kct) and then
    multiplies by it *)
Definition phase_schlick (w wp : vec) (g : R) : R :=
  let k := 155 / 100 * g - 55 / 100 * g * g * g in
  let kct := k * vdot w wp in
  (1 - k * k) / (1 - kct) * (1 - kct) / (4 * PI).

(** ** HomogeneousVolumeDensity *)
(** volume.py:124-132 (__init__): [h_v2w] is the parameter; the object stores its inverse.  The
    extent is a box with finite corners. *)
Record homog := mkHomog {
  h_a : vec; h_s : vec; h_g : R; h_le : vec; h_lo : vec; h_hi : vec; h_v2w : transform }.
Definition h_w2v (h : homog) : transform := t_inverse (h_v2w h).
Definition h_inside (h : homog) (p : vec) : bool := inside (fbox (h_lo h) (h_hi h)) (t_point (h_w2v h) p).
(** volume.py:135-136 (world_bound): the corners of the transformed box *)
Definition h_bound (h : homog) : vec * vec := t_bbox (t_inverse (h_w2v h)) (h_lo h) (h_hi h).
(** volume.py:139-141 (intersect_p): line 140 computes the transformed ray, line 141 tests the
    untransformed one *)
Definition h_hit (h : homog) (r : ray) : option (E * E) :=
  let r' := t_ray (h_w2v h) r in
  bbox_intersect_p (h_lo h) (h_hi h) r.
(** volume.py:143-144 (sigma_a) *)
Definition h_sigma_a (h : homog) (p v : vec) (time : R) : vec := if h_inside h p then h_a h else vzero.
(** volume.py:147-148 (sigma_s) *)
Definition h_sigma_s (h : homog) (p v : vec) (time : R) : vec := if h_inside h p then h_s h else vzero.
(** volume.py:150-151 (sigma_t) *)
Definition h_sigma_t (h : homog) (p v : vec) (time : R) : vec :=
  if h_inside h p then vadd (h_s h) (h_a h) else vzero.
(** volume.py:153-154 (lve) *)
Definition h_lve (h : homog) (p v : vec) (time : R) : vec := if h_inside h p then h_le h else vzero.
(** volume.py:156-160 (p): the last argument given to phase_hg is the time *)
Definition h_phase (h : homog) (p wi wo : vec) (time : R) : R :=
  if negb (h_inside h p) then 0 else phase_hg wi wo time.
(** volume.py:162-166 (tau).  [None]: one of the two parameters is infinite, so that the code
    computes with infinities or NaN. *)
Definition h_tau (h : homog) (r : ray) (step offset : R) : option vec :=
  match h_hit h r with
  | Some (Fin t0, Fin t1) =>
      Some (vscale (vlength (vsub (ray_at r t1) (ray_at r t0))) (vadd (h_a h) (h_s h)))
  | Some _ => None
  | None => Some vzero
  end.

(** ** DensityRegion *)
(** volume.py:176-183 (__init__) with the two methods of a concrete subclass: [d_density] is
    __call__ (object space), [d_hit] is intersect_p. *)
Record density_region := mkDensity {
  d_a : vec; d_s : vec; d_g : R; d_le : vec; d_v2w : transform;
  d_density : vec -> R; d_hit : ray -> option (E * E) }.
Definition d_at (d : density_region) (p : vec) : R := d_density d (t_point (t_inverse (d_v2w d)) p).
(** volume.py:197-198 (sigma_a) *)
Definition d_sigma_a (d : density_region) (p v : vec) (time : R) : vec := vscale (d_at d p) (d_a d).
(** volume.py:200-201 (sigma_s) *)
Definition d_sigma_s (d : density_region) (p v : vec) (time : R) : vec := vscale (d_at d p) (d_s d).
(** volume.py:203-204 (lve) *)
Definition d_lve (d : density_region) (p v : vec) (time : R) : vec := vscale (d_at d p) (d_le d).
(** volume.py:206-213 (p): the time is given as the asymmetry parameter *)
Definition d_phase (d : density_region) (p w wp : vec) (time : R) : R := phase_hg w wp time.
(** volume.py:215-216 (sigma_t) *)
Definition d_sigma_t (d : density_region) (p v : vec) (time : R) : vec :=
  vscale (d_at d p) (vadd (d_a d) (d_s d)).
(** volume.py:225: the ray with unit direction.  The code passes the time in the position of the
    depth; neither is read from this ray, and the model keeps depth 0, time 0. *)
Definition unit_ray (r : ray) : ray :=
  let l := vlength (rd r) in
  mkRay (ro r) (vscale (/ l) (rd r)) (rdz r) (emul (rmint r) (Fin l)) (emul (rmaxt r) (Fin l)) 0%Z 0.
(** volume.py:231-233: the loop; [None] = still running after [fuel] iterations.  The upper end
    may be infinite. *)
Fixpoint march (fuel : nat) (sig : R -> vec) (t0 : R) (t1 : E) (step : R) (acc : vec) : option vec :=
  match fuel with
  | O => None
  | S k => if eltb (Fin t0) t1 then march k sig (t0 + step) t1 step (vadd acc (sig t0)) else Some acc
  end.
(** volume.py:218-235 (tau).  [None] = not finished within [fuel] iterations, or the entry
    parameter is infinite (line 230 then adds to an infinity and the loop compares it). *)
Definition d_tau (fuel : nat) (d : density_region) (r : ray) (step u : R) : option vec :=
  let length := vlength (rd r) in
  if Reqb length 0 then Some vzero
  else
    let rn := unit_ray r in
    match d_hit d rn with
    | None => Some vzero
    | Some (Fin t0, t1) =>
        option_map (vscale step)
          (march fuel (fun t => d_sigma_t d (ray_at rn t) (vneg (rd rn)) (rtime r)) (t0 + u * step) t1 step vzero)
    | Some _ => None
    end.

(** ** ExponentialDensity *)
(** volume.py:313-319 (__init__) *)
Record expo := mkExpo {
  x_a : vec; x_s : vec; x_g : R; x_le : vec; x_lo : vec; x_hi : vec; x_v2w : transform;
  x_ca : R; x_cb : R; x_up : vec }.
(** volume.py:322-326 (__call__); line 319 normalises the up vector at construction *)
Definition x_density (x : expo) (p : vec) : R :=
  if negb (inside (fbox (x_lo x) (x_hi x)) p) then 0
  else x_ca x * exp (- x_cb x * vdot (vsub p (x_lo x)) (normalize (x_up x))).
(** volume.py:332-334 (intersect_p): as for the homogeneous medium, the untransformed ray *)
Definition x_region (x : expo) : density_region :=
  mkDensity (x_a x) (x_s x) (x_g x) (x_le x) (x_v2w x) (x_density x)
            (fun r => bbox_intersect_p (x_lo x) (x_hi x) r).
(** volume.py:328-329 (world_bound) *)
Definition x_bound (x : expo) : vec * vec :=
  t_bbox (t_inverse (t_inverse (x_v2w x))) (x_lo x) (x_hi x).

(** ** VolumeGridDensity *)
(** A call of DensityRegion.__init__ (volume.py:176-177) with [n] positional arguments: five are
    required, any other number is a TypeError. *)
Definition density_init_call (n : nat) : res Datatypes.unit := py_call 5 0 n (Ok tt).
(** volume.py:244-253 (VolumeGridDensity.__init__): line 246 calls the parent without arguments.
    The array is a list of z-slices of rows. *)
Record grid := mkGrid { g_lo : vec; g_hi : vec; g_d : list (list (list R)) }.
Definition grid_make (lo hi : vec) (d : list (list (list R))) : res grid :=
  do _ <- density_init_call 0; Ok (mkGrid lo hi d).

(** ** AggregateVolume *)
(** The methods of a region as the aggregate calls them.  [rg_le] is what reading the attribute
    [le] and calling it does: the concrete regions store a spectrum there. *)
Record region := mkRegion {
  rg_bound : box;
  rg_hit : ray -> option (E * E);
  rg_sigma_a : vec -> vec -> R -> vec;
  rg_sigma_s : vec -> vec -> R -> vec;
  rg_sigma_t : vec -> vec -> R -> vec;
  rg_le_call : vec -> vec -> R -> res vec;
  rg_phase : vec -> vec -> vec -> R -> R;
  rg_tau : ray -> R -> R -> option vec }.
(** A homogeneous medium / a density region as a member: calling the stored spectrum is a
    TypeError (volume.py:130, 182). *)
Definition homog_region (h : homog) : region :=
  mkRegion (fbox (fst (h_bound h)) (snd (h_bound h))) (h_hit h) (h_sigma_a h) (h_sigma_s h) (h_sigma_t h)
           (fun _ _ _ => py_call_object spectrum_methods (Ok (h_le h))) (h_phase h) (h_tau h).
Definition expo_region (fuel : nat) (x : expo) : region :=
  let d := x_region x in
  mkRegion (fbox (fst (x_bound x)) (snd (x_bound x))) (d_hit d) (d_sigma_a d) (d_sigma_s d) (d_sigma_t d)
           (fun _ _ _ => py_call_object spectrum_methods (Ok (x_le x))) (d_phase d) (d_tau fuel d).

(** volume.py:344-348 (__init__): the bound is the in-place union of the regions' bounds *)
Definition ag_bound (l : list region) : box := fold_left (fun b r => union_bb b (rg_bound r)) l bbox_empty.
Definition ag_sum (f : region -> vec) (l : list region) : vec := fold_left (fun s r => vadd s (f r)) l vzero.
(** volume.py:350-354 (sigma_a) *)
Definition ag_sigma_a (l : list region) (p w : vec) (time : R) : vec := ag_sum (fun r => rg_sigma_a r p w time) l.
(** volume.py:356-360 (sigma_s) *)
Definition ag_sigma_s (l : list region) (p w : vec) (time : R) : vec := ag_sum (fun r => rg_sigma_s r p w time) l.
(** volume.py:362-366 (sigma_t) *)
Definition ag_sigma_t (l : list region) (p w : vec) (time : R) : vec := ag_sum (fun r => rg_sigma_t r p w time) l.
(** volume.py:368-372 (lve): the loop calls [region.le] *)
Definition ag_lve (l : list region) (p w : vec) (time : R) : res vec :=
  fold_left (fun s r => do s <- s; do e <- rg_le_call r p w time; Ok (vadd s e)) l (Ok vzero).
(** volume.py:374-378 (p): a spectrum accumulating floats *)
Definition ag_phase (l : list region) (p wi wo : vec) (time : R) : vec :=
  ag_sum (fun r => let v := rg_phase r p wi wo time in mkV v v v) l.
(** volume.py:380-384 (tau) *)
Definition ag_tau (l : list region) (r : ray) (step offset : R) : option vec :=
  fold_left (fun s g => match s, rg_tau g r step offset with
                        | Some s, Some v => Some (vadd s v) | _, _ => None end) l (Some vzero).
(** volume.py:390-398 (intersect_p): Python's min and max on extended numbers *)
Definition ag_step (r : ray) (acc : E * E) (g : region) : E * E :=
  match rg_hit g r with
  | Some (r0, r1) => let '(t0, t1) := acc in
      (if eltb r0 t0 then r0 else t0, if eltb t1 r1 then r1 else t1)
  | None => acc
  end.
Definition ag_hit (l : list region) (r : ray) : bool * E * E :=
  let '(t0, t1) := fold_left (ag_step r) l (PInf, NInf) in (eltb t0 t1, t0, t1).
