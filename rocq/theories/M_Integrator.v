(** Model of pytracer/integrator (utility.py, surface/path.py, surface/whitted.py, surface/direct.py) and of
    SamplerRenderer.li / transmittance (renderer/renderer.py:58-82).  The scene enters through [env]: what its
    intersection routine, materials, lights and volume integrator answer is arbitrary, so a theorem for all [env] is a
    theorem for all scenes.  Random numbers: [u k] is the k-th number drawn; functions take and return the position k.
    Spectra are RGB triples of reals. *)
From Coq Require Import String.
From Coq Require Import Reals List Bool ZArith.
From Verif Require Import Base M_Python M_Geometry M_MonteCarlo M_Aggregate M_Reflection M_Utility M_Spectrum M_Sampler M_Film M_Light.
Import ListNotations.
Open Scope R_scope.

(** spectral/spectrum.py:182-187 (CoefficientSpectrum.is_black): unlike util.is_black, no absolute value *)
Definition spec_is_black (s : vec) : bool := Rltb (vx s) EPS && Rltb (vy s) EPS && Rltb (vz s) EPS.

(** A light as the integrators see it (light/light.py:29-117): sample_l(p, pEps, (u0, u1, u_com), time) returning
    [Li, wi, pdf, vis]; pdf(p, wi); le(ray); is_delta_light().  Simplification: sample_l is a function of its
    arguments, so the in-place [Li *= ...] of integrator/utility.py:222 on a light's own array is not reproduced. *)
Record light := mkLight {
  lt_delta : bool;
  lt_sample : vec -> R -> R * R * R -> R -> res (vec * vec * R * lray);
  lt_pdf : vec -> vec -> R;
  lt_le : raydiff -> vec }.

(** Scene and renderer.  [V]: what an Intersection object holds after a hit.
    - [hit r]: Scene.intersect; the ray with the fields the shapes wrote (maxt), and the hit, if any
    - [hit_p]: Scene.intersect_p
    - [v_le], [v_eps]: Intersection.le and rEps; [v_bsdf]: Intersection.get_bsdf, with bsdf.dgs.p; [b_dgs_nn] is
      bsdf.dgs.nn
    - [diffs tr r v b wi]: the differentials integrator/utility.py:133-150 (tr = false) or 169-195 (tr = true) store
    - [vol]: the volume integrator, None or its li (radiance, transmittance) and its transmittance *)
Record env (V : Type) := mkEnv {
  lights : list light;
  hit : raydiff -> raydiff * option V;
  hit_p : lray -> bool;
  v_le : V -> vec -> vec;
  v_eps : V -> R;
  v_bsdf : V -> raydiff -> res (vec * bsdf);
  b_dgs_nn : V -> raydiff -> vec;
  diffs : bool -> raydiff -> V -> bsdf -> vec -> bool * vec * vec * vec * vec;
  vol : option ((raydiff -> nat -> vec * vec * nat) * (raydiff + lray -> nat -> vec * nat)) }.
Arguments lights {V} _. Arguments hit {V} _ _. Arguments hit_p {V} _ _. Arguments v_le {V} _ _ _.
Arguments v_eps {V} _ _. Arguments v_bsdf {V} _ _ _. Arguments b_dgs_nn {V} _ _ _.
Arguments diffs {V} _ _ _ _ _ _. Arguments vol {V} _.

(** reflection/bsdf.py:37-40 and light/utility.py:171-174: three draws *)
Definition smp_from_rand (u : nat -> R) (k : nat) : R * R * R * nat := (u k, u (S k), u (S (S k)), S (S (S k))).
(** LightSampleOffset / BSDFSampleOffset (light/utility.py:148-151, reflection/bsdf.py:58-61) *)
Record offset := mkOff { of_n : nat; of_com : nat; of_dir : nat }.
Definition offset_make (n : nat) (s : sample) : sample * offset :=
  let '(s1, c) := add_1d s n in let '(s2, d) := add_2d s1 n in (s2, mkOff n c d).
(** Python list indexing with a non-negative index *)
Definition idx {A} (l : list A) (i : nat) : res A := match nth_error l i with Some x => Ok x | None => Err IndexError end.
(** reflection/bsdf.py:42-47 and light/utility.py:176-181 (from_sample) *)
Definition smp_from_sample (s : sample) (o : offset) (n : nat) : res (R * R * R) :=
  do l2 <- idx (twoD s) (of_dir o); do q <- idx l2 n;
  do l1 <- idx (oneD s) (of_com o); do c <- idx l1 n;
  Ok (fst q, snd q, c).

Section Scene.
Context {V : Type} (e : env V) (u : nat -> R).

(** renderer/renderer.py:77-82 *)
Definition transmittance (r : raydiff + lray) (k : nat) : vec * nat :=
  match vol e with Some (_, t) => t r k | None => (spec 1, k) end.

(** integrator/utility.py:215-229: the light-sampling half *)
Definition direct_light_half (l : light) (p n wo : vec) (eps time : R) (b : bsdf) (lsmp : R * R * R) (flags : Z) (k : nat)
  : res (vec * nat) :=
  do s <- lt_sample l p eps lsmp time;
  let '(Li, wi, lpdf, vis) := s in
  if Rltb 0 lpdf && negb (is_black Li) then
    do f <- bsdf_f b wo wi flags;
    if negb (is_black f) && unoccluded (hit_p e) vis then
      let '(T, k1) := transmittance (inr vis) k in
      let Li' := smul Li T in
      if lt_delta l then Ok (vscale (abs_dot wi n / lpdf) (smul f Li'), k1)
      else
        let w := power_heuristic 1 lpdf 1 (bsdf_pdf b wo wi flags) in
        Ok (vscale (abs_dot wi n * w / lpdf) (smul f Li'), k1)
    else Ok (spec 0, k)
  else Ok (spec 0, k).

(** integrator/utility.py:231-257: the BSDF-sampling half, added to Ld.  Line 237 enters the body when the sampled
    lobe IS specular; line 246 calls scene.intersect with one argument. *)
Definition direct_bsdf_half (l : light) (p wo : vec) (b : bsdf) (bsmp : R * R * R) (flags : Z) (Ld : vec) : res vec :=
  if lt_delta l then Ok Ld
  else
    let '(u0, u1, uc) := bsmp in
    do s <- bsdf_sample b wo u0 u1 uc flags;
    if negb (is_black (sm_f s)) && Rltb 0 (sm_pdf s) then
      match sm_wi s, sm_type s with
      | Some wi, Some t =>
          if negb (Z.land t SPECULAR =? 0)%Z then
            if Reqb (lt_pdf l p wi) 0 then Ok Ld else Err TypeError
          else Ok Ld
      | _, _ => Err TypeError
      end
    else Ok Ld.

(** integrator/utility.py:203-257 *)
Definition estimate_direct (l : light) (p n wo : vec) (eps time : R) (b : bsdf) (lsmp bsmp : R * R * R) (flags : Z)
  (k : nat) : res (vec * nat) :=
  do r <- direct_light_half l p n wo eps time b lsmp flags k;
  let '(Ld, k1) := r in
  do Ld' <- direct_bsdf_half l p wo b bsmp flags Ld;
  Ok (Ld', k1).

(** integrator/utility.py:73, 117: BDFType.ALL & ~BDFType.SPECULAR *)
Definition NOSPEC : Z := Z.land ALL (Z.lnot SPECULAR).

(** integrator/utility.py:64-73: one sample j of light i *)
Fixpoint all_samples (l : light) (offs : option (sample * offset * offset)) (p n wo : vec) (eps time : R) (b : bsdf)
  (js : list nat) (Ld : vec) (k : nat) : res (vec * nat) :=
  match js with
  | [] => Ok (Ld, k)
  | j :: js' =>
      do sm <- match offs with
               | Some (s, lo, bo) => do a <- smp_from_sample s lo j; do c <- smp_from_sample s bo j; Ok (a, c, k)
               | None => let '(a, k1) := smp_from_rand u k in let '(c, k2) := smp_from_rand u k1 in Ok (a, c, k2)
               end;
      let '(a, c, k') := sm in
      do d <- estimate_direct l p n wo eps time b a c NOSPEC k';
      let '(x, k'') := d in
      all_samples l offs p n wo eps time b js' (vadd Ld x) k''
  end.
(** integrator/utility.py:59-77; [offs]: the lists of offsets, None when the integrator has none *)
Fixpoint all_lights (ls : list light) (i : nat) (offs : option (sample * list offset * list offset))
  (p n wo : vec) (eps time : R) (b : bsdf) (L : vec) (k : nat) : res (vec * nat) :=
  match ls with
  | [] => Ok (L, k)
  | l :: ls' =>
      do o <- match offs with
              | Some (s, lo, bo) => do a <- idx lo i; do c <- idx bo i; Ok (Some (s, a, c))
              | None => Ok None
              end;
      let n_smp := match o with Some (_, a, _) => of_n a | None => 1%nat end in
      do d <- all_samples l o p n wo eps time b (seq 0 n_smp) (spec 0) k;
      let '(Ld, k') := d in
      all_lights ls' (S i) offs p n wo eps time b (vadd L (sdiv Ld (INR n_smp))) k'
  end.
(** integrator/utility.py:45-77 *)
Definition uniform_sample_all_lights (offs : option (sample * list offset * list offset)) (p n wo : vec) (eps time : R)
  (b : bsdf) (k : nat) : res (vec * nat) := all_lights (lights e) 0 offs p n wo eps time b (spec 0) k.

(** integrator/utility.py:101-105 for the number [x]; utility/utility.py:74-76 (ftoi) floors *)
Definition light_index (x : R) (n : nat) : Z := Z.min (Zfloor (x * INR n)) (Z.of_nat n - 1).
(** integrator/utility.py:80-117.  [offs]: sample, light_num_offset, light and BSDF offset; None: the defaults *)
Definition uniform_sample_one_light (offs : option (sample * nat * offset * offset)) (p n wo : vec) (eps time : R)
  (b : bsdf) (k : nat) : res (vec * nat) :=
  let nl := length (lights e) in
  if (nl =? 0)%nat then Ok (spec 0, k)
  else
    do x <- match offs with
            | Some (s, no, _, _) => do l1 <- idx (oneD s) no; do x <- idx l1 0; Ok (x, k)
            | None => Ok (u k, S k)
            end;
    let '(x, k0) := x in
    do l <- get1 (lights e) (light_index x nl);
    do sm <- match offs with
             | Some (s, _, lo, bo) => do a <- smp_from_sample s lo 0; do c <- smp_from_sample s bo 0; Ok (a, c, k0)
             | None => let '(a, k1) := smp_from_rand u k0 in let '(c, k2) := smp_from_rand u k1 in Ok (a, c, k2)
             end;
    let '(a, c, k') := sm in
    do d <- estimate_direct l p n wo eps time b a c NOSPEC k';
    Ok (vscale (INR nl) (fst d), snd d).

(** geometry/__init__.py:344-350 (RayDifferential.from_parent without differentials) *)
Definition child_ray (p wi : vec) (r : raydiff) (eps : R) : raydiff :=
  mkRD (ray_from_parent p wi (mkV false false false) (rd_ray r) (Fin eps) PInf) false vzero vzero vzero vzero.
Definition rdir (r : raydiff) : vec := rd (rd_ray r).
Definition rtm (r : raydiff) : R := rtime (rd_ray r).

(** Radiance of environment lights along a ray that leaves the scene (renderer/renderer.py:67-68, path.py:133-134) *)
Definition sum_le (r : raydiff) (beta L : vec) : vec := fold_left (fun acc l => vadd acc (smul beta (lt_le l r))) (lights e) L.

(** ** PathIntegrator *)
(** path.py:25 *)
Definition SAMPLE_DEPTH : nat := 3.
(** [direct bounce v r p n wo b k]: the estimate of path.py:87-98; [path_smp bounce]: the BSDFSample of 102-103 for
    the first bounces.  Both are arbitrary here; [path_li] below plugs in the code's. *)
Section Path.
Variables (max_depth : Z)
  (direct : nat -> V -> raydiff -> vec -> vec -> vec -> bsdf -> nat -> res (vec * nat))
  (path_smp : nat -> res (R * R * R)).
(** What one run of the loop reports: radiance, random position, and the number of scene.intersect calls. *)
Definition path_out : Type := vec * nat * nat.
(** The loop's variables: bounce_cnt, isectp, ray, specular_bounce, path_throughput, L. *)
Record pst := mkP { p_bounce : nat; p_v : V; p_r : raydiff; p_spb : bool; p_beta : vec; p_L : vec; p_k : nat; p_calls : nat }.
(** path.py:72-142, one iteration: [inl] leaves the loop, [inr] goes round again.  Line 112 compares a BDFType with an
    int: BDFType defines no __eq__ (reflection/bdf/bdf.py:23-58), so [!=] is identity and always true.  Line 123
    divides reals here (numpy gives inf/NaN when the probability is 0). *)
Definition path_step (s : pst) : res path_out + pst :=
  let v := p_v s in let r := p_r s in let beta := p_beta s in let bounce := p_bounce s in
  let L1 := if (bounce =? 0)%nat || p_spb s then vadd (p_L s) (smul beta (v_le e v (vneg (rdir r)))) else p_L s in
  match v_bsdf e v r with
  | Err x => inl (Err x)
  | Ok (p, b) =>
      let n := b_dgs_nn e v r in
      let wo := vneg (rdir r) in
      match direct bounce v r p n wo b (p_k s) with
      | Err x => inl (Err x)
      | Ok (Ld, k1) =>
          let L2 := vadd L1 (smul beta Ld) in
          match (if (bounce <? SAMPLE_DEPTH)%nat then do a <- path_smp bounce; Ok (a, k1)
                 else Ok (smp_from_rand u k1)) with
          | Err x => inl (Err x)
          | Ok (u0, u1, uc, k2) =>
              match bsdf_sample b wo u0 u1 uc ALL with
              | Err x => inl (Err x)
              | Ok sm =>
                  if spec_is_black (sm_f sm) || Reqb (sm_pdf sm) 0 then inl (Ok (L2, k2, p_calls s))
                  else
                    match sm_wi sm with
                    | None => inl (Err AttributeError)
                    | Some wi =>
                        let beta1 := smul beta (sdiv (vscale (abs_dot wi n) (sm_f sm)) (sm_pdf sm)) in
                        let r1 := child_ray p wi r (v_eps e v) in
                        let '(stop, beta2, k3) :=
                          if (SAMPLE_DEPTH <? bounce)%nat then
                            let q := pmin (/ 2) (rgb_y beta1) in
                            if Rltb q (u k2) then (true, beta1, S k2) else (false, sdiv beta1 q, S k2)
                          else (false, beta1, k2) in
                        if stop || (Z.of_nat bounce =? max_depth)%Z then inl (Ok (L2, k3, p_calls s))
                        else
                          match hit e r1 with
                          | (r2, None) => inl (Ok (sum_le r2 beta2 L2, k3, S (p_calls s)))
                          | (r2, Some v') =>
                              let '(beta3, k4) :=
                                if (1 <? bounce)%nat
                                then let '(T, k') := transmittance (inl r2) k3 in (smul beta2 T, k')
                                else (beta2, k3) in
                              inr (mkP (S bounce) v' r2 true beta3 L2 k4 (S (p_calls s)))
                          end
                    end
              end
          end
      end
  end.
(** path.py:71-142.  [fuel] counts iterations: None means the loop has not ended after [fuel] of them. *)
Fixpoint path_loop (fuel : nat) (s : pst) : option (res path_out) :=
  match fuel with
  | O => None
  | S fuel' => match path_step s with inl o => Some o | inr s' => path_loop fuel' s' end
  end.
(** path.py:44-144 *)
Definition path_run (fuel : nat) (r : raydiff) (v : V) (k : nat) : option (res path_out) :=
  path_loop fuel (mkP 0 v r false (spec 1) (spec 0) k 0).
End Path.

(** path.py:38-42: the offsets of one bounce: light number, light sample, BSDF sample, path sample *)
Record path_offs := mkPO { po_num : nat; po_light : offset; po_bsdf : offset; po_path : offset }.
(** path.py:87-98 *)
Definition path_direct (s : sample) (po : list path_offs) (bounce : nat) (v : V) (r : raydiff) (p n wo : vec) (b : bsdf)
  (k : nat) : res (vec * nat) :=
  if (bounce <? SAMPLE_DEPTH)%nat then
    do o <- idx po bounce;
    uniform_sample_one_light (Some (s, po_num o, po_light o, po_bsdf o)) p n wo (v_eps e v) (rtm r) b k
  else uniform_sample_one_light None p n wo (v_eps e v) (rtm r) b k.
(** path.py:102-103 *)
Definition path_smp_of (s : sample) (po : list path_offs) (bounce : nat) : res (R * R * R) :=
  do o <- idx po bounce; smp_from_sample s (po_path o) 0.
(** path.py:44-144 *)
Definition path_li (max_depth : Z) (s : sample) (po : list path_offs) (fuel : nat) (r : raydiff) (v : V) (k : nat)
  : option (res path_out) := path_run max_depth (path_direct s po) (path_smp_of s po) fuel r v k.

(** ** Recursive integrators *)
(** whitted.py:43-51: for each light *)
Fixpoint whitted_lights (ls : list light) (p n wo : vec) (eps time : R) (b : bsdf) (L : vec) (k : nat) : res (vec * nat) :=
  match ls with
  | [] => Ok (L, k)
  | l :: ls' =>
      let '(a, k1) := smp_from_rand u k in
      do s <- lt_sample l p eps a time;
      let '(Li, wi, pdf, vis) := s in
      if spec_is_black Li || Reqb pdf 0 then whitted_lights ls' p n wo eps time b L k1
      else
        do f <- bsdf_f b wo wi ALL;
        if negb (spec_is_black f) && unoccluded (hit_p e) vis then
          let '(T, k2) := transmittance (inr vis) k1 in
          whitted_lights ls' p n wo eps time b
            (vadd L (sdiv (smul (vscale (abs_dot wi n) (smul f Li)) T) pdf)) k2
        else whitted_lights ls' p n wo eps time b L k1
  end.

Section Recursive.
(** [local v r p n wo b k]: what whitted.py:43-51 or direct.py:85-97 adds *)
Variables (max_depth : Z) (stime : R)
  (local : V -> raydiff -> vec -> vec -> vec -> bsdf -> nat -> res (vec * nat)).
(** Result of a call: radiance, transmittance, the Intersection object afterwards, random position, number of
    SurfaceIntegrator.li calls made. *)
Definition rout : Type := vec * vec * V * nat * nat.
Definition obind {A B} (x : option (res A)) (f : A -> option (res B)) : option (res B) :=
  match x with None => None | Some (Err y) => Some (Err y) | Some (Ok a) => f a end.

(** integrator/utility.py:120-155 (tr = false) and 158-200 (tr = true): the recursive call [rec] is renderer.li.
    Line 152 keeps the first component of its result, line 197 the second.  [isect] is shared: the recursive call
    overwrites it. *)
Definition specular (rec : raydiff -> V -> nat -> option (res rout)) (tr : bool) (r : raydiff) (b : bsdf) (p n : vec)
  (isect : V) (k : nat) : option (res (vec * V * nat * nat)) :=
  let '(u0, u1, uc, k1) := smp_from_rand u k in
  match bsdf_sample b (vneg (rdir r)) u0 u1 uc (Z.lor (if tr then TRANSMISSION else REFLECTION) SPECULAR) with
  | Err x => Some (Err x)
  | Ok s =>
      if Rltb 0 (sm_pdf s) && negb (is_black (sm_f s)) then
        match sm_wi s with
        | None => Some (Err AttributeError)
        | Some wi =>
            if Reqb (abs_dot wi n) 0 then Some (Ok (spec 0, isect, k1, 0%nat))
            else
              let r1 := child_ray p wi r (v_eps e isect) in
              let r2 := if rd_has r then let '(h, rxo, ryo, rxd, ryd) := diffs e tr r isect b wi in
                                         mkRD (rd_ray r1) h rxo ryo rxd ryd
                        else r1 in
              obind (rec r2 isect k1) (fun '(Li, T, isect', k2, c) =>
                Some (Ok (sdiv (vscale (abs_dot wi n) (smul (sm_f s) (if tr then T else Li))) (sm_pdf s), isect', k2, c)))
        end
      else Some (Ok (spec 0, isect, k1, 0%nat))
  end.

(** whitted.py:26-59 / direct.py:70-105: SurfaceIntegrator.li at the intersection [v] *)
Definition surf_li (rec : raydiff -> V -> nat -> option (res rout)) (r : raydiff) (v : V) (k : nat)
  : option (res (vec * V * nat * nat)) :=
  match v_bsdf e v r with
  | Err x => Some (Err x)
  | Ok (p, b) =>
      let n := b_dgs_nn e v r in
      let wo := vneg (rdir r) in
      match local v r p n wo b k with
      | Err x => Some (Err x)
      | Ok (Ld, k1) =>
          let L := vadd (v_le e v wo) Ld in
          if (rdepth (rd_ray r) + 1 <? max_depth)%Z then
            obind (specular rec false r b p n v k1) (fun '(Lr, v1, k2, c1) =>
            obind (specular rec true r b p n v1 k2) (fun '(Ltr, v2, k3, c2) =>
            Some (Ok (vadd (vadd L Lr) Ltr, v2, k3, S (c1 + c2)))))
          else Some (Ok (L, v, k1, 1%nat))
      end
  end.

(** renderer/renderer.py:58-75; [isect]: the object passed in *)
Fixpoint renderer_li (fuel : nat) (r : raydiff) (isect : V) (k : nat) : option (res rout) :=
  match fuel with
  | O => None
  | S fuel' =>
      if negb (Reqb (rtm r) stime) then Some (Err AssertionError)
      else
        let '(r1, h) := hit e r in
        obind (match h with
               | Some v => surf_li (renderer_li fuel') r1 v k
               | None => Some (Ok (sum_le r1 (spec 1) (spec 0), isect, k, 0%nat))
               end) (fun '(L, isect', k1, c) =>
        match vol e with
        | Some (vli, _) => let '(lvi, T, k2) := vli r1 k1 in Some (Ok (vadd (smul T L) lvi, T, isect', k2, c))
        | None => Some (Ok (L, spec 0, isect', k1, c))
        end)
  end.
End Recursive.

(** whitted.py:26-59 *)
Definition whitted_local (v : V) (r : raydiff) (p n wo : vec) (b : bsdf) (k : nat) : res (vec * nat) :=
  whitted_lights (lights e) p n wo (v_eps e v) (rtm r) b (spec 0) k.
(** direct.py:85-97, strategy SAMPLE_ALL_UNIFORM *)
Definition direct_all_local (s : sample) (lo bo : list offset) (v : V) (r : raydiff) (p n wo : vec) (b : bsdf) (k : nat)
  : res (vec * nat) :=
  if (0 <? length (lights e))%nat
  then uniform_sample_all_lights (Some (s, lo, bo)) p n wo (v_eps e v) (rtm r) b k
  else Ok (spec 0, k).
End Scene.

(** ** Sample requests *)
(** path.py:38-42, once per bounce *)
Fixpoint path_request (n : nat) (s : sample) : sample * list path_offs :=
  match n with
  | O => (s, [])
  | S n' =>
      let '(s1, lo) := offset_make 1 s in
      let '(s2, num) := add_1d s1 1 in
      let '(s3, bo) := offset_make 1 s2 in
      let '(s4, po) := offset_make 1 s3 in
      let '(s5, rest) := path_request n' s4 in
      (s5, mkPO num lo bo po :: rest)
  end.
(** direct.py:49-62: one pair of offsets per light; [ns]: the lights' sample counts.  sampler.round_size keeps the
    size (sampler/sampler/stratified.py:91-92) *)
Fixpoint direct_request (ns : list nat) (s : sample) : sample * list offset * list offset :=
  match ns with
  | [] => (s, [], [])
  | n :: ns' =>
      let '(s1, lo) := offset_make n s in
      let '(s2, bo) := offset_make n s1 in
      let '(s3, los, bos) := direct_request ns' s2 in
      (s3, lo :: los, bo :: bos)
  end.
(** direct.py:63-68: Sample has no method add1d (its methods: sampler/sample.py:36-76) *)
Definition direct_request_one (s : sample) : res (sample * offset * nat * offset) :=
  let '(s1, lo) := offset_make 1 s in
  py_attr sample_names "add1d"%string
    (let '(s2, num) := add_1d s1 1 in let '(s3, bo) := offset_make 1 s2 in Ok (s3, lo, num, bo)).

(** ** Ray differentials of specular bounces *)
(** integrator/utility.py:139-147, 180-188: change of the normal and of wo.n, per pixel *)
Definition dn_of (dndu dndv : vec) (du dv : R) : vec := vadd (vscale du dndu) (vscale dv dndv).
Definition dDN_of (n wo dwo dn : vec) : R := vdot dwo n + vdot wo dn.
(** integrator/utility.py:149-150 *)
Definition reflect_diff (wi wo n dwo dn : vec) : vec :=
  vadd (vsub wi dwo) (vscale 2 (vadd (vscale (vdot wo n) dn) (vscale (dDN_of n wo dwo dn) n))).
(** integrator/utility.py:174-177: the ratio used; [eta] is bsdf.eta *)
Definition trans_eta (eta : R) (wo n : vec) : R := if Rltb (vdot wo n) 0 then 1 / eta else eta.
(** integrator/utility.py:190-195, for the ratio [eta] of 174-177 *)
Definition transmit_diff (eta : R) (wi wo n dwo dn : vec) : vec :=
  let w := vneg wo in
  let mu := eta * vdot w n - vdot wi n in
  let dmu := (eta - eta * eta * vdot w n / vdot wi n) * dDN_of n wo dwo dn in
  vsub (vadd wi (vscale eta dwo)) (vadd (vscale mu dn) (vscale dmu n)).
