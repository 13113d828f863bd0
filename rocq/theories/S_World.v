(** Vocabulary for the properties of whole scenes: point lights, sight lines, and the light a diffuse surface
    receives and reflects. *)
From Coq Require Import Reals List ZArith.
From Verif Require Import Base M_Geometry S_Geometry M_Transform S_Transform M_Shapes S_Shapes M_BVH S_BVH M_Reflection S_Reflection M_Light
  M_Primitive S_Scene M_Material S_Material M_Integrator S_Integrator S_Integrator2 M_World.
Import ListNotations.
Open Scope R_scope.

(** Objects without an area light: triangle meshes without shading normals or tangents, spheres and disks of which a
    part is left after clipping. *)
Definition plain_item (it : item) : Prop :=
  it_light it = None /\
  match it_geom it with
  | GMesh _ _ _ N T _ => N = None \/ T = None
  | GSphere _ rad z0 z1 pm => 0 < pm /\ z0 <> z1 /\ Rmin z0 z1 < rad /\ - rad < Rmax z0 z1
  | GDisk _ _ rad ri pm => 0 < pm /\ 0 <= ri < rad
  end.
(** [surface_normal g p n]: n is a unit normal of the surface at its point p: perpendicular to the edges of a face
    that contains p; to the images of the directions at right angles to the radius of the sphere; to the plane of the disk. *)
Definition surface_normal (g : geom) (p n : vec) : Prop :=
  unit n /\
  match g with
  | GMesh b vi P _ _ _ => exists f, (3 * f + 2 < length vi)%nat /\
      let a := S_Shapes.corner (b_o2w b) vi P f 0 in let c := S_Shapes.corner (b_o2w b) vi P f 1 in let d := S_Shapes.corner (b_o2w b) vi P f 2 in
      in_triangle a c d p /\ vdot n (vsub c a) = 0 /\ vdot n (vsub d a) = 0
  | GSphere b _ _ _ _ => forall w, vdot w (t_point (b_w2o b) p) = 0 -> vdot n (t_vector (b_o2w b) w) = 0
  | GDisk b _ _ _ _ => forall x y, vdot n (t_vector (b_o2w b) (mkV x y 0)) = 0
  end.
(** How far from the surface a sight line starts when the surface was met at parameter t. *)
Definition offset_at (g : geom) (t : R) : R := match g with GMesh _ _ _ _ _ _ => 0.001 * t | _ => t / 100000 end.
(** The hypotheses of C207 about a ray: no negative zero in its direction, and not along a face of a bounding box. *)
Definition plain_ray (prims : list gprim) (r : ray) : Prop :=
  pos_zero r /\ notnan (rmint r) /\ notnan (rmaxt r) /\
  forall p b, In p prims -> shape_bound (gp_shape p) = Ok b -> off_x_faces r (fst b) (snd b).
(** ... and not through the centre of a disk. *)
Definition clear_ray (items : list item) (prims : list gprim) (r : ray) : Prop :=
  plain_ray prims r /\ Forall (fun it => avoids_centre r (it_geom it)) items.
(** The ray does not meet a sphere on its axis (the point reported there is another one, C207). *)
Definition off_poles (items : list item) (r : ray) : Prop :=
  forall it t, In it items -> touches (it_geom it) r t ->
  match it_geom it with
  | GSphere b _ _ _ _ => let q := t_point (b_w2o b) (ray_at r t) in vx q <> 0 \/ vy q <> 0
  | _ => True
  end.

(** Every material is matte: one colour everywhere, no roughness, no bump map. *)
Definition diffuse_mats (mats : nat -> material) (colour : nat -> vec) : Prop :=
  forall k, exists (kd : stex) (sg : ftex), mats k = Matte kd sg None /\ (forall g, kd g = colour k) /\ (forall g, sg g <= 0).

(** A point light: position and intensity. *)
Record lamp := mkLamp { lp_pos : vec; lp_i : vec }.
Definition lamp_light (l : lamp) : light := point_light (t_translate (lp_pos l)) (lp_i l).
Definition dist (p q : vec) : R := vlength (vsub q p).
Definition dir (p q : vec) : vec := vscale (/ dist p q) (vsub q p).
(** the sight line from p to q, starting [eps] away from p *)
Definition sight (p q : vec) (eps time : R) : ray :=
  mkRay p (dir p q) (mkV false false false) (Fin eps) (Fin (dist p q)) 0%Z time.

(** Light reflected towards [wo] by a diffuse surface of colour [kd] at p with normal n, from one lamp: Kd/pi times the
    irradiance I |cos| / d^2, if the lamp is on the viewer's side and not hidden.  [blocked]: the answer of the shadow
    test.  Values below 10^-5 in all channels count as black. *)
Definition diffuse_from (kd p n wo : vec) (l : lamp) (blocked : bool) (x : vec) : Prop :=
  let d := dist p (lp_pos l) in let w := dir p (lp_pos l) in
  let e := vscale (/ d ^ 2) (lp_i l) in
  let f := vscale (/ PI) (positive_part kd) in
  (bright e /\ bright f /\ same_side n wo w /\ blocked = false /\ x = vscale (Rabs (vdot w n)) (smul f e)) \/
  ((~ bright e \/ ~ bright f \/ ~ same_side n wo w \/ blocked = true) /\ x = vzero).

(** [shown items colour lamps r L]: the radiance L a viewer gets along r from a scene of diffuse objects lit by lamps,
    each surface lit directly. *)
Definition shown (items : list item) (colour : nat -> vec) (lamps : list lamp) (r : ray) (L : vec) : Prop :=
  (L = vzero /\ forall it t, In it items -> touches (it_geom it) r t -> elt (rmint r) (Fin t) -> elt (Fin t) (rmaxt r) -> False) \/
  (exists it t n xs, In it items /\ touches (it_geom it) r t /\ ele (rmint r) (Fin t) /\ ele (Fin t) (rmaxt r) /\
     (forall it' t', In it' items -> touches (it_geom it') r t' -> elt (rmint r) (Fin t') -> t <= t') /\
     surface_normal (it_geom it) (ray_at r t) n /\ length xs = length lamps /\ L = vsum xs /\
     forall j l x, nth_error lamps j = Some l -> nth_error xs j = Some x ->
       exists blocked, scene_any items (sight (ray_at r t) (lp_pos l) (offset_at (it_geom it) t) (rtime r)) blocked /\
         diffuse_from (colour (it_material it)) (ray_at r t) n (vneg (rd r)) l blocked x).

(** The same scene with every light source [c] times as strong. *)
Definition stronger_light (c : R) (l : light) : light :=
  mkLight (lt_delta l)
    (fun p eps a time => do s <- lt_sample l p eps a time; let '(Li, wi, pdf, vis) := s in Ok (vscale c Li, wi, pdf, vis))
    (lt_pdf l) (fun r => vscale c (lt_le l r)).
Definition stronger {V} (c : R) (e : env V) : env V :=
  mkEnv V (map (stronger_light c) (lights e)) (hit e) (hit_p e) (fun v w => vscale c (v_le e v w)) (v_eps e) (v_bsdf e) (b_dgs_nn e)
    (diffs e) (vol e).
(** A point of a surface which some ray meets. *)
Definition shows {V} (e : env V) (p : vec) : Prop := exists r r1 v b, hit e r = (r1, Some v) /\ v_bsdf e v r1 = Ok (p, b).
(** The same scene with other lights. *)
Definition with_lights {V} (e : env V) (ls : list light) : env V :=
  mkEnv V ls (hit e) (hit_p e) (v_le e) (v_eps e) (v_bsdf e) (b_dgs_nn e) (diffs e) (vol e).
(** No light source anywhere: no lights, nothing a ray meets emits, no medium. *)
Definition unlit {V} (e : env V) : Prop :=
  lights e = [] /\ vol e = None /\ forall r r' v w, hit e r = (r', Some v) -> v_le e v w = vzero.
