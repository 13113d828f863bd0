(** Property theorems C288: the direct-lighting integrator shows the same picture as Whitted's.  Vocabulary: S_Brighter.v, S_Superpose.v, S_World.v. *)
From Coq Require Import Reals Lra Lia List ZArith Bool.
From Verif Require Import Base M_MonteCarlo M_Aggregate M_Utility M_Spectrum M_Sampler M_Film.
From Verif Require Import M_Geometry S_Geometry P_Geometry M_Transform S_Transform P_Transform P_Transform2 M_Shapes S_Shapes P_ShapesMore M_BVH S_BVH
  M_Reflection S_Reflection M_Light M_Primitive S_Scene P_Scene2 M_Material S_Material M_Integrator S_Integrator S_Integrator2 P_Integrator3 M_World S_World P_World P_World2
  S_Superpose P_Superpose S_Brighter P_Brighter P_Agree Props_Integrator Props_World Props_Superpose Props_Brighter.
Import ListNotations.
Open Scope R_scope.

(** C288: all lights are delta lights (point, spot, distant) of non-negative radiance, no surface reflects negatively, and
    the direct-lighting integrator asks for ns_i > 0 samples of the i-th light, whatever values the sampler then puts in.  If
    Whitted's integrator returns (L, T) along a ray, then so does the direct-lighting integrator which samples all lights;
    through any number of mirrors and panes, whatever the random numbers of the two runs. *)
Theorem C288_agree (V : Type) (e : env V) (ns : list nat) (s0 s' s : sample) (lo bo : list offset) (u1 u2 : nat -> R)
    (md : Z) (time : R) (fuel : nat) (r : raydiff) (i : V) (k1 k2 : nat) L T i' k1' n :
  vol e = None -> steady_surfaces e ->
  (forall v q p b, v_bsdf e v q = Ok (p, b) -> forall wo wi f, bsdf_f b wo wi ALL = Ok f -> spec_ge0 f) ->
  (forall l, In l (lights e) -> lt_delta l = true /\ gives_light l) -> steady_stream u1 -> steady_stream u2 ->
  direct_request ns s0 = (s', lo, bo) -> filled s (n1D s') (n2D s') -> length ns = length (lights e) -> Forall (fun m => 0 < m)%nat ns ->
  renderer_li e u1 md time (whitted_local e u1) fuel r i k1 = Some (Ok (L, T, i', k1', n)) ->
  exists k2', renderer_li e u2 md time (direct_all_local e u2 s lo bo) fuel r i k2 = Some (Ok (L, T, i', k2', n)).
Proof.
  intros NV SB HF HL U1 U2 HR FS LN PN H. destruct (C108_direct_requests _ _ _ _ _ _ HR FS) as (A & B & C & D).
  apply (whole_agrees e s lo bo NV HL) with (u1 := u1) (k := k1) (k1 := k1'); try assumption.
  - rewrite <- LN, <- A. now rewrite map_length.
  - congruence.
  - apply Forall_forall. intros o Ho. apply (proj1 (Forall_forall _ _) PN). rewrite <- A. now apply in_map.
Qed.
Print Assumptions C288_agree.

(** A scene of shapes of matte, mirror and glass, with or without area emission, and point lights of non-negative intensity. *)
Theorem C288_world sc mats fuel diffs (lamps : list lamp) (ns : list nat) (s0 s' s : sample) (lo bo : list offset) (u1 u2 : nat -> R)
    md time depth r k1 k2 L T i' k1' n :
  (forall j, simple_material (mats j)) -> (forall l, In l lamps -> spec_ge0 (lp_i l)) -> steady_stream u1 -> steady_stream u2 ->
  direct_request ns s0 = (s', lo, bo) -> filled s (n1D s') (n2D s') -> length ns = length lamps -> Forall (fun m => 0 < m)%nat ns ->
  let w := mkW sc mats (map lamp_light lamps) fuel diffs in
  whitted w u1 md time depth r k1 = Some (Ok (L, T, i', k1', n)) ->
  exists k2', direct_lighting w u2 s lo bo md time depth r k2 = Some (Ok (L, T, i', k2', n)).
Proof.
  intros HM HB U1 U2 HR FS LN PN w H.
  assert (BS : forall v q p b, v_bsdf (env_of w) v q = Ok (p, b) -> steady_bsdf b /\ reflects_light b).
  { intros v r0 p b. unfold w. cbn [env_of v_bsdf]. unfold world_bsdf, isect_bsdf. cbn [w_mats].
    destruct (is_prim v) as [q|]; [|discriminate]. destruct (is_dg v) as [g|]; [|discriminate].
    destruct (shape_shading _ _) as [g'|]; cbn [bind]; [|discriminate].
    destruct (get_bsdf _ _ _ _) as [b'|] eqn:EB; cbn [bind]; [|discriminate]. intros [= _ <-]. split; [|apply (C286_materials _ _ _ _ _ (HM _) EB)].
    refine (C279_materials _ _ _ _ _ _ EB). specialize (HM (gp_material q)). destruct (mats (gp_material q)); try contradiction; exact Logic.I. }
  apply (C288_agree _ (env_of w) ns s0 s' s lo bo u1 u2 md time depth r isect_new k1 k2 L T i' k1' n); try assumption.
  - reflexivity.
  - intros v q p b Hv. apply (BS _ _ _ _ Hv).
  - intros v q p b Hv. apply (BS _ _ _ _ Hv).
  - intros l Hl. apply in_map_iff in Hl. destruct Hl as (x & <- & Hx). split; [reflexivity|]. apply lamp_gives. now apply HB.
  - cbn [env_of lights w w_lights]. now rewrite map_length.
Qed.
Print Assumptions C288_world.

(** So the direct-lighting integrator too shows a diffuse scene as the light falls on it (C270). *)
Theorem C288_diffuse (mp : nat) (items : list item) (nu nv : Z) (colour : nat -> vec) (mats : nat -> material)
    diffs (lamps : list lamp) (r : raydiff) (ns : list nat) (s0 s' s : sample) (lo bo : list offset) (u : nat -> R) (md : Z) (k : nat) :
  let prims := full_refine_items items nu nv in
  (mp <= 4)%nat -> Forall (fun it => geom_ok (it_geom it)) items -> (forall it, In it items -> plain_item it) ->
  ((length prims <= 65)%nat \/ forall bounds t o n, prim_bounds prims = Ok bounds ->
     bvh_build SAH mp bounds = Ok (t, o, n) -> (theight t <= 64)%nat) ->
  diffuse_mats mats colour -> clear_ray items prims (rd_ray r) -> off_poles items (rd_ray r) ->
  (forall it t l, In it items -> touches (it_geom it) (rd_ray r) t -> In l lamps ->
     lp_pos l <> ray_at (rd_ray r) t /\ clear_ray items prims (sight (ray_at (rd_ray r) t) (lp_pos l) (offset_at (it_geom it) t) (rtime (rd_ray r)))) ->
  (forall l, In l lamps -> spec_ge0 (lp_i l)) -> steady_stream u ->
  direct_request ns s0 = (s', lo, bo) -> filled s (n1D s') (n2D s') -> length ns = length lamps -> Forall (fun m => 0 < m)%nat ns ->
  exists sc, scene_make mp prims = Ok sc /\ forall fuel depth, (scene_size sc <= fuel)%nat -> (0 < depth)%nat ->
    exists L T i k' c,
      direct_lighting (mkW sc mats (map lamp_light lamps) fuel diffs) u s lo bo md (rtime (rd_ray r)) depth r k = Some (Ok (L, T, i, k', c)) /\
      shown items colour lamps (rd_ray r) L.
Proof.
  intros prims A B C D M E G F I0 U HR FS LN PN. destruct (C270_lit mp items nu nv colour mats diffs lamps r u md k A B C D M E G F) as (sc & HS & H).
  exists sc. split; [exact HS|]. intros fuel depth HF HD. destruct (H fuel depth HF HD) as (L & T & i & k' & c & HW & SH).
  assert (SM : forall j, simple_material (mats j)).
  { intros j. destruct (M j) as (kd & sg & -> & _ & Q). exact Q. }
  destruct (C288_world sc mats fuel diffs lamps ns s0 s' s lo bo u u md _ depth r k k L T i k' c SM I0 U U HR FS LN PN HW) as (k2 & HD2).
  exists L, T, i, k2, c. split; [exact HD2|exact SH].
Qed.
Print Assumptions C288_diffuse.

(** The hypotheses hold for the triangle of C270_ex, its lamp, and three samples per light. *)
Example C288_ex : exists s' lo bo s, direct_request [3]%nat (mkS 0 0 0 0 0 [] [] [] []) = (s', lo, bo) /\ filled s (n1D s') (n2D s') /\
  exists sc, scene_make 4 (full_refine_items w_items 3 3) = Ok sc /\ forall fuel depth, (scene_size sc <= fuel)%nat -> (0 < depth)%nat ->
  let mats := fun k => Matte (fun _ => w_colour k) (fun _ => 0) None in let df := fun _ _ _ _ _ => (false, vzero, vzero, vzero, vzero) in
  exists L T i k c, direct_lighting (mkW sc mats (map lamp_light [w_lamp]) fuel df) (fun _ => /2) s lo bo 5 (rtime ex_ray) depth
      (mkRD ex_ray false vzero vzero vzero vzero) 0 = Some (Ok (L, T, i, k, c)) /\ shown w_items w_colour [w_lamp] ex_ray L.
Proof.
  destruct (direct_request [3]%nat (mkS 0 0 0 0 0 [] [] [] [])) as [[s' lo] bo] eqn:H.
  exists s', lo, bo, (mkS 0 0 0 0 0 [] [] [[0; 0; 0]; [0; 0; 0]] [[(0,0); (0,0); (0,0)]; [(0,0); (0,0); (0,0)]]).
  assert (FS : filled (mkS 0 0 0 0 0 [] [] [[0; 0; 0]; [0; 0; 0]] [[(0,0); (0,0); (0,0)]; [(0,0); (0,0); (0,0)]]) (n1D s') (n2D s')).
  { clear -H. set (z := 0) in H. clearbody z. vm_compute in H. injection H as <- _ _. split; reflexivity. }
  split; [reflexivity|]. split; [exact FS|].
  destruct w_ok as (A & B & C & D & F & G0).
  destruct (C288_diffuse 4 w_items 3 3 w_colour _ (fun _ _ _ _ _ => (false, vzero, vzero, vzero, vzero)) [w_lamp] (mkRD ex_ray false vzero vzero vzero vzero)
    [3]%nat (mkS 0 0 0 0 0 [] [] [] []) s' (mkS 0 0 0 0 0 [] [] [[0; 0; 0]; [0; 0; 0]] [[(0,0); (0,0); (0,0)]; [(0,0); (0,0); (0,0)]]) lo bo (fun _ => /2) 5 0 (le_n 4) A B (or_introl C) D F G0 (w_sight 1)) as (sc & HS & Q); try eassumption; try reflexivity.
  - intros l [<-|[]]. unfold w_lamp, w_lamp_of, spec_ge0, spec; cbn. lra.
  - intros j. unfold in_unit. lra.
  - repeat constructor.
  - exists sc. split; [exact HS|]. intros fuel depth HF HD. exact (Q fuel depth HF HD).
Qed.
