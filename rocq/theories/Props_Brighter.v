(** Property theorems C286: adding a light never makes anything darker.  Vocabulary: S_Brighter.v, S_Superpose.v, S_World.v. *)
From Coq Require Import Reals Lra Lia List ZArith Bool Permutation.
From Verif Require Import Base M_MonteCarlo M_Aggregate M_Utility M_Spectrum M_Sampler M_Film.
From Verif Require Import M_Geometry S_Geometry P_Geometry M_Transform S_Transform P_Transform P_Transform2 M_Shapes S_Shapes P_ShapesMore M_BVH S_BVH
  M_Reflection S_Reflection M_Light M_Primitive S_Scene P_Scene2 M_Material S_Material M_Integrator S_Integrator S_Integrator2 P_Integrator3 M_World S_World P_World P_World2
  S_Superpose P_Superpose S_Brighter P_Brighter Props_World Props_Superpose.
Import ListNotations.
Open Scope R_scope.

(** C286: the lights [ls] are the lights [ls1] and some more, in any order.  Whatever the surfaces emit themselves, if
    the Whitted integrator returns L1 along a ray with the lights [ls1] and L with the lights [ls], then L is at least L1
    in every channel; through any number of mirrors and panes, whatever the random numbers of the two runs. *)
Theorem C286_brighter (V : Type) (e : env V) (ls1 ls2 ls : list light) (le : V -> vec -> vec) (u1 u : nat -> R)
    (md : Z) (time : R) (fuel : nat) (r : raydiff) (i : V) (k1 k : nat) L1 T1 i1 k1' n1 L T i' k' n :
  vol e = None -> steady_surfaces e -> (forall v q p b, v_bsdf e v q = Ok (p, b) -> reflects_light b) ->
  Permutation ls (ls1 ++ ls2) -> (forall l, In l ls1 -> steady_light l) -> (forall l, In l ls2 -> gives_light l) ->
  steady_stream u1 -> steady_stream u ->
  let e1 := lit_with e ls1 le in let e2 := lit_with e ls le in
  renderer_li e1 u1 md time (whitted_local e1 u1) fuel r i k1 = Some (Ok (L1, T1, i1, k1', n1)) ->
  renderer_li e2 u md time (whitted_local e2 u) fuel r i k = Some (Ok (L, T, i', k', n)) ->
  no_darker L1 L.
Proof.
  intros NV SB HR P HS HG U1 U e1 e2 H1 H2.
  assert (HA : forall l, In l ls -> steady_light l).
  { intros l Hl. apply (Permutation_in _ P) in Hl. apply in_app_or in Hl. destruct Hl as [Hl|Hl]; [now apply HS|apply (HG l Hl)]. }
  destruct (difference e md time NV SB ls1 ls2 ls le u1 u u fuel r i k1 k 0%nat _ _ _ _ _ _ _ _ _ _ P HA U1 U U H1 H2) as (Lb & Tb & ib & kb & nb & E & ->).
  destruct (all_lit e u md time ls2 (fun _ _ => vzero) NV (fun _ _ _ _ _ => zero_ge0) HR HG fuel _ _ _ _ _ _ _ _ E) as [_ (A & B & C)].
  unfold no_darker, vadd, vmap2. cbn [vx vy vz]. lra.
Qed.
Print Assumptions C286_brighter.

(** The surfaces: matte without roughness, mirrors and glass, whatever their textures, bump maps and geometry. *)
Theorem C286_materials (m : material) (flip : bool) (dg dgs : dgeom) (b : bsdf) :
  simple_material m -> get_bsdf m flip dg dgs = Ok b -> reflects_light b.
Proof. apply simple_reflects. Qed.
Print Assumptions C286_materials.

(** A scene of shapes of these materials, with or without area emission, and point lights of non-negative intensity. *)
Theorem C286_world sc mats fuel diffs (A B C : list lamp) (u1 u : nat -> R) md time depth r k1 k L1 T1 i1 k1' n1 L T i' k' n :
  (forall j, simple_material (mats j)) -> (forall l, In l B -> spec_ge0 (lp_i l)) ->
  steady_stream u1 -> steady_stream u -> Permutation C (A ++ B) ->
  whitted (mkW sc mats (map lamp_light A) fuel diffs) u1 md time depth r k1 = Some (Ok (L1, T1, i1, k1', n1)) ->
  whitted (mkW sc mats (map lamp_light C) fuel diffs) u md time depth r k = Some (Ok (L, T, i', k', n)) ->
  no_darker L1 L.
Proof.
  intros HM HB U1 U P H1 H2. set (e := env_of (mkW sc mats [] fuel diffs)).
  assert (BS : forall v q p b, v_bsdf e v q = Ok (p, b) -> steady_bsdf b /\ reflects_light b).
  { intros v r0 p b. unfold e. cbn [env_of v_bsdf]. unfold world_bsdf, isect_bsdf. cbn [w_mats].
    destruct (is_prim v) as [q|]; [|discriminate]. destruct (is_dg v) as [g|]; [|discriminate].
    destruct (shape_shading _ _) as [g'|]; cbn [bind]; [|discriminate].
    destruct (get_bsdf _ _ _ _) as [b'|] eqn:EB; cbn [bind]; [|discriminate]. intros [= _ <-]. split; [|apply (C286_materials _ _ _ _ _ (HM _) EB)].
    refine (C279_materials _ _ _ _ _ _ EB). specialize (HM (gp_material q)). destruct (mats (gp_material q)); try contradiction; exact Logic.I. }
  apply (C286_brighter _ e (map lamp_light A) (map lamp_light B) (map lamp_light C) (v_le e) u1 u md time depth r isect_new k1 k L1 T1 i1 k1' n1 L T i' k' n); try assumption.
  - reflexivity.
  - intros v q p b Hv. apply (BS _ _ _ _ Hv).
  - intros v q p b Hv. apply (BS _ _ _ _ Hv).
  - rewrite <- map_app. now apply Permutation_map.
  - intros l Hl. apply in_map_iff in Hl. destruct Hl as (x & <- & _). intros p eps a a' t. reflexivity.
  - intros l Hl. apply in_map_iff in Hl. destruct Hl as (x & <- & Hx). apply lamp_gives. now apply HB.
Qed.
Print Assumptions C286_world.

(** The hypotheses hold for the triangle of C270_ex seen in the light of one lamp, and of two. *)
Example C286_ex : exists sc, scene_make 4 (full_refine_items w_items 3 3) = Ok sc /\
  let mats := fun k => Matte (fun _ => w_colour k) (fun _ => 0) None in let df := fun _ _ _ _ _ => (false, vzero, vzero, vzero, vzero) in
  forall fuel depth, (scene_size sc <= fuel)%nat -> (0 < depth)%nat -> forall c d, 0 <= d -> exists L1 T1 i1 k1 n1 L T i k n,
    let r := mkRD ex_ray false vzero vzero vzero vzero in
    whitted (mkW sc mats (map lamp_light [w_lamp_of c]) fuel df) (fun _ => /2) 5 (rtime ex_ray) depth r 0 = Some (Ok (L1, T1, i1, k1, n1)) /\
    whitted (mkW sc mats (map lamp_light [w_lamp_of d; w_lamp_of c]) fuel df) (fun _ => /2) 5 (rtime ex_ray) depth r 0 = Some (Ok (L, T, i, k, n)) /\
    no_darker L1 L.
Proof.
  destruct C279_ex as (sc & HS & _ & US & H). exists sc. split; [exact HS|]. intros mats df fuel depth HF HD c d D0.
  destruct (H fuel depth HF HD c d) as (L1 & T1 & i1 & k1 & n1 & L2 & T2 & i2 & k2 & n2 & T & i & k & n & E1 & E2 & E3).
  exists L1, T1, i1, k1, n1, (vadd L1 L2), T, i, k, n. cbv zeta. split; [exact E1|]. split; [exact E3|].
  refine (C286_world sc mats fuel df [w_lamp_of c] [w_lamp_of d] [w_lamp_of d; w_lamp_of c] _ _ _ _ _ _ _ _ _ _ _ _ _ _ _ _ _ _ _ _ US US (perm_swap _ _ _) E1 E3).
  - intros j g. lra.
  - intros l [<-|[]]. unfold w_lamp_of, spec_ge0, spec; cbn. lra.
Qed.
(** ... and for a mirror and a pane of glass. *)
Example C286_ex_materials : simple_material (Mirror (fun _ => spec 1) None) /\ simple_material (Glass (fun _ => spec 1) (fun _ => spec 1) (fun _ => 3/2) None).
Proof. split; [exact Logic.I|]. intros g. lra. Qed.
