(** Property theorems C279: lights add up.  Vocabulary: S_Superpose.v, S_World.v. *)
From Coq Require Import Reals Lra Lia List ZArith Bool Permutation.
From Verif Require Import Base M_MonteCarlo M_Aggregate M_Utility M_Spectrum M_Sampler M_Film.
From Verif Require Import M_Geometry S_Geometry P_Geometry M_Transform S_Transform P_Transform P_Transform2 M_Shapes S_Shapes P_ShapesMore M_BVH S_BVH
  M_Reflection S_Reflection M_Light M_Primitive S_Scene P_Scene2 M_Material S_Material M_Integrator S_Integrator S_Integrator2 P_Integrator3 M_World S_World P_World P_World2
  S_Superpose P_Superpose Props_World.
Import ListNotations.
Open Scope R_scope.

(** C279: two sets of light sources in the same geometry.  If the Whitted integrator returns L1 along a ray with the
    lights [ls1] and surface emission [le1], and L2 with the lights [ls2] and surface emission [le2], then with all of
    them it returns L1 + L2, through any number of mirrors and panes of glass and whatever the random numbers.
    The lights must not use random numbers (point lights do not), no medium, and a surface has at most one way to
    reflect and one to transmit specularly (C279_materials). *)
Theorem C279_superposition (V : Type) (e : env V) (ls1 ls2 : list light) (le1 le2 le : V -> vec -> vec) (u1 u2 u : nat -> R)
    (md : Z) (time : R) (fuel : nat) (r : raydiff) (i : V) (k1 k2 k : nat) L1 T1 i1 k1' n1 L2 T2 i2 k2' n2 :
  vol e = None -> steady_surfaces e ->
  (forall r r' v w, hit e r = (r', Some v) -> le v w = vadd (le1 v w) (le2 v w)) ->
  (forall l, In l (ls1 ++ ls2) -> steady_light l) -> steady_stream u1 -> steady_stream u2 -> steady_stream u ->
  let e1 := lit_with e ls1 le1 in let e2 := lit_with e ls2 le2 in let e12 := lit_with e (ls1 ++ ls2) le in
  renderer_li e1 u1 md time (whitted_local e1 u1) fuel r i k1 = Some (Ok (L1, T1, i1, k1', n1)) ->
  renderer_li e2 u2 md time (whitted_local e2 u2) fuel r i k2 = Some (Ok (L2, T2, i2, k2', n2)) ->
  exists T i' k' n, renderer_li e12 u md time (whitted_local e12 u) fuel r i k = Some (Ok (vadd L1 L2, T, i', k', n)).
Proof. intros NV HB HL HS U1 U2 U. now apply (superposition e md time NV HB). Qed.
Print Assumptions C279_superposition.

(** The order of the lights in the scene does not matter. *)
Theorem C279_order (V : Type) (e : env V) (ls ls' : list light) (u u' : nat -> R)
    (md : Z) (time : R) (fuel : nat) (r : raydiff) (i : V) (k k0 : nat) L T i1 k1' n1 :
  vol e = None -> steady_surfaces e -> Permutation ls ls' ->
  (forall l, In l ls -> steady_light l) -> steady_stream u -> steady_stream u' ->
  let e1 := lit_with e ls (v_le e) in let e2 := lit_with e ls' (v_le e) in
  renderer_li e1 u md time (whitted_local e1 u) fuel r i k = Some (Ok (L, T, i1, k1', n1)) ->
  exists k', renderer_li e2 u' md time (whitted_local e2 u') fuel r i k0 = Some (Ok (L, T, i1, k', n1)).
Proof. intros NV HB P HS U U'. now apply (any_order e md time NV HB). Qed.
Print Assumptions C279_order.

(** Which surfaces: those of every material, except an UberMaterial that is both translucent and refracting. *)
Theorem C279_materials (m : material) (flip : bool) (dg dgs : dgeom) (b : bsdf) :
  one_transmission m -> get_bsdf m flip dg dgs = Ok b -> steady_bsdf b.
Proof. apply steady_material. Qed.
Print Assumptions C279_materials.

(** A scene of shapes without area lights and point lights: from the constructors' arguments. *)
Theorem C279_world (mp : nat) (items : list item) (ns np : Z) sc mats fuel diffs (A B C : list lamp) (u1 u2 u : nat -> R) md time depth r
    k1 k2 k L1 T1 i1 k1' n1 L2 T2 i2 k2' n2 :
  (forall it, In it items -> it_light it = None) -> scene_make mp (full_refine_items items ns np) = Ok sc ->
  (forall j, one_transmission (mats j)) ->
  steady_stream u1 -> steady_stream u2 -> steady_stream u -> Permutation C (A ++ B) ->
  whitted (mkW sc mats (map lamp_light A) fuel diffs) u1 md time depth r k1 = Some (Ok (L1, T1, i1, k1', n1)) ->
  whitted (mkW sc mats (map lamp_light B) fuel diffs) u2 md time depth r k2 = Some (Ok (L2, T2, i2, k2', n2)) ->
  exists T i' k' n, whitted (mkW sc mats (map lamp_light C) fuel diffs) u md time depth r k = Some (Ok (vadd L1 L2, T, i', k', n)).
Proof.
  intros HN HS HM U1 U2 U P H1 H2.
  set (e := env_of (mkW sc mats [] fuel diffs)).
  assert (HB : steady_surfaces e).
  { intros v r0 p b. unfold e. cbn [env_of v_bsdf]. unfold world_bsdf, isect_bsdf. cbn [w_mats].
    destruct (is_prim v) as [q|]; [|discriminate]. destruct (is_dg v) as [g|]; [|discriminate].
    destruct (shape_shading _ _) as [g'|]; cbn [bind]; [|discriminate].
    destruct (get_bsdf _ _ _ _) as [b'|] eqn:EB; cbn [bind]; [|discriminate]. intros [= _ <-].
    apply (C279_materials _ _ _ _ _ (HM _) EB). }
  assert (HL : forall ls l, In l (map lamp_light ls) -> steady_light l).
  { intros ls l Hl. apply in_map_iff in Hl. destruct Hl as (x & <- & _). intros p eps a a' t. reflexivity. }
  destruct (C279_superposition _ e (map lamp_light A) (map lamp_light B) (v_le e) (v_le e) (v_le e) u1 u2 u md time depth r isect_new k1 k2 k
    L1 T1 i1 k1' n1 L2 T2 i2 k2' n2 eq_refl HB) as (T & i' & k' & n & E); try assumption.
  - intros r0 r' v w Hh. pose proof (proj2 (proj2 (world_unlit mp items ns np sc mats fuel diffs HN HS)) r0 r' v w Hh) as E0. fold e in E0. rewrite E0. symmetry. apply va_0.
  - intros l Hl. rewrite <- map_app in Hl. now apply (HL _ _ Hl).
  - assert (P1 : Permutation (map lamp_light A ++ map lamp_light B) (map lamp_light C)) by (rewrite <- map_app; apply Permutation_map; now symmetry).
    assert (HL1 : forall l, In l (map lamp_light A ++ map lamp_light B) -> steady_light l) by (intros l Hl; rewrite <- map_app in Hl; now apply (HL _ _ Hl)).
    destruct (C279_order _ e _ _ u u md time depth r isect_new k k _ _ _ _ _ eq_refl HB P1 HL1 U U E) as (k'' & E').
    do 4 eexists. exact E'.
Qed.
Print Assumptions C279_world.

(** The hypotheses hold for the scene of C270_ex: the triangle seen in the light of two lamps. *)
Example C279_ex : exists sc, scene_make 4 (full_refine_items w_items 3 3) = Ok sc /\
  let mats := fun k => Matte (fun _ => w_colour k) (fun _ => 0) None in let df := fun _ _ _ _ _ => (false, vzero, vzero, vzero, vzero) in
  (forall j, one_transmission (mats j)) /\ steady_stream (fun _ => /2) /\
  forall fuel depth, (scene_size sc <= fuel)%nat -> (0 < depth)%nat -> forall c d, exists L1 T1 i1 k1 n1 L2 T2 i2 k2 n2 T i k n,
    let r := mkRD ex_ray false vzero vzero vzero vzero in
    whitted (mkW sc mats (map lamp_light [w_lamp_of c]) fuel df) (fun _ => /2) 5 (rtime ex_ray) depth r 0 = Some (Ok (L1, T1, i1, k1, n1)) /\
    whitted (mkW sc mats (map lamp_light [w_lamp_of d]) fuel df) (fun _ => /2) 5 (rtime ex_ray) depth r 0 = Some (Ok (L2, T2, i2, k2, n2)) /\
    whitted (mkW sc mats (map lamp_light [w_lamp_of d; w_lamp_of c]) fuel df) (fun _ => /2) 5 (rtime ex_ray) depth r 0 = Some (Ok (vadd L1 L2, T, i, k, n)).
Proof.
  destruct w_ok as (A & B & C & D & F & G0).
  pose proof (fun e => C270_lit 4 w_items 3 3 w_colour _ (fun _ _ _ _ _ => (false, vzero, vzero, vzero, vzero)) [w_lamp_of e] (mkRD ex_ray false vzero vzero vzero vzero)
    (fun _ => /2) 5 0 (le_n 4) A B (or_introl C) D F G0 (w_sight e)) as G.
  destruct (G 1) as (sc & HS & _). exists sc. split; [exact HS|]. intros mats df.
  assert (OT : forall j, one_transmission (mats j)) by (intros j; exact Logic.I).
  assert (US : steady_stream (fun _ => /2)) by (intros j; unfold in_unit; lra).
  split; [exact OT|]. split; [exact US|]. intros fuel depth HF HD c d.
  destruct (G c) as (sc1 & HS1 & H1). rewrite HS in HS1. injection HS1 as <-. destruct (H1 fuel depth HF HD) as (L1 & T1 & i1 & k1 & n1 & E1 & _).
  destruct (G d) as (sc2 & HS2 & H2). rewrite HS in HS2. injection HS2 as <-. destruct (H2 fuel depth HF HD) as (L2 & T2 & i2 & k2 & n2 & E2 & _).
  destruct (C279_world 4 w_items 3 3 sc mats fuel df [w_lamp_of c] [w_lamp_of d] [w_lamp_of d; w_lamp_of c] _ _ (fun _ => /2) 5 _ depth _ 0 0 0 _ _ _ _ _ _ _ _ _ _
    (fun it Hi => proj1 (B it Hi)) HS OT US US US (perm_swap _ _ _) E1 E2) as (T & i & k & n & E3).
  do 14 eexists. split; [exact E1|]. split; [exact E2|exact E3].
Qed.
(** ... and for a mirror and a pane of glass. *)
Example C279_ex_materials : one_transmission (Mirror (fun _ => spec 1) None) /\ one_transmission (Glass (fun _ => spec 1) (fun _ => spec 1) (fun _ => 3/2) None).
Proof. split; exact Logic.I. Qed.
