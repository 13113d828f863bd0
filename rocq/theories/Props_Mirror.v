(** Property theorems C295: a mirror shows the mirrored scene.  Vocabulary: S_Mirror.v, S_Material.v, S_Reflection.v. *)
From Coq Require Import Reals Lra Lia List ZArith Bool.
From Verif Require Import Base M_MonteCarlo M_Aggregate M_Utility M_Spectrum M_Sampler M_Film.
From Verif Require Import M_Geometry S_Geometry P_Geometry M_Transform M_Shapes M_BVH M_Reflection S_Reflection M_Light M_Primitive
  M_Material S_Material P_Material P_Material2 P_Material3 P_Material4 P_Material6 M_Integrator S_Integrator M_World S_Superpose S_Mirror Props_Material Props_Amplify.
Import ListNotations.
Open Scope R_scope.

Lemma no_direct (V : Type) (e : env V) u p n wo eps time b : (forall wo wi fl, bsdf_f b wo wi fl = Ok vzero) ->
  forall ls L k L' k', whitted_lights e u ls p n wo eps time b L k = Ok (L', k') -> L' = L.
Proof.
  intros B. assert (Z0 : spec_is_black vzero = true).
  { unfold spec_is_black, vzero; cbn [vx vy vz]. rewrite (proj2 (Rltb_true 0 EPS)) by (unfold EPS; lra). reflexivity. }
  induction ls as [|l ls IH]; intros L k L' k'; cbn [whitted_lights].
  - now intros [= -> _].
  - destruct (smp_from_rand u k) as [a k1]. destruct (lt_sample l p eps a time) as [[[[Li wi] pdf] vis]|x]; cbn [bind]; [|discriminate].
    destruct (_ || _)%bool; [apply IH|]. rewrite B. cbn [bind]. rewrite Z0. cbn [negb andb]. apply IH.
Qed.
Lemma mirror_lobes kr flip g s b : get_bsdf (Mirror kr None) flip g s = Ok b ->
  b = bsdf_make (at_hit flip s) (dg_nn g) \/ exists r, b = push_back (bsdf_make (at_hit flip s) (dg_nn g)) (SpecularReflection r FrFull).
Proof.
  cbn [get_bsdf shading bind]. rewrite at_hit_copy. intros [= <-]. destruct (sblack _); [now left|right; eexists; reflexivity].
Qed.
Lemma mirror_no_trans kr flip g s b wo u0 u1 uc : get_bsdf (Mirror kr None) flip g s = Ok b ->
  bsdf_sample b wo u0 u1 uc (Z.lor TRANSMISSION SPECULAR) = Ok (mkSmp 0 None None (spec 0)).
Proof. intros H. destruct (mirror_lobes _ _ _ _ _ H) as [-> | (r & ->)]; reflexivity. Qed.
Lemma mirror_same_flags kr flip g s b wo u0 u1 uc : get_bsdf (Mirror kr None) flip g s = Ok b ->
  bsdf_sample b wo u0 u1 uc (Z.lor REFLECTION SPECULAR) = bsdf_sample b wo u0 u1 uc ALL.
Proof. intros H. destruct (mirror_lobes _ _ _ _ _ H) as [-> | (r & ->)]; reflexivity. Qed.
Lemma dull (f : vec) c K : vscale (Rabs c) f = K -> Rabs c <= 1 -> ~ nearly_black K -> (0 <= vx K /\ 0 <= vy K /\ 0 <= vz K) -> is_black f = false.
Proof.
  intros E C NB P. unfold is_black. apply not_true_iff_false. intros H. apply andb_true_iff in H. destruct H as [H H3]. apply andb_true_iff in H. destruct H as [H1 H2].
  apply Rltb_true in H1, H2, H3. apply NB. rewrite <- E. unfold nearly_black, vscale, vmap; cbn [vx vy vz].
  pose proof (Rabs_pos c). assert (Q : forall x, Rabs x < EPS -> Rabs c * x < EPS).
  { intros x Hx. apply Rle_lt_trans with (Rabs x); [|exact Hx]. pose proof (Rle_abs x). pose proof (Rabs_pos x). apply Rle_trans with (Rabs c * Rabs x); [apply Rmult_le_compat_l; lra|].
    rewrite <- (Rmult_1_l (Rabs x)) at 2. apply Rmult_le_compat_r; lra. }
  repeat split; now apply Q.
Qed.

(** A ray meets a mirror whose shading frame is aligned with the world's axes.  What WhittedIntegrator returns is the mirror's own emission plus
    Kr times what it returns along the ray thrown back. *)
Theorem C295_mirror_partial (V : Type) (e : env V) (u : nat -> R) (md : Z) (time : R) (fuel : nat) (r : raydiff) (i : V) (k : nat) L T i' k' n
    (r1 : raydiff) (v : V) (p : vec) (b : bsdf) (kr : stex) (flip : bool) (g s : dgeom) :
  vol e = None -> steady_stream u ->
  hit e r = (r1, Some v) -> v_bsdf e v r1 = Ok (p, b) -> get_bsdf (Mirror kr None) flip g s = Ok b ->
  regular s -> b_dgs_nn e v r1 = dg_nn (at_hit flip s) -> world_axes b ->
  unit (rdir r1) -> vdot (rdir r1) (dg_nn (at_hit flip s)) <> 0 -> ~ nearly_black (positive_part (kr (at_hit flip s))) ->
  (rdepth (rd_ray r1) + 1 < md)%Z ->
  renderer_li e u md time (whitted_local e u) fuel r i k = Some (Ok (L, T, i', k', n)) ->
  exists fuel' r2 k2 L2 T2 i2 k3 n2,
    thrown_back (rd_ray r1) p (dg_nn (at_hit flip s)) (v_eps e v) (rd_ray r2) /\
    renderer_li e u md time (whitted_local e u) fuel' r2 v k2 = Some (Ok (L2, T2, i2, k3, n2)) /\
    L = vadd (v_le e v (vneg (rdir r1))) (tinted (positive_part (kr (at_hit flip s))) L2).
Proof.
  intros NV ST HH HB HM RG HN AX U1 NZ NB DP H. set (q := at_hit flip s) in *. set (nn := dg_nn q) in *.
  destruct (mirror_spec kr flip g s RG) as (b' & GB & F0 & _ & MS). rewrite HM in GB. injection GB as <-.
  fold q nn in MS. destruct fuel as [|fuel]; cbn [renderer_li] in H; [discriminate|].
  destruct (negb _); [discriminate|]. rewrite HH in H. unfold surf_li in H at 1. rewrite HB in H. cbv zeta in H.
  unfold whitted_local in H at 1. destruct (whitted_lights _ _ _ _ _ _ _ _ _ _ _) as [[Ld k1]|x] eqn:HL; [|discriminate].
  apply (no_direct V e u _ _ _ _ _ b F0) in HL. subst Ld.
  rewrite (proj2 (Z.ltb_lt _ _) DP) in H. unfold specular in H at 1. cbn [smp_from_rand] in H.
  change (Z.lor (if false then TRANSMISSION else REFLECTION) SPECULAR) with (Z.lor REFLECTION SPECULAR) in H.
  rewrite (mirror_same_flags _ _ _ _ _ _ _ _ _ HM) in H.
  assert (UW : unit (vneg (rdir r1))) by (unfold unit, vneg, vmap in *; cbn [vx vy vz] in *; lra).
  assert (NW : vdot (vneg (rdir r1)) nn <> 0). { intros Q. apply NZ. unfold vdot, vneg, vmap in *; cbn [vx vy vz] in *; lra. }
  destruct (MS NB _ (u k1) (u (S k1)) (u (S (S k1))) UW NW (proj1 (ST _))) as (smp & wi & E1 & E2 & _ & E4 & E5 & E6).
  specialize (E6 AX). unfold smp_from_rand in H. rewrite E1, E2, E4 in H.
  assert (N1 : unit nn). { destruct AX as (_ & _ & (z & Hz & SZ)). assert (B : bs_nn b = nn). { destruct (mirror_lobes _ _ _ _ _ HM) as [-> | (rr & ->)]; reflexivity. }
    rewrite B in SZ. unfold unit. rewrite SZ. cbn [vx vy vz]. destruct Hz as [-> | ->]; ring. }
  assert (C1 : Rabs (vdot (vneg (rdir r1)) nn) <= 1). { clear - UW N1. set (w := vneg (rdir r1)) in *. clearbody w nn. unfold unit, vdot in *. apply Rabs_le.
    pose proof (Rle_0_sqr (vx w - vx nn)). pose proof (Rle_0_sqr (vy w - vy nn)). pose proof (Rle_0_sqr (vz w - vz nn)).
    pose proof (Rle_0_sqr (vx w + vx nn)). pose proof (Rle_0_sqr (vy w + vy nn)). pose proof (Rle_0_sqr (vz w + vz nn)). unfold Rsqr in *. split; lra. }
  assert (PP : 0 <= vx (positive_part (kr q)) /\ 0 <= vy (positive_part (kr q)) /\ 0 <= vz (positive_part (kr q))).
  { unfold positive_part; cbn [vx vy vz]. repeat split; apply Rmax_l || apply Rmax_r. }
  rewrite (dull _ _ _ E5 C1 NB PP) in H. rewrite (proj2 (Rltb_true 0 1)) in H by lra. cbn [andb negb] in H.
  assert (WN : vdot wi nn = vdot (vneg (rdir r1)) nn).
  { rewrite E6. unfold unit in N1. set (w := vneg (rdir r1)). clearbody w nn. unfold vdot, vsub, vscale, vmap2, vmap in *; cbn [vx vy vz] in *.
    match goal with |- ?l = ?rr => replace l with (2 * (vx w * vx nn + vy w * vy nn + vz w * vz nn) * (vx nn * vx nn + vy nn * vy nn + vz nn * vz nn) - (vx w * vx nn + vy w * vy nn + vz w * vz nn)) by ring end. rewrite N1. ring. }
  assert (AD : abs_dot wi nn = Rabs (vdot (vneg (rdir r1)) nn)) by (unfold abs_dot; rewrite <- WN; reflexivity).
  rewrite HN, AD in H. assert (RZ : Reqb (Rabs (vdot (vneg (rdir r1)) nn)) 0 = false).
  { unfold Reqb. destruct (Req_EM_T _ 0) as [Q|]; [|reflexivity]. exfalso. apply (Rabs_no_R0 _ NW Q). }
  rewrite RZ in H.
  match goal with |- _ => set (r2 := if rd_has r1 then _ else _) in H end.
  assert (R2 : rd_ray r2 = rd_ray (child_ray p wi r1 (v_eps e v))).
  { unfold r2. destruct (rd_has r1); [|reflexivity]. destruct (diffs _ _ _ _ _ _) as [[[[? ?] ?] ?] ?]. reflexivity. }
  clearbody r2. unfold obind at 3 in H. destruct (renderer_li e u md time (whitted_local e u) fuel r2 v _) as [[[[[[L2 T2] i2] k3] n2]|x]|] eqn:REC; try discriminate.
  cbn [obind] in H. unfold specular in H. unfold smp_from_rand in H.
  change (Z.lor (if true then TRANSMISSION else REFLECTION) SPECULAR) with (Z.lor TRANSMISSION SPECULAR) in H.
  rewrite (mirror_no_trans _ _ _ _ _ _ _ _ _ HM) in H. cbn [sm_pdf sm_f] in H. rewrite (proj2 (Rltb_false 0 0)) in H by lra. cbn [andb obind] in H.
  rewrite NV in H. injection H as HL _ _ _ _.
  exists fuel, r2, (S (S (S k1))), L2, T2, i2, k3, n2. split; [|split; [exact REC|]].
  - clear - R2 E6. clearbody nn. rewrite R2. unfold thrown_back, child_ray, ray_from_parent; cbn. split; [reflexivity|]. split; [|repeat split; reflexivity].
    rewrite E6. unfold rdir. unfold vsub, vscale, vneg, vdot, vmap2, vmap; cbn [vx vy vz]. apply V3_eq; cbn [vx vy vz]. all: ring.
  - rewrite <- HL, <- E5. unfold tinted, sdiv, vscale, smul, vadd, spec, vmap2, vmap; cbn [vx vy vz]. apply V3_eq; cbn [vx vy vz]; field.
Qed.
Print Assumptions C295_mirror_partial.
(** A ray which may go no deeper sees of the mirror only its own emission; so does a ray that meets a (nearly) black mirror. *)
Theorem C295_limit (V : Type) (e : env V) (u : nat -> R) (md : Z) (time : R) (fuel : nat) (r : raydiff) (i : V) (k : nat) L T i' k' n
    (r1 : raydiff) (v : V) (p : vec) (b : bsdf) (kr : stex) (flip : bool) (g s : dgeom) :
  vol e = None -> hit e r = (r1, Some v) -> v_bsdf e v r1 = Ok (p, b) -> get_bsdf (Mirror kr None) flip g s = Ok b -> regular s ->
  (md <= rdepth (rd_ray r1) + 1)%Z \/ nearly_black (positive_part (kr (at_hit flip s))) ->
  renderer_li e u md time (whitted_local e u) fuel r i k = Some (Ok (L, T, i', k', n)) -> L = v_le e v (vneg (rdir r1)).
Proof.
  intros NV HH HB HM RG C H. destruct (mirror_spec kr flip g s RG) as (b' & GB & F0 & BS & _). rewrite HM in GB. injection GB as <-.
  destruct fuel as [|fuel]; cbn [renderer_li] in H; [discriminate|].
  destruct (negb _); [discriminate|]. rewrite HH in H. unfold surf_li in H at 1. rewrite HB in H. cbv zeta in H.
  unfold whitted_local in H at 1. destruct (whitted_lights _ _ _ _ _ _ _ _ _ _ _) as [[Ld k1]|x] eqn:HL; [|discriminate].
  apply (no_direct V e u _ _ _ _ _ b F0) in HL. subst Ld.
  destruct (rdepth (rd_ray r1) + 1 <? md)%Z eqn:D.
  - apply Z.ltb_lt in D. destruct C as [C|C]; [lia|]. unfold specular in H. unfold smp_from_rand in H.
    change (Z.lor (if false then TRANSMISSION else REFLECTION) SPECULAR) with (Z.lor REFLECTION SPECULAR) in H.
    change (Z.lor (if true then TRANSMISSION else REFLECTION) SPECULAR) with (Z.lor TRANSMISSION SPECULAR) in H.
    rewrite (mirror_same_flags _ _ _ _ _ _ _ _ _ HM), (BS C) in H. cbn [sm_pdf sm_f] in H. rewrite (proj2 (Rltb_false 0 0)) in H by lra. cbn [andb obind] in H.
    rewrite (mirror_no_trans _ _ _ _ _ _ _ _ _ HM) in H. cbn [sm_pdf sm_f] in H. rewrite (proj2 (Rltb_false 0 0)) in H by lra. cbn [andb obind] in H.
    rewrite NV in H. injection H as <- _ _ _ _. unfold vadd, spec, vmap2; cbn [vx vy vz]. apply V3_eq; cbn [vx vy vz]; ring.
  - cbn [obind] in H. rewrite NV in H. injection H as <- _ _ _ _. unfold vadd, spec, vmap2; cbn [vx vy vz]. apply V3_eq; cbn [vx vy vz]; ring.
Qed.
Print Assumptions C295_limit.

(** The same in a scene of shapes and materials: the primitive hit has a mirror material. *)
Theorem C295_world_partial (w : world) (u : nat -> R) (md : Z) (time : R) (fuel : nat) (r : raydiff) (i0 : isect) (k : nat) L T i' k' n
    (r1 : raydiff) (i : isect) (pr : gprim) (g s : dgeom) (b : bsdf) (kr : stex) :
  let e := env_of w in let flip := b_flip (shape_base (gp_shape pr)) in let nn := dg_nn (at_hit flip s) in
  steady_stream u ->
  world_hit w r = (r1, Some i) -> is_prim i = Some pr -> is_dg i = Some g -> w_mats w (gp_material pr) = Mirror kr None ->
  shape_shading (gp_shape pr) (compute_differential g r1) = Ok s -> regular s ->
  get_bsdf (Mirror kr None) flip (compute_differential g r1) s = Ok b -> world_axes b ->
  unit (rdir r1) -> vdot (rdir r1) nn <> 0 -> ~ nearly_black (positive_part (kr (at_hit flip s))) -> (rdepth (rd_ray r1) + 1 < md)%Z ->
  renderer_li e u md time (whitted_local e u) fuel r i0 k = Some (Ok (L, T, i', k', n)) ->
  exists fuel' r2 k2 L2 T2 i2 k3 n2,
    thrown_back (rd_ray r1) (dg_p g) nn (is_eps i) (rd_ray r2) /\
    renderer_li e u md time (whitted_local e u) fuel' r2 i k2 = Some (Ok (L2, T2, i2, k3, n2)) /\
    L = vadd (world_le i (vneg (rdir r1))) (tinted (positive_part (kr (at_hit flip s))) L2).
Proof.
  intros e flip nn ST HH HP HG HM HS RG GB AX U1 NZ NB DP H.
  assert (WB : world_bsdf w i r1 = Ok b). { unfold world_bsdf. rewrite HP, HG. unfold isect_bsdf. rewrite HM, HS. cbn [bind]. exact GB. }
  assert (NB2 : bs_nn b = nn). { destruct (mirror_lobes _ _ _ _ _ GB) as [-> | (rr & ->)]; reflexivity. }
  destruct (C295_mirror_partial isect e u md time fuel r i0 k L T i' k' n r1 i (dg_p g) b kr flip (compute_differential g r1) s) as (f & r2 & k2 & L2 & T2 & i2 & k3 & n2 & A & B & C);
    try assumption; try reflexivity.
  - cbn [e env_of v_bsdf]. rewrite WB. cbn [bind]. unfold isect_p. now rewrite HG.
  - cbn [e env_of b_dgs_nn]. rewrite WB. exact NB2.
  - exists f, r2, k2, L2, T2, i2, k3, n2. split; [exact A|]. split; [exact B|exact C].
Qed.
Print Assumptions C295_world_partial.

(** a scene with one mirror, met by camera rays only, in front of a sky that shines from the direction [t] only *)
Definition is_vec (a t : vec) : bool := Reqb (vx a) (vx t) && Reqb (vy a) (vy t) && Reqb (vz a) (vz t).
Definition sky (t : vec) : light := mkLight true (fun p _ _ _ => Ok (spec 0, mkV 0 0 1, 1, mkLR p (mkV 0 0 1) 0 PInf 0 0)) (fun _ _ => 0)
  (fun r => if is_vec (rdir r) t then spec 1 else spec 0).
Definition ex_mirror (b : bsdf) (n t : vec) : env Datatypes.unit := mkEnv Datatypes.unit [sky t]
  (fun r => (r, if (rdepth (rd_ray r) =? 0)%Z then Some tt else None)) (fun _ => false) (fun _ _ => spec 0) (fun _ => 0)
  (fun _ _ => Ok (vzero, b)) (fun _ _ => n) (fun _ _ _ _ _ => (false, vzero, vzero, vzero, vzero)) None.
Definition ray_at (o d : vec) (depth : Z) : raydiff := mkRD (mkRay o d (mkV false false false) (Fin 0) PInf depth 0) false vzero vzero vzero vzero.
Lemma sky_sees b n t r i k fuel : (rdepth (rd_ray r) <> 0)%Z -> rtm r = 0 ->
  renderer_li (ex_mirror b n t) (fun _ => 0) 5 0 (whitted_local (ex_mirror b n t) (fun _ => 0)) (Datatypes.S fuel) r i k =
  Some (Ok (if is_vec (rdir r) t then spec 1 else spec 0, spec 0, i, k, 0%nat)).
Proof.
  intros D T0. cbn [renderer_li]. rewrite T0. replace (Reqb 0 0) with true by (symmetry; apply Reqb_true; reflexivity). cbn [negb ex_mirror hit].
  rewrite (proj2 (Z.eqb_neq _ _) D). cbn [obind]. unfold sum_le, ex_mirror. cbn [lights fold_left sky lt_le vol].
  assert (A : forall x, vadd (spec 0) (smul (spec 1) x) = x).
  { intros x. unfold vadd, smul, spec, vmap2; cbn [vx vy vz]. apply V3_eq; cbn [vx vy vz]; ring. }
  rewrite A. reflexivity.
Qed.
(** the camera ray: emission and direct light are zero; what the sky sends along the sampled direction comes back *)
Lemma mirror_run b n t o d smp wi : (forall wo wi fl, bsdf_f b wo wi fl = Ok vzero) ->
  bsdf_sample b (vneg d) 0 0 0 (Z.lor REFLECTION SPECULAR) = Ok smp -> sm_wi smp = Some wi ->
  bsdf_sample b (vneg d) 0 0 0 (Z.lor TRANSMISSION SPECULAR) = Ok (mkSmp 0 None None (spec 0)) ->
  exists L i' k' c, renderer_li (ex_mirror b n t) (fun _ => 0) 5 0 (whitted_local (ex_mirror b n t) (fun _ => 0)) 2 (ray_at o d 0) tt 0 = Some (Ok (L, spec 0, i', k', c)) /\
    (is_vec wi t = false -> L = spec 0).
Proof.
  intros F0 S1 W S2. set (loc := whitted_local (ex_mirror b n t) (fun _ => 0)). set (rl := renderer_li (ex_mirror b n t) (fun _ => 0) 5 0 loc 1).
  assert (RL : forall r i k, (rdepth (rd_ray r) <> 0)%Z -> rtm r = 0 -> rl r i k = Some (Ok (if is_vec (rdir r) t then spec 1 else spec 0, spec 0, i, k, 0%nat))).
  { intros. now apply sky_sees. }
  change (renderer_li (ex_mirror b n t) (fun _ => 0) 5 0 loc 2 (ray_at o d 0) tt 0) with
    (if negb (Reqb 0 0) then Some (Err AssertionError : res (rout (V := Datatypes.unit))) else
     obind (surf_li (ex_mirror b n t) (fun _ => 0) 5 loc rl (ray_at o d 0) tt 0) (fun '(L, isect', k1, c) => Some (Ok (L, spec 0, isect', k1, c)))).
  assert (TR : forall i k, specular (ex_mirror b n t) (fun _ => 0) rl true (ray_at o d 0) b vzero n i k = Some (Ok (spec 0, i, (k + 3)%nat, 0%nat))).
  { intros i k. unfold specular, smp_from_rand. change (Z.lor (if true then TRANSMISSION else REFLECTION) SPECULAR) with (Z.lor TRANSMISSION SPECULAR).
    change (rdir (ray_at o d 0)) with d. rewrite S2. cbn [sm_pdf sm_f]. rewrite (proj2 (Rltb_false 0 0)) by lra. cbn [andb].
    replace (k + 3)%nat with (Datatypes.S (Datatypes.S (Datatypes.S k))) by lia. reflexivity. }
  assert (RE : forall i k, exists L i' k' c, specular (ex_mirror b n t) (fun _ => 0) rl false (ray_at o d 0) b vzero n i k = Some (Ok (L, i', k', c)) /\
    (is_vec wi t = false -> L = spec 0)).
  { intros i k. unfold specular, smp_from_rand. change (Z.lor (if false then TRANSMISSION else REFLECTION) SPECULAR) with (Z.lor REFLECTION SPECULAR).
    change (rdir (ray_at o d 0)) with d. rewrite S1, W. destruct (_ && _)%bool; [|do 4 eexists; split; reflexivity].
    destruct (Reqb (abs_dot wi n) 0); [do 4 eexists; split; reflexivity|].
    cbn [rd_has ray_at]. rewrite RL by (try reflexivity; cbn; lia). cbn [obind]. do 4 eexists. split; [reflexivity|]. intros NV.
    change (rdir (child_ray vzero wi _ _)) with wi. rewrite NV. unfold sdiv, vscale, smul, spec, vmap2, vmap; cbn [vx vy vz].
    apply V3_eq; cbn [vx vy vz]; unfold Rdiv; ring. }
  clearbody rl. replace (Reqb 0 0) with true by (symmetry; apply Reqb_true; reflexivity). cbn [negb].
  unfold surf_li. cbn [ex_mirror v_bsdf b_dgs_nn v_le]. unfold loc at 1. unfold whitted_local.
  cbn [ex_mirror lights sky whitted_lights smp_from_rand lt_sample bind]. unfold smp_from_rand. cbn [bind].
  assert (Z0 : spec_is_black (spec 0) = true).
  { unfold spec_is_black, spec; cbn [vx vy vz]. rewrite (proj2 (Rltb_true 0 EPS)) by (unfold EPS; lra). reflexivity. }
  rewrite Z0. cbn [orb]. replace (rdepth (rd_ray (ray_at o d 0)) + 1 <? 5)%Z with true by reflexivity.
  assert (A : forall x, vadd (vadd (vadd (spec 0) (spec 0)) x) (spec 0) = x).
  { intros x. unfold vadd, spec, vmap2; cbn [vx vy vz]. apply V3_eq; cbn [vx vy vz]; ring. }
  fold (ex_mirror b n t). destruct (RE tt 3%nat) as (L & i' & k' & c & E1 & E2). exists L, i', (k' + 3)%nat, (Datatypes.S (c + 0)).
  rewrite E1. cbn [obind]. rewrite TR. cbn [obind]. rewrite A. split; [reflexivity|exact E2].
Qed.
(** An upright mirror (normal +x) in front of a black world with one bright direction.  The ray thrown back would look into that direction, and
    WhittedIntegrator returns 1 for it; for the ray that meets the mirror it returns 0. *)
Theorem C295_direction_refuted :
  let d := mkV (-3/5) (-4/5) 0 in let n := mkV 1 0 0 in let u := fun _ : nat => 0 in let r := ray_at vzero d 0 in
  exists b, regular wall /\ dg_nn (at_hit false wall) = n /\ get_bsdf (Mirror (fun _ => spec 1) None) false wall wall = Ok b /\
    let e := ex_mirror b n (mkV (3/5) (-4/5) 0) in
    (exists i k c, renderer_li e u 5 0 (whitted_local e u) 2 r tt 0 = Some (Ok (spec 0, spec 0, i, k, c))) /\
    (forall r2 i k, thrown_back (rd_ray r) vzero n (v_eps e tt) (rd_ray r2) ->
      renderer_li e u 5 0 (whitted_local e u) 1 r2 i k = Some (Ok (spec 1, spec 0, i, k, 0%nat))).
Proof.
  intros d n u r. destruct wall_mirror as (b & smp & wi & GB & S1 & W & NW). exists b. split; [exact wall_regular|]. split; [exact wall_hit|]. split; [exact GB|].
  intros e. assert (UD : vneg d = mkV (3/5) (4/5) 0). { unfold d, vneg, vmap; cbn [vx vy vz]. apply V3_eq; cbn [vx vy vz]; field. }
  split.
  - destruct (mirror_run b n (mkV (3/5) (-4/5) 0) vzero d smp wi) as (L & i' & k' & c & E1 & E2).
    + destruct (mirror_spec (fun _ => spec 1) false wall wall wall_regular) as (b' & GB' & F0 & _). rewrite GB in GB'. injection GB' as <-. exact F0.
    + rewrite UD. rewrite (mirror_same_flags _ _ _ _ _ _ _ _ _ GB). exact S1.
    + exact W.
    + apply (mirror_no_trans _ _ _ _ _ _ _ _ _ GB).
    + rewrite E2 in E1.
      * exists i', k', c. exact E1.
      * apply not_true_iff_false. intros Q. apply NW. unfold is_vec in Q. apply andb_true_iff in Q. destruct Q as [Q Q3]. apply andb_true_iff in Q. destruct Q as [Q1 Q2].
        apply Reqb_true in Q1, Q2, Q3. destruct wi as [wx wy wz]. cbn [vx vy vz] in Q1, Q2, Q3. now subst.
  - intros r2 i k (_ & HD & _ & _ & HT & HDp). unfold e, u. rewrite sky_sees.
    + assert (Q : rdir r2 = mkV (3/5) (-4/5) 0).
      { unfold rdir. rewrite HD. unfold r, ray_at, d, n, vdot, vsub, vscale, vmap2, vmap; cbn. apply V3_eq; cbn [vx vy vz]; field. }
      rewrite Q. unfold is_vec; cbn [vx vy vz]. unfold Reqb. destruct (Req_EM_T (3/5) (3/5)); [|lra]. destruct (Req_EM_T (-4/5) (-4/5)); [|lra]. destruct (Req_EM_T 0 0); [|lra]. reflexivity.
    + rewrite HDp. unfold r, ray_at; cbn. lia.
    + unfold rtm. rewrite HT. reflexivity.
Qed.
Print Assumptions C295_direction_refuted.
(** A mirror on the floor, seen from above: the hypotheses of [C295_mirror_partial] are met and the mirror shows the bright direction. *)
Example C295_ex :
  let d := mkV (-4/5) 0 (-3/5) in let n := mkV 0 0 1 in let u := fun _ : nat => 0 in let r := ray_at vzero d 0 in
  exists b, get_bsdf (Mirror (fun _ => spec 1) None) false patch patch = Ok b /\ regular patch /\ world_axes b /\ steady_stream u /\
    let e := ex_mirror b n (mkV (-4/5) 0 (3/5)) in
    hit e r = (r, Some tt) /\ v_bsdf e tt r = Ok (vzero, b) /\ b_dgs_nn e tt r = dg_nn (at_hit false patch) /\ vol e = None /\
    unit (rdir r) /\ vdot (rdir r) (dg_nn (at_hit false patch)) <> 0 /\ ~ nearly_black (positive_part (spec 1)) /\ (rdepth (rd_ray r) + 1 < 5)%Z /\
    exists i k c, renderer_li e u 5 0 (whitted_local e u) 2 r tt 0 = Some (Ok (spec 1, spec 0, i, k, c)).
Proof.
  intros d n u r. pose proof C287_ex as CE. cbv zeta in CE. destruct CE as (GB & AX & (smp & wi & S1 & _ & W)). set (b := push_back _ _) in GB, AX, S1. clearbody b. exists b.
  assert (ST : steady_stream u) by (intros j; unfold u, in_unit; lra).
  assert (NN : dg_nn (at_hit false patch) = n) by (rewrite patch_hit; reflexivity).
  assert (UD : unit d) by (unfold unit, d; cbn; field).
  assert (DN : vdot d n <> 0) by (unfold vdot, d, n; cbn; lra).
  split; [exact GB|]. split; [exact patch_regular|]. split; [exact AX|]. split; [exact ST|].
  intros e. split; [reflexivity|]. split; [reflexivity|]. split; [rewrite NN; reflexivity|]. split; [reflexivity|]. split; [exact UD|].
  split; [rewrite NN; exact DN|]. split; [exact white_nb|]. split; [reflexivity|].
  destruct (mirror_run b n (mkV (-4/5) 0 (3/5)) vzero d smp wi) as (L & i' & k' & c & E1 & _).
  - destruct (mirror_spec (fun _ => spec 1) false patch patch patch_regular) as (b' & GB' & F0 & _). rewrite GB in GB'. injection GB' as <-. exact F0.
  - replace (vneg d) with wo_w; [exact S1|]. unfold wo_w, d, vneg, vmap; cbn [vx vy vz]. apply V3_eq; cbn [vx vy vz]; field.
  - exact W.
  - apply (mirror_no_trans _ _ _ _ _ _ _ _ _ GB).
  - exists i', k', c. fold e in E1. fold u in E1. fold r in E1.
    destruct (C295_mirror_partial _ e u 5 0 2 r tt 0 L (spec 0) i' k' c r tt vzero b (fun _ => spec 1) false patch patch) as (f & r2 & k2 & L2 & T2 & i2 & k3 & n2 & A & B & C);
      try reflexivity; try assumption.
    + exact patch_regular.
    + rewrite NN. reflexivity.
    + rewrite NN. exact DN.
    + exact white_nb.
    + destruct A as (_ & HD & _ & _ & HT & HDp). destruct f as [|f]; [discriminate|]. unfold e, u in B. rewrite sky_sees in B.
      * assert (Q : rdir r2 = mkV (-4/5) 0 (3/5)).
        { unfold rdir. rewrite HD, NN. unfold r, ray_at, d, n, vdot, vsub, vscale, vmap2, vmap; cbn. apply V3_eq; cbn [vx vy vz]; field. }
        rewrite Q in B. replace (is_vec _ _) with true in B
          by (unfold is_vec; cbn [vx vy vz]; unfold Reqb; destruct (Req_EM_T (-4/5) (-4/5)); [|lra]; destruct (Req_EM_T (3/5) (3/5)); [|lra]; destruct (Req_EM_T 0 0); [|lra]; reflexivity).
        injection B as <- _ _ _ _. rewrite E1. repeat f_equal. rewrite C. unfold e; cbn [ex_mirror v_le].
        unfold vadd, tinted, positive_part, spec, vmap2; cbn [vx vy vz]. rewrite Rmax_right by lra. apply V3_eq; cbn [vx vy vz]; ring.
      * rewrite HDp. unfold r, ray_at; cbn. lia.
      * unfold rtm. rewrite HT. reflexivity.
Qed.
