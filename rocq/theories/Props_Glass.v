(** Property theorems C296: glass shows the mirrored scene, dimmed (and nothing else).  Vocabulary: S_Mirror.v, S_Material.v, S_Reflection.v. *)
From Coq Require Import Reals Lra Lia List ZArith Bool.
From Verif Require Import Base M_MonteCarlo M_Aggregate M_Utility M_Spectrum M_Sampler M_Film.
From Verif Require Import M_Geometry S_Geometry P_Geometry M_Transform M_Shapes M_BVH M_Reflection S_Reflection M_Light M_Primitive
  P_Reflection P_Reflection3 P_Fresnel M_Material S_Material P_Material P_Material2 P_Material3 P_Material4 P_Material6 M_Integrator S_Integrator P_Integrator P_Integrator2 M_World S_Superpose S_Mirror Props_Material Props_Amplify Props_Mirror.
Import ListNotations.
Open Scope R_scope.

(** one step of WhittedIntegrator at a surface that only reflects specularly, into one direction, with weight [K] *)
Lemma shiny_step (V : Type) (e : env V) (u : nat -> R) (md : Z) (time : R) (fuel : nat) (r : raydiff) (i : V) (k : nat) L T i' k' n
    (r1 : raydiff) (v : V) (p nn : vec) (b : bsdf) (K : vec) :
  vol e = None -> steady_stream u -> hit e r = (r1, Some v) -> v_bsdf e v r1 = Ok (p, b) -> b_dgs_nn e v r1 = nn -> unit nn ->
  (forall wo wi fl, bsdf_f b wo wi fl = Ok vzero) ->
  (forall u0 u1 uc, 0 <= uc < 1 -> exists smp wi, bsdf_sample b (vneg (rdir r1)) u0 u1 uc (Z.lor REFLECTION SPECULAR) = Ok smp /\ sm_pdf smp = 1 /\
     sm_wi smp = Some wi /\ wi = vsub (vscale (2 * vdot (vneg (rdir r1)) nn) nn) (vneg (rdir r1)) /\
     vscale (Rabs (vdot (vneg (rdir r1)) nn)) (sm_f smp) = K) ->
  unit (rdir r1) -> vdot (rdir r1) nn <> 0 -> ~ nearly_black K -> 0 <= vx K /\ 0 <= vy K /\ 0 <= vz K ->
  (rdepth (rd_ray r1) + 1 < md)%Z ->
  renderer_li e u md time (whitted_local e u) fuel r i k = Some (Ok (L, T, i', k', n)) ->
  exists fuel' r2 k2 L2 T2 i2 k3 n2,
    thrown_back (rd_ray r1) p nn (v_eps e v) (rd_ray r2) /\
    renderer_li e u md time (whitted_local e u) fuel' r2 v k2 = Some (Ok (L2, T2, i2, k3, n2)) /\
    L = vadd (v_le e v (vneg (rdir r1))) (tinted K L2).
Proof.
  intros NV ST HH HB HN N1 F0 MS U1 NZ NB PP DP H.
  destruct fuel as [|fuel]; cbn [renderer_li] in H; [discriminate|].
  destruct (negb _); [discriminate|]. rewrite HH in H. unfold surf_li in H at 1. rewrite HB in H. cbv zeta in H.
  unfold whitted_local in H at 1. destruct (whitted_lights _ _ _ _ _ _ _ _ _ _ _) as [[Ld k1]|x] eqn:HL; [|discriminate].
  apply (no_direct V e u _ _ _ _ _ b F0) in HL. subst Ld.
  rewrite (proj2 (Z.ltb_lt _ _) DP) in H.
  destruct (specular e u (renderer_li e u md time (whitted_local e u) fuel) false r1 b p (b_dgs_nn e v r1) v k1) as [[[[[Lr i1] k2] c2]|x]|] eqn:SR; try discriminate.
  cbn [obind] in H.
  destruct (specular e u (renderer_li e u md time (whitted_local e u) fuel) true r1 b p (b_dgs_nn e v r1) i1 k2) as [[[[[Lt i3] k3] c3]|x]|] eqn:STr; try discriminate.
  apply transmit_black in STr; [|exact NV]. subst Lt. cbn [obind] in H. rewrite NV in H. injection H as HL _ _ _ _.
  unfold specular in SR. unfold smp_from_rand in SR.
  change (Z.lor (if false then TRANSMISSION else REFLECTION) SPECULAR) with (Z.lor REFLECTION SPECULAR) in SR.
  assert (NW : vdot (vneg (rdir r1)) nn <> 0). { intros Q. apply NZ. unfold vdot, vneg, vmap in *; cbn [vx vy vz] in *; lra. }
  assert (UW : unit (vneg (rdir r1))) by (unfold unit, vneg, vmap in *; cbn [vx vy vz] in *; lra).
  destruct (MS (u k1) (u (S k1)) (u (S (S k1))) (ST _)) as (smp & wi & E1 & E2 & E4 & E6 & E5).
  rewrite E1, E2, E4 in SR.
  assert (C1 : Rabs (vdot (vneg (rdir r1)) nn) <= 1). { clear - UW N1. set (w := vneg (rdir r1)) in *. clearbody w. unfold unit, vdot in *. apply Rabs_le.
    pose proof (Rle_0_sqr (vx w - vx nn)). pose proof (Rle_0_sqr (vy w - vy nn)). pose proof (Rle_0_sqr (vz w - vz nn)).
    pose proof (Rle_0_sqr (vx w + vx nn)). pose proof (Rle_0_sqr (vy w + vy nn)). pose proof (Rle_0_sqr (vz w + vz nn)). unfold Rsqr in *. split; lra. }
  rewrite (dull _ _ _ E5 C1 NB PP) in SR. rewrite (proj2 (Rltb_true 0 1)) in SR by lra. cbn [andb negb] in SR.
  assert (WN : vdot wi nn = vdot (vneg (rdir r1)) nn).
  { rewrite E6. unfold unit in N1. set (w := vneg (rdir r1)). clearbody w. unfold vdot, vsub, vscale, vmap2, vmap in *; cbn [vx vy vz] in *.
    match goal with |- ?l = ?rr => replace l with (2 * (vx w * vx nn + vy w * vy nn + vz w * vz nn) * (vx nn * vx nn + vy nn * vy nn + vz nn * vz nn) - (vx w * vx nn + vy w * vy nn + vz w * vz nn)) by ring end. rewrite N1. ring. }
  assert (AD : abs_dot wi nn = Rabs (vdot (vneg (rdir r1)) nn)) by (unfold abs_dot; rewrite <- WN; reflexivity).
  rewrite HN, AD in SR. assert (RZ : Reqb (Rabs (vdot (vneg (rdir r1)) nn)) 0 = false).
  { unfold Reqb. destruct (Req_EM_T _ 0) as [Q|]; [|reflexivity]. exfalso. apply (Rabs_no_R0 _ NW Q). }
  rewrite RZ in SR.
  match goal with |- _ => set (r2 := if rd_has r1 then _ else _) in SR end.
  assert (R2 : rd_ray r2 = rd_ray (child_ray p wi r1 (v_eps e v))).
  { unfold r2. destruct (rd_has r1); [|reflexivity]. destruct (diffs _ _ _ _ _ _) as [[[[? ?] ?] ?] ?]. reflexivity. }
  clearbody r2. destruct (renderer_li e u md time (whitted_local e u) fuel r2 v _) as [[[[[[L2 T2] i2] k4] n2]|x]|] eqn:REC; try discriminate.
  cbn [obind] in SR. injection SR as HR _ _ _.
  exists fuel, r2, (S (S (S k1))), L2, T2, i2, k4, n2. split; [|split; [exact REC|]].
  - clear - R2 E6. rewrite R2. unfold thrown_back, child_ray, ray_from_parent; cbn. split; [reflexivity|]. split; [|repeat split; reflexivity].
    rewrite E6. unfold rdir. unfold vsub, vscale, vneg, vdot, vmap2, vmap; cbn [vx vy vz]. apply V3_eq; cbn [vx vy vz]. all: ring.
  - rewrite <- HL, <- HR, <- E5. unfold tinted, sdiv, vscale, smul, vadd, spec, vmap2, vmap; cbn [vx vy vz]. apply V3_eq; cbn [vx vy vz]; field.
Qed.

Lemma glass_lobes kr kt ix flip g s b : get_bsdf (Glass kr kt ix None) flip g s = Ok b -> ~ nearly_black (positive_part (kr (at_hit flip s))) ->
  let l := SpecularReflection (positive_part (kr (at_hit flip s))) (FrDiel 1 (ix (at_hit flip s))) in
  let b0 := push_back (bsdf_make (at_hit flip s) (dg_nn g)) l in
  b = b0 \/ b = push_back b0 (SpecularTransmission (positive_part (kt (at_hit flip s))) 1 (ix (at_hit flip s))).
Proof.
  intros H B. cbn [get_bsdf shading bind] in H. rewrite at_hit_copy, !sclip_pos in H. apply sblack_niff in B. rewrite B in H. injection H as <-.
  destruct (sblack (positive_part (kt (at_hit flip s)))); [left; reflexivity|right; reflexivity].
Qed.
(** Fresnel's factor as the code computes it, for light met under the angle with cosine [c] on glass of index [eta] *)
Definition dimming (eta c : R) : R := vx (fresnel_call (FrDiel 1 eta) c).
Lemma glass_reflects kr kt ix flip g s b wo : get_bsdf (Glass kr kt ix None) flip g s = Ok b -> regular s ->
  ~ nearly_black (positive_part (kr (at_hit flip s))) -> world_axes b -> unit wo -> vdot wo (dg_nn (at_hit flip s)) <> 0 ->
  let q := at_hit flip s in let n := dg_nn q in
  forall u0 u1 uc, 0 <= uc < 1 -> exists smp wi, bsdf_sample b wo u0 u1 uc (Z.lor REFLECTION SPECULAR) = Ok smp /\ sm_pdf smp = 1 /\
    sm_wi smp = Some wi /\ wi = vsub (vscale (2 * vdot wo n) n) wo /\
    vscale (Rabs (vdot wo n)) (sm_f smp) = vscale (dimming (ix q) (vdot wo n)) (positive_part (kr q)).
Proof.
  intros GB RG NB AX U NZ q n u0 u1 uc UC. pose proof (glass_lobes _ _ _ _ _ _ _ GB NB) as GL. cbv zeta in GL. destruct GL as [EB|EB]; fold q in EB.
  all: assert (OK : bs_ok b) by (rewrite EB; exact (make_ok flip s (dg_nn g) RG)).
  all: set (l := SpecularReflection (positive_part (kr q)) (FrDiel 1 (ix q))) in EB.
  all: assert (S0 : bsdf_sample b wo u0 u1 uc (Z.lor REFLECTION SPECULAR) =
    Ok (mkSmp 1 (Some (l2w b (mirror_dir (w2l b wo)))) (Some 17%Z) (sdiv (smul (fresnel_call (FrDiel 1 (ix q)) (cos_theta (w2l b wo))) (positive_part (kr q))) (abs_cos_theta (mirror_dir (w2l b wo)))))).
  1,3: unfold bsdf_sample; replace (n_components b (Z.lor REFLECTION SPECULAR)) with 1%nat by (rewrite EB; reflexivity); cbn [Nat.eqb];
    assert (PI0 : pick_index uc 1 = 0%Z) by (apply (pick_index_at uc 1 0); [lra|lia|cbn; lra|right; reflexivity]); rewrite PI0;
    replace (pick (bs_bdfs b) (Z.lor REFLECTION SPECULAR) 0) with (Some l) by (rewrite EB; reflexivity);
    cbn [l bdf_sample bind]; destruct (Reqb 1 0) eqn:Q; [exfalso; apply Reqb_true in Q; lra|]; cbn [Nat.ltb Nat.leb]; reflexivity.
  all: eexists; eexists; split; [exact S0|]; cbn [sm_pdf sm_wi sm_f]; split; [reflexivity|]; split; [reflexivity|].
  all: assert (NN : bs_nn b = n) by (rewrite EB; reflexivity).
  all: split; [rewrite (l2w_mirror b wo OK AX), NN; reflexivity|].
  all: unfold dimming; cbn [fresnel_call]; rewrite smul_spec; unfold abs_cos_theta, mirror_dir, cos_theta; cbn [vz]; rewrite w2l_z, NN; now apply sdiv_cancel.
Qed.

(** A ray meets glass whose shading frame is aligned with the world's axes.  What WhittedIntegrator returns is the glass's own emission plus
    F Kr times what it returns along the ray thrown back, F being Fresnel's factor as computed (between 0 and 1 for indices from 1/3 to 3). *)
Theorem C296_glass_partial (V : Type) (e : env V) (u : nat -> R) (md : Z) (time : R) (fuel : nat) (r : raydiff) (i : V) (k : nat) L T i' k' n
    (r1 : raydiff) (v : V) (p : vec) (b : bsdf) (kr kt : stex) (ix : ftex) (flip : bool) (g s : dgeom) :
  let q := at_hit flip s in let nn := dg_nn q in let F := vx (fresnel_call (FrDiel 1 (ix q)) (vdot (vneg (rdir r1)) nn)) in
  vol e = None -> steady_stream u ->
  hit e r = (r1, Some v) -> v_bsdf e v r1 = Ok (p, b) -> get_bsdf (Glass kr kt ix None) flip g s = Ok b ->
  regular s -> b_dgs_nn e v r1 = nn -> world_axes b -> 1/3 <= ix q <= 3 ->
  unit (rdir r1) -> vdot (rdir r1) nn <> 0 -> ~ nearly_black (vscale F (positive_part (kr q))) ->
  (rdepth (rd_ray r1) + 1 < md)%Z ->
  renderer_li e u md time (whitted_local e u) fuel r i k = Some (Ok (L, T, i', k', n)) ->
  0 <= F <= 1 /\
  exists fuel' r2 k2 L2 T2 i2 k3 n2,
    thrown_back (rd_ray r1) p nn (v_eps e v) (rd_ray r2) /\
    renderer_li e u md time (whitted_local e u) fuel' r2 v k2 = Some (Ok (L2, T2, i2, k3, n2)) /\
    L = vadd (v_le e v (vneg (rdir r1))) (tinted (vscale F (positive_part (kr q))) L2).
Proof.
  intros q nn F NV ST HH HB HM RG HN AX IX U1 NZ NB DP H.
  assert (F01 : 0 <= F <= 1). { unfold F. cbn [fresnel_call]. pose proof (fr_diel_call_range 1 (ix q) (vdot (vneg (rdir r1)) nn) ltac:(lra) ltac:(lra) ltac:(lra) ltac:(lra)). unfold spec; cbn [vx]. lra. }
  split; [exact F01|].
  assert (PP : 0 <= vx (positive_part (kr q)) /\ 0 <= vy (positive_part (kr q)) /\ 0 <= vz (positive_part (kr q))).
  { unfold positive_part; cbn [vx vy vz]. repeat split; apply Rmax_l || apply Rmax_r. }
  assert (NB2 : ~ nearly_black (positive_part (kr q))).
  { intros Q. apply NB. unfold nearly_black, vscale, vmap in *; cbn [vx vy vz] in *. assert (X : forall x, 0 <= x -> x < EPS -> F * x < EPS) by (intros x X0 X1; apply Rle_lt_trans with (1 * x); [apply Rmult_le_compat_r; lra|lra]).
    destruct Q as (Q1 & Q2 & Q3), PP as (P1 & P2 & P3). repeat split; now apply X. }
  assert (UW : unit (vneg (rdir r1))) by (unfold unit, vneg, vmap in *; cbn [vx vy vz] in *; lra).
  assert (NW : vdot (vneg (rdir r1)) nn <> 0). { intros Q. apply NZ. unfold vdot, vneg, vmap in *; cbn [vx vy vz] in *; lra. }
  assert (BN : bs_nn b = nn) by (destruct (glass_lobes _ _ _ _ _ _ _ HM NB2) as [-> | ->]; reflexivity).
  assert (N1 : unit nn). { destruct AX as (_ & _ & (z & Hz & SZ)). rewrite BN in SZ. unfold unit. rewrite SZ. cbn [vx vy vz]. destruct Hz as [-> | ->]; ring. }
  apply (shiny_step V e u md time fuel r i k L T i' k' n r1 v p nn b (vscale F (positive_part (kr q)))); try assumption.
  - intros wo wi fl. apply specular_f0. destruct (glass_lobes _ _ _ _ _ _ _ HM NB2) as [-> | ->]; cbn; repeat constructor.
  - exact (glass_reflects kr kt ix flip g s b (vneg (rdir r1)) HM RG NB2 AX UW NW).
  - unfold vscale, vmap; cbn [vx vy vz]. destruct PP as (P1 & P2 & P3). repeat split; apply Rmult_le_pos; lra.
Qed.
Print Assumptions C296_glass_partial.

(** the scene of Props_Mirror with a surface that also transmits *)
Lemma glass_run b n t o d smp wi smp2 wi2 : (forall wo wi fl, bsdf_f b wo wi fl = Ok vzero) ->
  bsdf_sample b (vneg d) 0 0 0 (Z.lor REFLECTION SPECULAR) = Ok smp -> sm_wi smp = Some wi ->
  bsdf_sample b (vneg d) 0 0 0 (Z.lor TRANSMISSION SPECULAR) = Ok smp2 -> sm_wi smp2 = Some wi2 ->
  exists L i' k' c, renderer_li (ex_mirror b n t) (fun _ => 0) 5 0 (whitted_local (ex_mirror b n t) (fun _ => 0)) 2 (ray_at o d 0) tt 0 = Some (Ok (L, spec 0, i', k', c)).
Proof.
  intros F0 S1 W S2 W2. set (loc := whitted_local (ex_mirror b n t) (fun _ => 0)). set (rl := renderer_li (ex_mirror b n t) (fun _ => 0) 5 0 loc 1).
  assert (RL : forall r i k, (rdepth (rd_ray r) <> 0)%Z -> rtm r = 0 -> rl r i k = Some (Ok (if is_vec (rdir r) t then spec 1 else spec 0, spec 0, i, k, 0%nat))).
  { intros. now apply sky_sees. }
  change (renderer_li (ex_mirror b n t) (fun _ => 0) 5 0 loc 2 (ray_at o d 0) tt 0) with
    (if negb (Reqb 0 0) then Some (Err AssertionError : res (rout (V := Datatypes.unit))) else
     obind (surf_li (ex_mirror b n t) (fun _ => 0) 5 loc rl (ray_at o d 0) tt 0) (fun '(L, isect', k1, c) => Some (Ok (L, spec 0, isect', k1, c)))).
  assert (SP : forall tr i k, exists L i' k' c, specular (ex_mirror b n t) (fun _ => 0) rl tr (ray_at o d 0) b vzero n i k = Some (Ok (L, i', k', c))).
  { intros tr i k. unfold specular, smp_from_rand. change (rdir (ray_at o d 0)) with d.
    destruct tr; [rewrite S2, W2|rewrite S1, W]; (destruct (_ && _)%bool; [|do 4 eexists; reflexivity]);
      (destruct (Reqb (abs_dot _ n) 0); [do 4 eexists; reflexivity|]);
      cbn [rd_has ray_at]; rewrite RL by (try reflexivity; cbn; lia); cbn [obind]; do 4 eexists; reflexivity. }
  clearbody rl. replace (Reqb 0 0) with true by (symmetry; apply Reqb_true; reflexivity). cbn [negb].
  unfold surf_li. cbn [ex_mirror v_bsdf b_dgs_nn v_le]. unfold loc at 1. unfold whitted_local.
  cbn [ex_mirror lights sky whitted_lights smp_from_rand lt_sample bind]. unfold smp_from_rand. cbn [bind].
  assert (Z0 : spec_is_black (spec 0) = true).
  { unfold spec_is_black, spec; cbn [vx vy vz]. rewrite (proj2 (Rltb_true 0 EPS)) by (unfold EPS; lra). reflexivity. }
  rewrite Z0. cbn [orb]. replace (rdepth (rd_ray (ray_at o d 0)) + 1 <? 5)%Z with true by reflexivity.
  fold (ex_mirror b n t). destruct (SP false tt 3%nat) as (L & i' & k' & c & E1). rewrite E1. cbn [obind].
  destruct (SP true i' k') as (L2 & i2 & k2 & c2 & E2). rewrite E2. cbn [obind]. do 4 eexists. reflexivity.
Qed.

Lemma fr_straight : fr_diel_call 1 (4/3) 1 = 113/6272.
Proof.
  unfold fr_diel_call. rewrite (clip_id 1) by lra. replace (Rltb 1 0) with false by (symmetry; apply Rltb_false; lra).
  cbv zeta. rewrite sin_sq_clip by lra. rewrite (sqrt_is (1 - 1 * 1) 0) by lra.
  replace (Rleb 1 (1 / (4/3) * 0)) with false by (symmetry; apply Rleb_false; lra).
  replace (pmax 0 (1 - 1 / (4 / 3) * 0 * (1 / (4 / 3) * 0))) with 1 by (rewrite pmax_Rmax, Rmax_right; lra).
  rewrite sqrt_1. rewrite Rabs_R1. unfold fr_diel. field.
Qed.
(** a pane of clear glass on the floor, looked at from straight above *)
Lemma pane : let b := push_back (push_back (bsdf_make patch (mkV 0 0 1)) (SpecularReflection (spec 1) (FrDiel 1 (4/3)))) (SpecularTransmission (spec 1) 1 (4/3)) in
  get_bsdf (Glass (fun _ => spec 1) (fun _ => spec 1) (fun _ => 4/3) None) false patch patch = Ok b /\ world_axes b /\
  (forall wo wi fl, bsdf_f b wo wi fl = Ok vzero) /\
  exists smp wi smp2 wi2, bsdf_sample b (mkV 0 0 1) 0 0 0 (Z.lor REFLECTION SPECULAR) = Ok smp /\ sm_wi smp = Some wi /\
    bsdf_sample b (mkV 0 0 1) 0 0 0 (Z.lor TRANSMISSION SPECULAR) = Ok smp2 /\ sm_wi smp2 = Some wi2.
Proof.
  cbv zeta. assert (N1 : normalize (mkV 1 0 0) = mkV 1 0 0) by (apply normalize_e; unfold unit, vdot; cbn; ring).
  assert (PS : positive_part (spec 1) = spec 1) by (apply pos_spec; lra).
  assert (GB : get_bsdf (Glass (fun _ => spec 1) (fun _ => spec 1) (fun _ => 4/3) None) false patch patch =
    Ok (push_back (push_back (bsdf_make patch (mkV 0 0 1)) (SpecularReflection (spec 1) (FrDiel 1 (4/3)))) (SpecularTransmission (spec 1) 1 (4/3)))).
  { rewrite (glass_shape (fun _ => spec 1) (fun _ => spec 1) (fun _ => 4/3) false patch patch white_nb white_nb). cbv beta. rewrite patch_hit, PS. reflexivity. }
  set (b := push_back (push_back _ _) _) in *.
  assert (AX : world_axes b). { unfold b, world_axes, bsdf_make, push_back, patch. cbn [bs_sn bs_tn bs_nn dg_nn dg_dpdu]. rewrite N1. split; [exists 1; auto|]. split; [exists 1; split; auto; unfold vcross; apply V3_eq; cbn; ring|exists 1; auto]. }
  assert (UZ : unit (mkV 0 0 1)) by (unfold unit; cbn; ring).
  assert (DZ : vdot (mkV 0 0 1) (dg_nn (at_hit false patch)) <> 0) by (rewrite patch_hit; unfold vdot, patch; cbn; lra).
  split; [exact GB|]. split; [exact AX|]. split.
  { intros wo wi fl. apply specular_f0. unfold b; cbn; repeat constructor. }
  destruct (glass_reflects _ _ _ _ _ _ _ _ GB patch_regular white_nb AX UZ DZ 0 0 0 ltac:(lra)) as (smp & wi & E1 & _ & E2 & _).
  exists smp, wi.
  assert (WL : w2l b (mkV 0 0 1) = mkV 0 0 1).
  { unfold w2l, b, bsdf_make, push_back, patch, vdot. cbn [bs_sn bs_tn bs_nn dg_nn dg_dpdu]. rewrite N1. unfold vcross. cbn [vx vy vz]. apply V3_eq; cbn [vx vy vz]; ring. }
  assert (TV : exists wl f, bdf_sample (SpecularTransmission (spec 1) 1 (4/3)) (mkV 0 0 1) 0 0 = Ok (1, Some (wl, f))).
  { destruct (transmit_value (spec 1) 1 (4/3) (mkV 0 0 1) 0 0) as (wl & f & S0 & _).
    - lra.
    - lra.
    - exact UZ.
    - cbn [vz]. lra.
    - cbn [vz]. set (k := used_ratio _ _ _). replace (k * k * (1 - 1 * 1)) with 0 by ring. lra.
    - exists wl, f. exact S0. }
  destruct TV as (wl & f & S0).
  assert (S2 : bsdf_sample b (mkV 0 0 1) 0 0 0 (Z.lor TRANSMISSION SPECULAR) = Ok (mkSmp 1 (Some (l2w b wl)) (Some (bdf_type (SpecularTransmission (spec 1) 1 (4/3)))) f)).
  { unfold bsdf_sample. change (n_components b (Z.lor TRANSMISSION SPECULAR)) with 1%nat. cbn [Nat.eqb].
    assert (PI0 : pick_index 0 1 = 0%Z) by (apply (pick_index_at 0 1 0); [lra|lia|cbn; lra|right; reflexivity]). rewrite PI0.
    replace (pick (bs_bdfs b) (Z.lor TRANSMISSION SPECULAR) 0) with (Some (SpecularTransmission (spec 1) 1 (4/3))) by reflexivity.
    rewrite WL, S0. cbn [bind]. destruct (Reqb 1 0) eqn:Q; [exfalso; apply Reqb_true in Q; lra|]. cbn [Nat.ltb Nat.leb]. reflexivity. }
  exists (mkSmp 1 (Some (l2w b wl)) (Some (bdf_type (SpecularTransmission (spec 1) 1 (4/3)))) f), (l2w b wl).
  split; [exact E1|]. split; [exact E2|]. split; [exact S2|reflexivity].
Qed.
(** The hypotheses of [C296_glass_partial] are met: the pane shows 113/6272 of a bright direction straight above. *)
Lemma pane_shows (t : vec) : let d := mkV 0 0 (-1) in let n := mkV 0 0 1 in let u := fun _ : nat => 0 in let r := ray_at vzero d 0 in
  exists b, get_bsdf (Glass (fun _ => spec 1) (fun _ => spec 1) (fun _ => 4/3) None) false patch patch = Ok b /\ world_axes b /\
    let e := ex_mirror b n t in
    exists i k c, renderer_li e u 5 0 (whitted_local e u) 2 r tt 0 =
      Some (Ok (if is_vec n t then spec (113/6272) else spec 0, spec 0, i, k, c)).
Proof.
  intros d n u r. pose proof pane as PN. cbv zeta in PN. destruct PN as (GB & AX & F0 & smp & wi & smp2 & wi2 & S1 & W1 & S2 & W2).
  set (b := push_back (push_back _ _) _) in GB, AX, F0, S1, S2. clearbody b. exists b. split; [exact GB|]. split; [exact AX|]. intros e.
  assert (VD : vneg d = mkV 0 0 1) by (unfold vneg, vmap, d; cbn [vx vy vz]; apply V3_eq; cbn [vx vy vz]; ring).
  destruct (glass_run b n t vzero d smp wi smp2 wi2 F0) as (L & i' & k' & c & E1); try (rewrite VD; assumption); try assumption.
  exists i', k', c. fold e u r in E1.
  assert (NN : dg_nn (at_hit false patch) = n) by (rewrite patch_hit; reflexivity).
  assert (FV : vx (fresnel_call (FrDiel 1 (4/3)) (vdot (vneg (rdir r)) (dg_nn (at_hit false patch)))) = 113/6272).
  { rewrite NN. change (rdir r) with d. rewrite VD. replace (vdot (mkV 0 0 1) n) with 1 by (unfold vdot, n; cbn; ring). cbn [fresnel_call]. unfold spec; cbn [vx]. exact fr_straight. }
  assert (PS : positive_part (spec 1) = spec 1) by (apply pos_spec; lra).
  destruct (C296_glass_partial _ e u 5 0 2 r tt 0 L (spec 0) i' k' c r tt vzero b (fun _ => spec 1) (fun _ => spec 1) (fun _ => 4/3) false patch patch) as (_ & f & r2 & k2 & L2 & T2 & i2 & k3 & n2 & A & B & C);
    try reflexivity; try assumption.
  - intros j; unfold u, in_unit; lra.
  - exact patch_regular.
  - rewrite NN. reflexivity.
  - lra.
  - unfold unit, r, d; cbn; ring.
  - rewrite NN. unfold vdot, r, d, n; cbn; lra.
  - cbv beta. rewrite FV, PS. unfold nearly_black, vscale, vmap, spec, EPS; cbn [vx vy vz]. lra.
  - cbv beta in C. rewrite FV, PS in C. destruct A as (_ & HD & _ & _ & HT & HDp). destruct f as [|f]; [discriminate|]. unfold e, u in B. rewrite sky_sees in B.
    + assert (Q : rdir r2 = n).
      { unfold rdir. rewrite HD, NN. unfold r, ray_at, d, n, vdot, vsub, vscale, vmap2, vmap; cbn. apply V3_eq; cbn [vx vy vz]; ring. }
      rewrite Q in B. injection B as <- _ _ _ _. rewrite E1. repeat f_equal. rewrite C. unfold e; cbn [ex_mirror v_le].
      destruct (is_vec n t); unfold vadd, tinted, vscale, vmap, spec, vmap2; cbn [vx vy vz]; apply V3_eq; cbn [vx vy vz]; field.
    + rewrite HDp. unfold r, ray_at; cbn. lia.
    + unfold rtm. rewrite HT. reflexivity.
Qed.
Example C296_ex : exists b, world_axes b /\ get_bsdf (Glass (fun _ => spec 1) (fun _ => spec 1) (fun _ => 4/3) None) false patch patch = Ok b /\
  let e := ex_mirror b (mkV 0 0 1) (mkV 0 0 1) in
  exists i k c, renderer_li e (fun _ => 0) 5 0 (whitted_local e (fun _ => 0)) 2 (ray_at vzero (mkV 0 0 (-1)) 0) tt 0 = Some (Ok (spec (113/6272), spec 0, i, k, c)).
Proof.
  destruct (pane_shows (mkV 0 0 1)) as (b & GB & AX & H). exists b. split; [exact AX|]. split; [exact GB|].
  replace (is_vec (mkV 0 0 1) (mkV 0 0 1)) with true in H; [exact H|].
  unfold is_vec; cbn [vx vy vz]. rewrite !(proj2 (Reqb_true _ _) eq_refl). reflexivity.
Qed.
(** What is behind the glass is not seen: the pane looks black in front of a white direction straight behind it. *)
Theorem C296_behind_refuted : exists b, world_axes b /\
  get_bsdf (Glass (fun _ => spec 1) (fun _ => spec 1) (fun _ => 4/3) None) false patch patch = Ok b /\
  let e := ex_mirror b (mkV 0 0 1) (mkV 0 0 (-1)) in let u := fun _ : nat => 0 in let r := ray_at vzero (mkV 0 0 (-1)) 0 in
  (exists i k c, renderer_li e u 5 0 (whitted_local e u) 2 r tt 0 = Some (Ok (spec 0, spec 0, i, k, c))) /\
  (forall r2 i k, rd (rd_ray r2) = rd (rd_ray r) -> rdepth (rd_ray r2) = 1%Z -> rtime (rd_ray r2) = 0 ->
    renderer_li e u 5 0 (whitted_local e u) 1 r2 i k = Some (Ok (spec 1, spec 0, i, k, 0%nat))).
Proof.
  destruct (pane_shows (mkV 0 0 (-1))) as (b & GB & AX & H). exists b. split; [exact AX|]. split; [exact GB|]. intros e u r. split.
  - replace (is_vec (mkV 0 0 1) (mkV 0 0 (-1))) with false in H; [exact H|].
    symmetry. unfold is_vec; cbn [vx vy vz]. rewrite (proj2 (Reqb_false 1 (-1))) by lra. apply andb_false_r.
  - intros r2 i k HD HDp HT. unfold e, u. rewrite sky_sees.
    + unfold rdir. rewrite HD. unfold r, ray_at; cbn [rd_ray rd]. unfold is_vec; cbn [vx vy vz]. rewrite !(proj2 (Reqb_true _ _) eq_refl). reflexivity.
    + rewrite HDp. lia.
    + exact HT.
Qed.
Print Assumptions C296_behind_refuted.
