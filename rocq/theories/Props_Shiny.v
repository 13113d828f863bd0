(** Property theorems C300: direct lighting shows mirrors and glass in the same way, whatever the lights.  Vocabulary: S_Mirror.v, S_Material.v, S_Reflection.v. *)
From Coq Require Import Reals Lra Lia List ZArith Bool.
From Verif Require Import Base M_MonteCarlo M_Aggregate M_Utility M_Spectrum M_Sampler M_Film.
From Verif Require Import M_Geometry S_Geometry P_Geometry M_Transform M_Shapes M_BVH M_Reflection S_Reflection M_Light M_Primitive
  P_Reflection P_Reflection3 P_Fresnel M_Material S_Material P_Material P_Material2 P_Material3 P_Material4 P_Material6 M_Integrator S_Integrator P_Integrator P_Integrator2 M_World S_Superpose S_Mirror
  Props_Material Props_Amplify Props_Mirror Props_Glass.
Import ListNotations.
Open Scope R_scope.

(** one step of a recursive integrator at a surface that only reflects specularly, into one direction, with weight [K], and at which its local
    term is zero *)
Lemma shiny_any (V : Type) (e : env V) (u : nat -> R) (loc : V -> raydiff -> vec -> vec -> vec -> bsdf -> nat -> res (vec * nat)) (md : Z) (time : R) (fuel : nat) (r : raydiff) (i : V) (k : nat) L T i' k' n
    (r1 : raydiff) (v : V) (p nn : vec) (b : bsdf) (K : vec) :
  vol e = None -> steady_stream u -> hit e r = (r1, Some v) -> v_bsdf e v r1 = Ok (p, b) -> b_dgs_nn e v r1 = nn -> unit nn ->
  (forall k0 Ld k1, loc v r1 p nn (vneg (rdir r1)) b k0 = Ok (Ld, k1) -> Ld = spec 0) ->
  (forall u0 u1 uc, 0 <= uc < 1 -> exists smp wi, bsdf_sample b (vneg (rdir r1)) u0 u1 uc (Z.lor REFLECTION SPECULAR) = Ok smp /\ sm_pdf smp = 1 /\
     sm_wi smp = Some wi /\ wi = vsub (vscale (2 * vdot (vneg (rdir r1)) nn) nn) (vneg (rdir r1)) /\
     vscale (Rabs (vdot (vneg (rdir r1)) nn)) (sm_f smp) = K) ->
  unit (rdir r1) -> vdot (rdir r1) nn <> 0 -> ~ nearly_black K -> 0 <= vx K /\ 0 <= vy K /\ 0 <= vz K ->
  (rdepth (rd_ray r1) + 1 < md)%Z ->
  renderer_li e u md time loc fuel r i k = Some (Ok (L, T, i', k', n)) ->
  exists fuel' r2 k2 L2 T2 i2 k3 n2,
    thrown_back (rd_ray r1) p nn (v_eps e v) (rd_ray r2) /\
    renderer_li e u md time loc fuel' r2 v k2 = Some (Ok (L2, T2, i2, k3, n2)) /\
    L = vadd (v_le e v (vneg (rdir r1))) (tinted K L2).
Proof.
  intros NV ST HH HB HN N1 F0 MS U1 NZ NB PP DP H.
  destruct fuel as [|fuel]; cbn [renderer_li] in H; [discriminate|].
  destruct (negb _); [discriminate|]. rewrite HH in H. unfold surf_li in H at 1. rewrite HB in H. cbv zeta in H.
  destruct (loc v r1 p (b_dgs_nn e v r1) (vneg (rdir r1)) b k) as [[Ld k1]|x] eqn:HL; [|discriminate].
  rewrite HN in HL. apply F0 in HL. subst Ld.
  rewrite (proj2 (Z.ltb_lt _ _) DP) in H.
  destruct (specular e u (renderer_li e u md time loc fuel) false r1 b p (b_dgs_nn e v r1) v k1) as [[[[[Lr i1] k2] c2]|x]|] eqn:SR; try discriminate.
  cbn [obind] in H.
  destruct (specular e u (renderer_li e u md time loc fuel) true r1 b p (b_dgs_nn e v r1) i1 k2) as [[[[[Lt i3] k3] c3]|x]|] eqn:STr; try discriminate.
  apply transmit_black in STr; [|exact NV]. subst Lt. cbn [obind] in H. rewrite NV in H. injection H as HL _ _ _ _.
  unfold specular in SR. unfold smp_from_rand in SR.
  change (Z.lor (if false then TRANSMISSION else REFLECTION) SPECULAR) with (Z.lor REFLECTION SPECULAR) in SR.
  assert (NW : vdot (vneg (rdir r1)) nn <> 0). { intros Q. apply NZ. unfold vdot, vneg, vmap in *; cbn [vx vy vz] in *; lra. }
  assert (UW : unit (vneg (rdir r1))) by (unfold unit, vneg, vmap in *; cbn [vx vy vz] in *; lra).
  destruct (MS (u k1) (u (S k1)) (u (S (S k1))) (ST _)) as (smp & wi & E1 & E2 & E4 & E6 & E5).
  rewrite E1, E2, E4 in SR.
  assert (C1 : Rabs (vdot (vneg (rdir r1)) nn) <= 1). { clear - UW N1. set (w := vneg (rdir r1)) in *. clearbody w. unfold unit, vdot in *. apply Rabs_le.
    pose proof (Rle_0_sqr (vx w - vx nn)). pose proof (Rle_0_sqr (vy w - vy nn)). pose proof (Rle_0_sqr (vz w - vz nn)).
    pose proof (Rle_0_sqr (vx w + vx nn)). pose proof (Rle_0_sqr (vy w + vy nn)). pose proof (Rle_0_sqr (vz w + vz nn)). unfold Rsqr in *. split; lra. }
  rewrite (dull _ _ _ E5 C1 NB PP) in SR. rewrite (proj2 (Rltb_true 0 1)) in SR by lra. cbn [andb negb] in SR.
  assert (WN : vdot wi nn = vdot (vneg (rdir r1)) nn).
  { rewrite E6. unfold unit in N1. set (w := vneg (rdir r1)). clearbody w. unfold vdot, vsub, vscale, vmap2, vmap in *; cbn [vx vy vz] in *.
    match goal with |- ?l = ?rr => replace l with (2 * (vx w * vx nn + vy w * vy nn + vz w * vz nn) * (vx nn * vx nn + vy nn * vy nn + vz nn * vz nn) - (vx w * vx nn + vy w * vy nn + vz w * vz nn)) by ring end. rewrite N1. ring. }
  assert (AD : abs_dot wi nn = Rabs (vdot (vneg (rdir r1)) nn)) by (unfold abs_dot; rewrite <- WN; reflexivity).
  rewrite HN, AD in SR. assert (RZ : Reqb (Rabs (vdot (vneg (rdir r1)) nn)) 0 = false).
  { unfold Reqb. destruct (Req_EM_T _ 0) as [Q|]; [|reflexivity]. exfalso. apply (Rabs_no_R0 _ NW Q). }
  rewrite RZ in SR.
  match goal with |- _ => set (r2 := if rd_has r1 then _ else _) in SR end.
  assert (R2 : rd_ray r2 = rd_ray (child_ray p wi r1 (v_eps e v))).
  { unfold r2. destruct (rd_has r1); [|reflexivity]. destruct (diffs _ _ _ _ _ _) as [[[[? ?] ?] ?] ?]. reflexivity. }
  clearbody r2. destruct (renderer_li e u md time loc fuel r2 v _) as [[[[[[L2 T2] i2] k4] n2]|x]|] eqn:REC; try discriminate.
  cbn [obind] in SR. injection SR as HR _ _ _.
  exists fuel, r2, (S (S (S k1))), L2, T2, i2, k4, n2. split; [|split; [exact REC|]].
  - clear - R2 E6. rewrite R2. unfold thrown_back, child_ray, ray_from_parent; cbn. split; [reflexivity|]. split; [|repeat split; reflexivity].
    rewrite E6. unfold rdir. unfold vsub, vscale, vneg, vdot, vmap2, vmap; cbn [vx vy vz]. apply V3_eq; cbn [vx vy vz]. all: ring.
  - rewrite <- HL, <- HR, <- E5. unfold tinted, sdiv, vscale, smul, vadd, spec, vmap2, vmap; cbn [vx vy vz]. apply V3_eq; cbn [vx vy vz]; field.
Qed.

(** ** The local term of direct lighting at a surface without other lobes *)
Lemma black0 : is_black (spec 0) = true.
Proof. unfold is_black, spec; cbn [vx vy vz]. rewrite Rabs_R0, (proj2 (Rltb_true 0 EPS)) by (unfold EPS; lra). reflexivity. Qed.
Lemma add0 x : vadd x (spec 0) = x.
Proof. unfold vadd, spec, vmap2; cbn [vx vy vz]. apply V3_eq; cbn [vx vy vz]; ring. Qed.
Section Dark.
Context (V : Type) (e : env V) (u : nat -> R) (b : bsdf).
Hypothesis F0 : forall wo wi fl, bsdf_f b wo wi fl = Ok (spec 0).
Hypothesis S0 : forall wo u0 u1 uc, bsdf_sample b wo u0 u1 uc NOSPEC = Ok (mkSmp 0 None None (spec 0)).
Lemma estimate_dark l p n wo eps time ls bs k x k' : estimate_direct e l p n wo eps time b ls bs NOSPEC k = Ok (x, k') -> x = spec 0.
Proof.
  unfold estimate_direct, direct_light_half. destruct (lt_sample l p eps ls time) as [[[[Li wi] lpdf] vis]|]; cbn [bind]; [|discriminate].
  rewrite F0. cbn [bind]. rewrite black0. cbn [negb andb].
  assert (G : forall k1, direct_bsdf_half l p wo b bs NOSPEC (spec 0) = Ok (spec 0) -> (do Ld' <- direct_bsdf_half l p wo b bs NOSPEC (spec 0); Ok (Ld', k1)) = Ok (x, k') -> x = spec 0).
  { intros k1 ->. cbn [bind]. now intros [= <- _]. }
  assert (D : direct_bsdf_half l p wo b bs NOSPEC (spec 0) = Ok (spec 0)).
  { unfold direct_bsdf_half. destruct (lt_delta l); [reflexivity|]. destruct bs as [[u0 u1] uc]. rewrite S0. cbn [bind sm_f sm_pdf]. rewrite black0. reflexivity. }
  destruct (_ && _)%bool; cbn [bind]; apply G, D.
Qed.
Lemma all_samples_dark l offs p n wo eps time js : forall Ld k x k', all_samples e u l offs p n wo eps time b js Ld k = Ok (x, k') -> x = Ld.
Proof.
  induction js as [|j js IH]; intros Ld k x k'; cbn [all_samples]; [now intros [= <- _]|].
  match goal with |- bind ?m _ = _ -> _ => destruct m as [[[a c] k1]|]; cbn [bind]; [|discriminate] end.
  destruct (estimate_direct e l p n wo eps time b a c NOSPEC k1) as [[y k2]|] eqn:ED; cbn [bind]; [|discriminate].
  apply estimate_dark in ED. subst y. rewrite add0. apply IH.
Qed.
Lemma all_lights_dark s lo bo p n wo eps time ls : Forall (fun o => (0 < of_n o)%nat) lo ->
  forall i L k x k', all_lights e u ls i (Some (s, lo, bo)) p n wo eps time b L k = Ok (x, k') -> x = L.
Proof.
  intros LO. induction ls as [|l ls IH]; intros i L k x k'; cbn [all_lights]; [now intros [= <- _]|].
  unfold idx at 1. destruct (nth_error lo i) as [a|] eqn:NA; cbn [bind]; [|discriminate]. unfold idx at 1. destruct (nth_error bo i) as [c|]; cbn [bind]; [|discriminate].
  destruct (all_samples _ _ _ _ _ _ _ _ _ _ _ _ _) as [[Ld k1]|] eqn:AS; cbn [bind]; [|discriminate].
  apply all_samples_dark in AS. subst Ld.
  assert (N0 : (0 < of_n a)%nat) by (rewrite Forall_forall in LO; apply LO; eapply nth_error_In; exact NA).
  replace (vadd L (sdiv (spec 0) (INR (of_n a)))) with L; [apply IH|].
  apply lt_INR in N0. cbn [INR] in N0. unfold sdiv, vadd, vscale, spec, vmap2, vmap; cbn [vx vy vz]. apply V3_eq; cbn [vx vy vz]; field; lra.
Qed.
Lemma direct_dark s lo bo v r p n wo k x k' : Forall (fun o => (0 < of_n o)%nat) lo -> direct_all_local e u s lo bo v r p n wo b k = Ok (x, k') -> x = spec 0.
Proof.
  intros LO. unfold direct_all_local. destruct (0 <? length (lights e))%nat; [|now intros [= <- _]]. unfold uniform_sample_all_lights. now apply all_lights_dark.
Qed.
End Dark.
Lemma vzero_spec : vzero = spec 0. Proof. reflexivity. Qed.

(** ** Statements *)
(** DirectLightingIntegrator (strategy SAMPLE_ALL_UNIFORM, at least one sample for each light), any lights: delta lights, area lights, environment lights.
    Where a ray that may go one level deeper meets a mirror, it returns the mirror's own emission plus Kr times what it returns for the ray thrown back. *)
Theorem C300_mirror_partial (V : Type) (e : env V) (u : nat -> R) (smp : sample) (lo bo : list offset) (md : Z) (time : R) (fuel : nat) (r : raydiff) (i : V) (k : nat) L T i' k' n
    (r1 : raydiff) (v : V) (p : vec) (b : bsdf) (kr : stex) (flip : bool) (g s : dgeom) :
  let local := direct_all_local e u smp lo bo in
  Forall (fun o => (0 < of_n o)%nat) lo ->
  vol e = None -> steady_stream u ->
  hit e r = (r1, Some v) -> v_bsdf e v r1 = Ok (p, b) -> get_bsdf (Mirror kr None) flip g s = Ok b ->
  regular s -> b_dgs_nn e v r1 = dg_nn (at_hit flip s) -> world_axes b ->
  unit (rdir r1) -> vdot (rdir r1) (dg_nn (at_hit flip s)) <> 0 -> ~ nearly_black (positive_part (kr (at_hit flip s))) ->
  (rdepth (rd_ray r1) + 1 < md)%Z ->
  renderer_li e u md time local fuel r i k = Some (Ok (L, T, i', k', n)) ->
  exists fuel' r2 k2 L2 T2 i2 k3 n2,
    thrown_back (rd_ray r1) p (dg_nn (at_hit flip s)) (v_eps e v) (rd_ray r2) /\
    renderer_li e u md time local fuel' r2 v k2 = Some (Ok (L2, T2, i2, k3, n2)) /\
    L = vadd (v_le e v (vneg (rdir r1))) (tinted (positive_part (kr (at_hit flip s))) L2).
Proof.
  intros local LO NV ST HH HB HM RG HN AX U1 NZ NB DP H. set (q := at_hit flip s) in *. set (nn := dg_nn q) in *.
  destruct (mirror_spec kr flip g s RG) as (b' & GB & F0 & _ & MS). rewrite HM in GB. injection GB as <-. fold q nn in MS.
  assert (UW : unit (vneg (rdir r1))) by (unfold unit, vneg, vmap in *; cbn [vx vy vz] in *; lra).
  assert (NW : vdot (vneg (rdir r1)) nn <> 0). { intros Q. apply NZ. unfold vdot, vneg, vmap in *; cbn [vx vy vz] in *; lra. }
  assert (N1 : unit nn). { destruct AX as (_ & _ & (z & Hz & SZ)). assert (B : bs_nn b = nn). { destruct (mirror_lobes _ _ _ _ _ HM) as [-> | (rr & ->)]; reflexivity. }
    rewrite B in SZ. unfold unit. rewrite SZ. cbn [vx vy vz]. destruct Hz as [-> | ->]; ring. }
  apply (shiny_any V e u local md time fuel r i k L T i' k' n r1 v p nn b); try assumption.
  - intros k0 Ld k1. apply direct_dark; [exact F0| |exact LO].
    intros wo u0 u1 uc. destruct (mirror_lobes _ _ _ _ _ HM) as [-> | (rr & ->)]; reflexivity.
  - intros u0 u1 uc UC. destruct (MS NB _ u0 u1 uc UW NW (proj1 UC)) as (sm & wi & E1 & E2 & _ & E4 & E5 & E6).
    exists sm, wi. rewrite (mirror_same_flags _ _ _ _ _ _ _ _ _ HM). split; [exact E1|]. split; [exact E2|]. split; [exact E4|]. split; [exact (E6 AX)|exact E5].
  - unfold positive_part; cbn [vx vy vz]. repeat split; apply Rmax_l || apply Rmax_r.
Qed.
Print Assumptions C300_mirror_partial.
(** ... and where it meets glass, the glass's own emission plus F Kr times what it returns for the ray thrown back. *)
Theorem C300_glass_partial (V : Type) (e : env V) (u : nat -> R) (smp : sample) (lo bo : list offset) (md : Z) (time : R) (fuel : nat) (r : raydiff) (i : V) (k : nat) L T i' k' n
    (r1 : raydiff) (v : V) (p : vec) (b : bsdf) (kr kt : stex) (ix : ftex) (flip : bool) (g s : dgeom) :
  let local := direct_all_local e u smp lo bo in
  let q := at_hit flip s in let nn := dg_nn q in let F := vx (fresnel_call (FrDiel 1 (ix q)) (vdot (vneg (rdir r1)) nn)) in
  Forall (fun o => (0 < of_n o)%nat) lo ->
  vol e = None -> steady_stream u ->
  hit e r = (r1, Some v) -> v_bsdf e v r1 = Ok (p, b) -> get_bsdf (Glass kr kt ix None) flip g s = Ok b ->
  regular s -> b_dgs_nn e v r1 = nn -> world_axes b -> 1/3 <= ix q <= 3 ->
  unit (rdir r1) -> vdot (rdir r1) nn <> 0 -> ~ nearly_black (vscale F (positive_part (kr q))) ->
  (rdepth (rd_ray r1) + 1 < md)%Z ->
  renderer_li e u md time local fuel r i k = Some (Ok (L, T, i', k', n)) ->
  0 <= F <= 1 /\
  exists fuel' r2 k2 L2 T2 i2 k3 n2,
    thrown_back (rd_ray r1) p nn (v_eps e v) (rd_ray r2) /\
    renderer_li e u md time local fuel' r2 v k2 = Some (Ok (L2, T2, i2, k3, n2)) /\
    L = vadd (v_le e v (vneg (rdir r1))) (tinted (vscale F (positive_part (kr q))) L2).
Proof.
  intros local q nn F LO NV ST HH HB HM RG HN AX IX U1 NZ NB DP H.
  assert (F01 : 0 <= F <= 1). { unfold F. cbn [fresnel_call]. pose proof (fr_diel_call_range 1 (ix q) (vdot (vneg (rdir r1)) nn) ltac:(lra) ltac:(lra) ltac:(lra) ltac:(lra)). unfold spec; cbn [vx]. lra. }
  split; [exact F01|].
  assert (PP : 0 <= vx (positive_part (kr q)) /\ 0 <= vy (positive_part (kr q)) /\ 0 <= vz (positive_part (kr q))).
  { unfold positive_part; cbn [vx vy vz]. repeat split; apply Rmax_l || apply Rmax_r. }
  assert (NB2 : ~ nearly_black (positive_part (kr q))).
  { intros Q. apply NB. unfold nearly_black, vscale, vmap in *; cbn [vx vy vz] in *. assert (X : forall x, 0 <= x -> x < EPS -> F * x < EPS) by (intros x X0 X1; apply Rle_lt_trans with (1 * x); [apply Rmult_le_compat_r; lra|lra]).
    destruct Q as (Q1 & Q2 & Q3), PP as (P1 & P2 & P3). repeat split; now apply X. }
  assert (UW : unit (vneg (rdir r1))) by (unfold unit, vneg, vmap in *; cbn [vx vy vz] in *; lra).
  assert (NW : vdot (vneg (rdir r1)) nn <> 0). { intros Q. apply NZ. unfold vdot, vneg, vmap in *; cbn [vx vy vz] in *; lra. }
  assert (BN : bs_nn b = nn) by (destruct (glass_lobes _ _ _ _ _ _ _ HM NB2) as [-> | ->]; reflexivity).
  assert (N1 : unit nn). { destruct AX as (_ & _ & (z & Hz & SZ)). rewrite BN in SZ. unfold unit. rewrite SZ. cbn [vx vy vz]. destruct Hz as [-> | ->]; ring. }
  apply (shiny_any V e u local md time fuel r i k L T i' k' n r1 v p nn b (vscale F (positive_part (kr q)))); try assumption.
  - intros k0 Ld k1. apply direct_dark; [| |exact LO].
    + intros wo wi fl. apply specular_f0. destruct (glass_lobes _ _ _ _ _ _ _ HM NB2) as [-> | ->]; cbn; repeat constructor.
    + intros wo u0 u1 uc. destruct (glass_lobes _ _ _ _ _ _ _ HM NB2) as [-> | ->]; reflexivity.
  - exact (glass_reflects kr kt ix flip g s b (vneg (rdir r1)) HM RG NB2 AX UW NW).
  - unfold vscale, vmap; cbn [vx vy vz]. destruct PP as (P1 & P2 & P3). repeat split; apply Rmult_le_pos; lra.
Qed.
Print Assumptions C300_glass_partial.

(** ** The scene of [C295_ex], rendered with direct lighting *)
Lemma sky_sees_any loc b n t r i k fuel : (rdepth (rd_ray r) <> 0)%Z -> rtm r = 0 ->
  renderer_li (ex_mirror b n t) (fun _ => 0) 5 0 loc (Datatypes.S fuel) r i k =
  Some (Ok (if is_vec (rdir r) t then spec 1 else spec 0, spec 0, i, k, 0%nat)).
Proof.
  intros D T0. cbn [renderer_li]. rewrite T0. replace (Reqb 0 0) with true by (symmetry; apply Reqb_true; reflexivity). cbn [negb ex_mirror hit].
  rewrite (proj2 (Z.eqb_neq _ _) D). cbn [obind]. unfold sum_le, ex_mirror. cbn [lights fold_left sky lt_le vol].
  assert (A : forall x, vadd (spec 0) (smul (spec 1) x) = x).
  { intros x. unfold vadd, smul, spec, vmap2; cbn [vx vy vz]. apply V3_eq; cbn [vx vy vz]; ring. }
  rewrite A. reflexivity.
Qed.
Lemma mirror_run_any loc b n t o d smp wi : (forall v r p nn wo k, exists k', loc v r p nn wo b k = Ok (spec 0, k')) ->
  bsdf_sample b (vneg d) 0 0 0 (Z.lor REFLECTION SPECULAR) = Ok smp -> sm_wi smp = Some wi ->
  bsdf_sample b (vneg d) 0 0 0 (Z.lor TRANSMISSION SPECULAR) = Ok (mkSmp 0 None None (spec 0)) ->
  exists L i' k' c, renderer_li (ex_mirror b n t) (fun _ => 0) 5 0 loc 2 (ray_at o d 0) tt 0 = Some (Ok (L, spec 0, i', k', c)) /\
    (is_vec wi t = false -> L = spec 0).
Proof.
  intros F0 S1 W S2. set (rl := renderer_li (ex_mirror b n t) (fun _ => 0) 5 0 loc 1).
  assert (RL : forall r i k, (rdepth (rd_ray r) <> 0)%Z -> rtm r = 0 -> rl r i k = Some (Ok (if is_vec (rdir r) t then spec 1 else spec 0, spec 0, i, k, 0%nat))).
  { intros. now apply sky_sees_any. }
  change (renderer_li (ex_mirror b n t) (fun _ => 0) 5 0 loc 2 (ray_at o d 0) tt 0) with
    (if negb (Reqb 0 0) then Some (Err AssertionError : res (rout (V := Datatypes.unit))) else
     obind (surf_li (ex_mirror b n t) (fun _ => 0) 5 loc rl (ray_at o d 0) tt 0) (fun '(L, isect', k1, c) => Some (Ok (L, spec 0, isect', k1, c)))).
  assert (TR : forall i k, specular (ex_mirror b n t) (fun _ => 0) rl true (ray_at o d 0) b vzero n i k = Some (Ok (spec 0, i, (k + 3)%nat, 0%nat))).
  { intros i k. unfold specular, smp_from_rand. change (Z.lor (if true then TRANSMISSION else REFLECTION) SPECULAR) with (Z.lor TRANSMISSION SPECULAR).
    change (rdir (ray_at o d 0)) with d. rewrite S2. cbn [sm_pdf sm_f]. rewrite (proj2 (Rltb_false 0 0)) by lra. cbn [andb].
    replace (k + 3)%nat with (Datatypes.S (Datatypes.S (Datatypes.S k))) by lia. reflexivity. }
  assert (RE : forall i k, exists L i' k' c, specular (ex_mirror b n t) (fun _ => 0) rl false (ray_at o d 0) b vzero n i k = Some (Ok (L, i', k', c)) /\
    (is_vec wi t = false -> L = spec 0)).
  { intros i k. unfold specular, smp_from_rand. change (Z.lor (if false then TRANSMISSION else REFLECTION) SPECULAR) with (Z.lor REFLECTION SPECULAR).
    change (rdir (ray_at o d 0)) with d. rewrite S1, W. destruct (_ && _)%bool; [|do 4 eexists; split; reflexivity].
    destruct (Reqb (abs_dot wi n) 0); [do 4 eexists; split; reflexivity|].
    cbn [rd_has ray_at]. rewrite RL by (try reflexivity; cbn; lia). cbn [obind]. do 4 eexists. split; [reflexivity|]. intros NV.
    change (rdir (child_ray vzero wi _ _)) with wi. rewrite NV. unfold sdiv, vscale, smul, spec, vmap2, vmap; cbn [vx vy vz].
    apply V3_eq; cbn [vx vy vz]; unfold Rdiv; ring. }
  clearbody rl. replace (Reqb 0 0) with true by (symmetry; apply Reqb_true; reflexivity). cbn [negb].
  unfold surf_li. cbn [ex_mirror v_bsdf b_dgs_nn v_le].
  destruct (F0 tt (ray_at o d 0) vzero n (vneg (rdir (ray_at o d 0))) 0%nat) as (k0 & L0).
  assert (A : forall x, vadd (vadd (vadd (spec 0) (spec 0)) x) (spec 0) = x).
  { intros x. unfold vadd, spec, vmap2; cbn [vx vy vz]. apply V3_eq; cbn [vx vy vz]; ring. }
  destruct (RE tt k0) as (L & i' & k' & c & E1 & E2). exists L, i', (k' + 3)%nat, (Datatypes.S (c + 0)).
  fold (ex_mirror b n t). rewrite L0. replace (rdepth (rd_ray (ray_at o d 0)) + 1 <? 5)%Z with true by reflexivity.
  rewrite E1. cbn [obind]. rewrite TR. cbn [obind]. rewrite A. split; [reflexivity|exact E2].
Qed.
(** one sample for the one light *)
Definition one_sample : sample := mkS 0 0 0 0 0 [1%nat; 1%nat] [1%nat; 1%nat] [[0]; [0]] [[(0, 0)]; [(0, 0)]].
Lemma sky_direct b n t v r p nn wo k : direct_all_local (ex_mirror b n t) (fun _ => 0) one_sample [mkOff 1 0 0] [mkOff 1 1 1] v r p nn wo b k = Ok (spec 0, k).
Proof.
  unfold direct_all_local, uniform_sample_all_lights. cbn [ex_mirror lights length Nat.ltb Nat.leb all_lights idx nth_error bind of_n seq all_samples smp_from_sample twoD oneD of_dir of_com one_sample fst snd].
  unfold estimate_direct, direct_light_half, direct_bsdf_half. cbn [sky lt_sample lt_delta bind]. rewrite black0. rewrite andb_false_r. cbn [bind].
  change (0 <? 1)%nat with true. cbv iota. f_equal. f_equal. unfold vadd, sdiv, vscale, spec, vmap2, vmap; cbn [vx vy vz INR]. apply V3_eq; cbn [vx vy vz]; field.
Qed.
(** An upright mirror (normal +x) in front of a black world with one bright direction: the mirror is as black for direct lighting as it is for Whitted's. *)
Theorem C300_direction_refuted :
  let d := mkV (-3/5) (-4/5) 0 in let n := mkV 1 0 0 in let u := fun _ : nat => 0 in let r := ray_at vzero d 0 in
  exists b, regular wall /\ dg_nn (at_hit false wall) = n /\ get_bsdf (Mirror (fun _ => spec 1) None) false wall wall = Ok b /\
    let e := ex_mirror b n (mkV (3/5) (-4/5) 0) in let local := direct_all_local e u one_sample [mkOff 1 0 0] [mkOff 1 1 1] in
    (exists i k c, renderer_li e u 5 0 local 2 r tt 0 = Some (Ok (spec 0, spec 0, i, k, c))) /\
    (forall r2 i k, thrown_back (rd_ray r) vzero n (v_eps e tt) (rd_ray r2) ->
      renderer_li e u 5 0 local 1 r2 i k = Some (Ok (spec 1, spec 0, i, k, 0%nat))).
Proof.
  intros d n u r. destruct wall_mirror as (b & smp & wi & GB & S1 & W & NW). exists b. split; [exact wall_regular|]. split; [exact wall_hit|]. split; [exact GB|].
  intros e local. assert (UD : vneg d = mkV (3/5) (4/5) 0). { unfold d, vneg, vmap; cbn [vx vy vz]. apply V3_eq; cbn [vx vy vz]; field. }
  split.
  - destruct (mirror_run_any local b n (mkV (3/5) (-4/5) 0) vzero d smp wi) as (L & i' & k' & c & E1 & E2).
    + intros v r0 p nn wo k. exists k. apply sky_direct.
    + rewrite UD. rewrite (mirror_same_flags _ _ _ _ _ _ _ _ _ GB). exact S1.
    + exact W.
    + apply (mirror_no_trans _ _ _ _ _ _ _ _ _ GB).
    + rewrite E2 in E1.
      * exists i', k', c. exact E1.
      * apply not_true_iff_false. intros Q. apply NW. unfold is_vec in Q. apply andb_true_iff in Q. destruct Q as [Q Q3]. apply andb_true_iff in Q. destruct Q as [Q1 Q2].
        apply Reqb_true in Q1, Q2, Q3. destruct wi as [wx wy wz]. cbn [vx vy vz] in Q1, Q2, Q3. now subst.
  - intros r2 i k (_ & HD & _ & _ & HT & HDp). unfold e, u. rewrite sky_sees_any.
    + assert (Q : rdir r2 = mkV (3/5) (-4/5) 0).
      { unfold rdir. rewrite HD. unfold r, ray_at, d, n, vdot, vsub, vscale, vmap2, vmap; cbn. apply V3_eq; cbn [vx vy vz]; field. }
      rewrite Q. unfold is_vec; cbn [vx vy vz]. unfold Reqb. destruct (Req_EM_T (3/5) (3/5)); [|lra]. destruct (Req_EM_T (-4/5) (-4/5)); [|lra]. destruct (Req_EM_T 0 0); [|lra]. reflexivity.
    + rewrite HDp. unfold r, ray_at; cbn. lia.
    + unfold rtm. rewrite HT. reflexivity.
Qed.
Print Assumptions C300_direction_refuted.
(** A mirror on the floor, seen from above: the hypotheses of [C300_mirror_partial] are met and the mirror shows the bright direction. *)
Example C300_ex :
  let d := mkV (-4/5) 0 (-3/5) in let n := mkV 0 0 1 in let u := fun _ : nat => 0 in let r := ray_at vzero d 0 in
  exists b, get_bsdf (Mirror (fun _ => spec 1) None) false patch patch = Ok b /\ regular patch /\ world_axes b /\ steady_stream u /\
    let e := ex_mirror b n (mkV (-4/5) 0 (3/5)) in let lo := [mkOff 1 0 0] in
    Forall (fun o => (0 < of_n o)%nat) lo /\
    hit e r = (r, Some tt) /\ v_bsdf e tt r = Ok (vzero, b) /\ b_dgs_nn e tt r = dg_nn (at_hit false patch) /\ vol e = None /\
    unit (rdir r) /\ vdot (rdir r) (dg_nn (at_hit false patch)) <> 0 /\ ~ nearly_black (positive_part (spec 1)) /\ (rdepth (rd_ray r) + 1 < 5)%Z /\
    exists i k c, renderer_li e u 5 0 (direct_all_local e u one_sample lo [mkOff 1 1 1]) 2 r tt 0 = Some (Ok (spec 1, spec 0, i, k, c)).
Proof.
  intros d n u r. pose proof C287_ex as CE. cbv zeta in CE. destruct CE as (GB & AX & (smp & wi & S1 & _ & W)). set (b := push_back _ _) in GB, AX, S1. clearbody b. exists b.
  assert (ST : steady_stream u) by (intros j; unfold u, in_unit; lra).
  assert (NN : dg_nn (at_hit false patch) = n) by (rewrite patch_hit; reflexivity).
  assert (UD : unit d) by (unfold unit, d; cbn; field).
  assert (DN : vdot d n <> 0) by (unfold vdot, d, n; cbn; lra).
  split; [exact GB|]. split; [exact patch_regular|]. split; [exact AX|]. split; [exact ST|].
  intros e lo. assert (LO : Forall (fun o => (0 < of_n o)%nat) lo) by (unfold lo; constructor; [cbn; lia|constructor]).
  split; [exact LO|]. split; [reflexivity|]. split; [reflexivity|]. split; [rewrite NN; reflexivity|]. split; [reflexivity|]. split; [exact UD|].
  split; [rewrite NN; exact DN|]. split; [exact white_nb|]. split; [reflexivity|].
  destruct (mirror_run_any (direct_all_local e u one_sample lo [mkOff 1 1 1]) b n (mkV (-4/5) 0 (3/5)) vzero d smp wi) as (L & i' & k' & c & E1 & _).
  - intros v r0 p nn wo k. exists k. apply sky_direct.
  - replace (vneg d) with wo_w; [exact S1|]. unfold wo_w, d, vneg, vmap; cbn [vx vy vz]. apply V3_eq; cbn [vx vy vz]; field.
  - exact W.
  - apply (mirror_no_trans _ _ _ _ _ _ _ _ _ GB).
  - exists i', k', c. fold e in E1. fold u in E1. fold r in E1.
    destruct (C300_mirror_partial _ e u one_sample lo [mkOff 1 1 1] 5 0 2 r tt 0 L (spec 0) i' k' c r tt vzero b (fun _ => spec 1) false patch patch) as (f & r2 & k2 & L2 & T2 & i2 & k3 & n2 & A & B & C);
      try reflexivity; try assumption.
    + exact patch_regular.
    + rewrite NN. reflexivity.
    + rewrite NN. exact DN.
    + exact white_nb.
    + destruct A as (_ & HD & _ & _ & HT & HDp). destruct f as [|f]; [discriminate|]. unfold e, u in B. rewrite sky_sees_any in B.
      * assert (Q : rdir r2 = mkV (-4/5) 0 (3/5)).
        { unfold rdir. rewrite HD, NN. unfold r, ray_at, d, n, vdot, vsub, vscale, vmap2, vmap; cbn. apply V3_eq; cbn [vx vy vz]; field. }
        rewrite Q in B. replace (is_vec _ _) with true in B
          by (unfold is_vec; cbn [vx vy vz]; unfold Reqb; destruct (Req_EM_T (-4/5) (-4/5)); [|lra]; destruct (Req_EM_T (3/5) (3/5)); [|lra]; destruct (Req_EM_T 0 0); [|lra]; reflexivity).
        injection B as <- _ _ _ _. rewrite E1. repeat f_equal. rewrite C. unfold e; cbn [ex_mirror v_le].
        unfold vadd, tinted, positive_part, spec, vmap2; cbn [vx vy vz]. rewrite Rmax_right by lra. apply V3_eq; cbn [vx vy vz]; ring.
      * rewrite HDp. unfold r, ray_at; cbn. lia.
      * unfold rtm. rewrite HT. reflexivity.
Qed.
