(** C287: a mirror does not send back more light than arrives *)
From Coq Require Import Reals Lra Lia List ZArith Bool.
From Verif Require Import Base M_Geometry S_Geometry P_Geometry M_Transform M_MonteCarlo M_Film M_Shapes M_Reflection S_Reflection
  P_Reflection P_Reflection2 P_Reflection3 P_Reciprocity P_Fresnel M_Material S_Material P_Material P_Material2 P_Material3 P_Material4.
Import ListNotations.
Local Open Scope R_scope.

(** The weight with which the integrators multiply the radiance arriving from the sampled direction (|cos| f / pdf). *)
Definition carried (b : bsdf) (smp : bsdf_smp) (wi : vec) : vec :=
  let c := Rabs (vdot wi (bs_nn b)) in
  mkV (c * vx (sm_f smp) / sm_pdf smp) (c * vy (sm_f smp) / sm_pdf smp) (c * vz (sm_f smp) / sm_pdf smp).
Definition mirror_flags : Z := Z.lor REFLECTION SPECULAR.

Lemma mirror_cos b wo : world_axes b -> vdot (l2w b (mirror_dir (w2l b wo))) (bs_nn b) = vdot wo (bs_nn b).
Proof.
  intros ((e1 & E1 & S1) & (e2 & E2 & S2) & (e3 & E3 & S3)).
  unfold l2w, mirror_dir, w2l, vdot. rewrite S1, S2, S3. cbn [vx vy vz]. destruct E3 as [-> | ->]; ring.
Qed.
Lemma carried_lobe b smp wo r fr u0 u1 wi f : world_axes b -> spec_ge0 r -> 
  (spec_ge0 (fresnel_call fr (vdot wo (bs_nn b))) /\ spec_le (fresnel_call fr (vdot wo (bs_nn b))) (mkV 1 1 1)) ->
  bdf_sample (SpecularReflection r fr) (w2l b wo) u0 u1 = Ok (sm_pdf smp, Some (wi, f)) -> sm_f smp = f -> 
  let w := carried b smp (l2w b wi) in
  spec_ge0 w /\ spec_le w r /\ (fr = FrFull -> vdot wo (bs_nn b) <> 0 -> w = r).
Proof.
  intros AX R0 [F0 F1]. cbn [bdf_sample]. intros [= EP <- <-] EF. unfold carried. rewrite <- EP, EF. cbv zeta.
  rewrite mirror_cos by exact AX. set (c := vdot wo (bs_nn b)) in *.
  change (cos_theta (w2l b wo)) with c.
  assert (C2 : abs_cos_theta (mirror_dir (w2l b wo)) = Rabs c) by reflexivity. rewrite C2.
  assert (FU : fr = FrFull -> fresnel_call fr c = spec 1) by (intros ->; reflexivity).
  set (F := fresnel_call fr c) in *. clearbody F. destruct R0 as (A1 & A2 & A3), F0 as (B1 & B2 & B3), F1 as (D1 & D2 & D3). cbn [vx vy vz] in D1, D2, D3.
  unfold sdiv, smul, vmap, vmap2, spec_ge0, spec_le. cbn [vx vy vz].
  assert (K : forall x y, 0 <= x <= 1 -> 0 <= y -> 0 <= Rabs c * (x * y / Rabs c) / 1 <= y /\ (c <> 0 -> Rabs c * (x * y / Rabs c) / 1 = x * y)).
  { intros x y Hx Hy. destruct (Req_dec c 0) as [E0|NE].
    - rewrite E0, Rabs_R0. split; [|congruence]. unfold Rdiv. rewrite !Rmult_0_l. lra.
    - assert (Rabs c <> 0) by (now apply Rabs_no_R0). replace (Rabs c * (x * y / Rabs c) / 1) with (x * y) by (now field). split; [nra|reflexivity]. }
  destruct (K _ _ (conj B1 D1) A1) as [[X1 X2] X3], (K _ _ (conj B2 D2) A2) as [[Y1 Y2] Y3], (K _ _ (conj B3 D3) A3) as [[Z1 Z2] Z3].
  split; [lra|]. split; [lra|]. intros EFF NE. rewrite X3, Y3, Z3 by exact NE. rewrite (FU EFF). destruct r as [r1 r2 r3]. cbn [vx vy vz spec]. apply V3_eq; cbn; ring.
Qed.
Lemma only_mirror b flags (P : bdf -> Prop) : (forall x, In x (bs_bdfs b) -> match_flag x flags = true -> P x) -> (n_components b flags <= 1)%nat ->
  forall wo u0 u1 uc smp wi, bsdf_sample b wo u0 u1 uc flags = Ok smp -> 0 < sm_pdf smp -> sm_wi smp = Some wi ->
  exists x wl, P x /\ wi = l2w b wl /\ bdf_sample x (w2l b wo) u0 u1 = Ok (sm_pdf smp, Some (wl, sm_f smp)).
Proof.
  assert (PK : forall l fl j x, pick l fl j = Some x -> In x l /\ match_flag x fl = true).
  { induction l as [|x l IH]; intros fl j y; cbn [pick]; [discriminate|]. destruct (match_flag x fl) eqn:MF.
    - destruct (j =? 0)%Z; [intros [= <-]; split; [now left|exact MF]|]. intros H. destruct (IH _ _ _ H). split; [now right|assumption].
    - intros H. destruct (IH _ _ _ H). split; [now right|assumption]. }
  intros HP N1 wo u0 u1 uc smp wi. unfold bsdf_sample. destruct (_ =? 0)%nat; [intros [= <-]; cbn; lra|].
  destruct (pick _ _ _) as [x|] eqn:EP; [|discriminate]. destruct (PK _ _ _ _ EP) as [IX MX].
  destruct (bdf_sample _ _ _ _) as [[pdf o]|] eqn:ES; cbn [bind]; [|discriminate]. destruct (Reqb pdf 0); [intros [= <-]; cbn; discriminate|].
  destruct o as [[wl f]|]; [|discriminate]. replace (1 <? n_components b flags)%nat with false by (symmetry; apply Nat.ltb_ge; exact N1).
  intros [= <-]. cbn [sm_pdf sm_wi sm_f]. intros _ [= <-]. exists x, wl. split; [now apply HP|]. split; [reflexivity|exact ES].
Qed.

(** Surfaces aligned with the world axes: a mirror sends back exactly Kr of the light, glass at most Kr. *)
Theorem C287_mirror_partial (kr : stex) (flip : bool) (g s : dgeom) (b : bsdf) (wo : vec) (u0 u1 uc : R) (smp : bsdf_smp) (wi : vec) :
  get_bsdf (Mirror kr None) flip g s = Ok b -> world_axes b ->
  bsdf_sample b wo u0 u1 uc mirror_flags = Ok smp -> 0 < sm_pdf smp -> sm_wi smp = Some wi ->
  spec_ge0 (carried b smp wi) /\ spec_le (carried b smp wi) (positive_part (kr (at_hit flip s))) /\
  (vdot wo (bs_nn b) <> 0 -> carried b smp wi = positive_part (kr (at_hit flip s))).
Proof.
  cbn [get_bsdf shading bind]. rewrite at_hit_copy, sclip_pos. set (q := at_hit flip s). set (r := positive_part (kr q)). intros [= <-] AX HS HP HW.
  assert (Q : forall x, In x (bs_bdfs (if sblack r then bsdf_make q (dg_nn g) else push_back (bsdf_make q (dg_nn g)) (SpecularReflection r FrFull))) ->
     match_flag x mirror_flags = true -> x = SpecularReflection r FrFull).
  { destruct (sblack r); cbn [bs_bdfs bsdf_make push_back app In]; intuition. }
  destruct (only_mirror _ _ _ Q) with (2 := HS) (3 := HP) (4 := HW) as (x & wl & -> & -> & E).
  { destruct (sblack r); unfold n_components; cbn; lia. }
  destruct (carried_lobe _ smp wo r FrFull u0 u1 wl (sm_f smp) AX (positive_ge0 _)) as (A & B & C); [|exact E|reflexivity|].
  { unfold spec_ge0, spec_le; cbn; lra. }
  split; [exact A|]. split; [exact B|]. intros N. now apply C.
Qed.
Print Assumptions C287_mirror_partial.
Theorem C287_glass_partial (kr kt : stex) (ix : ftex) (flip : bool) (g s : dgeom) (b : bsdf) (wo : vec) (u0 u1 uc : R) (smp : bsdf_smp) (wi : vec) :
  1/3 <= ix (at_hit flip s) <= 3 ->
  get_bsdf (Glass kr kt ix None) flip g s = Ok b -> world_axes b ->
  bsdf_sample b wo u0 u1 uc mirror_flags = Ok smp -> 0 < sm_pdf smp -> sm_wi smp = Some wi ->
  spec_ge0 (carried b smp wi) /\ spec_le (carried b smp wi) (positive_part (kr (at_hit flip s))).
Proof.
  intros IX. cbn [get_bsdf shading bind]. rewrite at_hit_copy, !sclip_pos. set (q := at_hit flip s) in *. set (r := positive_part (kr q)). set (t := positive_part (kt q)). intros [= <-] AX HS HP HW.
  match type of AX with world_axes ?bb => assert (Q : forall x, In x (bs_bdfs bb) -> match_flag x mirror_flags = true -> x = SpecularReflection r (FrDiel 1 (ix q))) end.
  { destruct (sblack r), (sblack t); cbn [bs_bdfs bsdf_make push_back app In]; intuition; subst; discriminate. }
  destruct (only_mirror _ _ _ Q) with (2 := HS) (3 := HP) (4 := HW) as (x & wl & -> & -> & E).
  { destruct (sblack r), (sblack t); unfold n_components; cbn; lia. }
  destruct (carried_lobe _ smp wo r (FrDiel 1 (ix q)) u0 u1 wl (sm_f smp) AX (positive_ge0 _)) as (A & B & C); [|exact E|reflexivity|now split].
  cbn [fresnel_call]. match goal with |- context [fr_diel_call 1 (ix q) ?c] => pose proof (fr_diel_call_range 1 (ix q) c ltac:(lra) ltac:(lra) ltac:(lra) ltac:(lra)) as FR end.
  unfold spec_ge0, spec_le, spec; cbn [vx vy vz]. lra.
Qed.
Print Assumptions C287_glass_partial.
Example C287_ex : let b := push_back (bsdf_make patch (mkV 0 0 1)) (SpecularReflection (spec 1) FrFull) in
  get_bsdf (Mirror (fun _ => spec 1) None) false patch patch = Ok b /\ world_axes b /\
  exists smp wi, bsdf_sample b wo_w 0 0 0 mirror_flags = Ok smp /\ 0 < sm_pdf smp /\ sm_wi smp = Some wi.
Proof.
  cbv zeta. assert (N1 : normalize (mkV 1 0 0) = mkV 1 0 0) by (apply normalize_e; unfold unit, vdot; cbn; ring). split; [|split].
  - cbn [get_bsdf shading bind]. rewrite at_hit_copy, patch_hit, sclip_pos.
    assert (EP : positive_part (spec 1) = spec 1) by (unfold positive_part, spec; apply V3_eq; cbn [vx vy vz]; unfold Rmax; destruct Rle_dec; lra). rewrite EP.
    assert (EB : sblack (spec 1) = false) by (apply sblack_niff; rewrite <- EP; exact white_nb). rewrite EB. reflexivity.
  - unfold world_axes, bsdf_make, push_back, patch. cbn [bs_sn bs_tn bs_nn dg_nn dg_dpdu]. rewrite N1. split; [exists 1; auto|]. split; [exists 1; split; auto; unfold vcross; apply V3_eq; cbn; ring|exists 1; auto].
  - unfold bsdf_sample. change (n_components _ mirror_flags) with 1%nat. cbn [Nat.eqb].
    assert (PI0 : pick_index 0 1 = 0%Z). { apply (pick_index_at 0 1 0); [lra|lia|cbn; lra|right; reflexivity]. }
    rewrite PI0. cbn [bs_bdfs push_back bsdf_make app pick]. change (match_flag (SpecularReflection (spec 1) FrFull) mirror_flags) with true. cbn [Z.eqb bdf_sample bind].
    destruct (Reqb 1 0) eqn:Q; [exfalso; apply Reqb_true in Q; lra|]. cbn [Nat.ltb Nat.leb]. eexists _, _. split; [reflexivity|]. cbn [sm_pdf sm_wi]. split; [exact Rlt_0_1|reflexivity].
Qed.

(** A perfect mirror tilted by the angle with sine 3/5 about the y axis multiplies the light by more than any given factor for some direction. *)
Definition tilted : dgeom := mkDG vzero (mkV (4/5) 0 (-3/5)) (mkV 0 1 0) vzero vzero (mkV (3/5) 0 (4/5)) 0 0 0 0 0 0 vzero vzero.
Theorem C287_amplified_refuted (B : R) : 0 <= B -> exists b wo smp wi,
  get_bsdf (Mirror (fun _ => mkV 1 1 1) None) false tilted tilted = Ok b /\ unit wo /\ 0 < vdot wo (bs_nn b) /\
  (forall u0 u1 uc, 0 <= uc <= 1 -> bsdf_sample b wo u0 u1 uc mirror_flags = Ok smp) /\ sm_pdf smp = 1 /\ sm_wi smp = Some wi /\
  B < vx (carried b smp wi) /\ B < vy (carried b smp wi) /\ B < vz (carried b smp wi).
Proof.
  intros HB. set (k := 4 * B + 4). set (d := k * k + 1). assert (K : 4 <= k) by (unfold k; lra). assert (D : 0 < d) by (unfold d; nra).
  set (x := (1 - k * k) / d). set (z := 2 * k / d).
  set (sn := mkV (4/5) 0 (-3/5)). set (nn := mkV (3/5) 0 (4/5)). set (b := mkBSDF nn sn (mkV 0 1 0) nn [SpecularReflection (spec 1) FrFull]).
  set (wo := mkV (x * (4/5) + z * (3/5)) 0 (x * (-3/5) + z * (4/5))).
  assert (XZ : x * x + z * z = 1) by (unfold x, z, d; field; unfold d in D; lra).
  assert (Z0 : 0 < z) by (unfold z; apply Rdiv_lt_0_compat; lra).
  assert (WL : w2l b wo = mkV x 0 z) by (unfold w2l, b, wo, sn, nn, vdot; cbn [bs_sn bs_tn bs_nn vx vy vz]; apply V3_eq; cbn; field).
  exists b, wo, (mkSmp 1 (Some (l2w b (mkV (- x) (-0) z))) (Some 17%Z) (sdiv (smul (spec 1) (spec 1)) (Rabs z))), (l2w b (mkV (- x) (-0) z)).
  split; [|split; [|split; [|split; [|split; [|split]]]]].
  - cbn [get_bsdf shading bind]. rewrite sclip_pos.
    assert (EP : positive_part (mkV 1 1 1) = spec 1) by (unfold positive_part, spec; apply V3_eq; cbn [vx vy vz]; unfold Rmax; destruct Rle_dec; lra). rewrite EP.
    assert (EB : sblack (spec 1) = false) by (apply sblack_niff; rewrite <- EP; exact white_nb). rewrite EB.
    unfold dg_copy, dg_make, tilted, bsdf_make, push_back. cbn [dg_p dg_dpdu dg_dpdv dg_dndu dg_dndv dg_u dg_v dg_nn bs_nn bs_sn bs_tn bs_ng bs_bdfs app].
    assert (CR : vcross (mkV (4/5) 0 (-3/5)) (mkV 0 1 0) = nn) by (unfold vcross, nn; apply V3_eq; cbn; field). rewrite CR.
    assert (N1 : normalize nn = nn) by (apply normalize_e; unfold unit, nn, vdot; cbn; field). rewrite N1.
    assert (N2 : normalize (mkV (4/5) 0 (-3/5)) = sn) by (apply normalize_e; unfold unit, vdot; cbn; field). rewrite N2.
    unfold b. f_equal. f_equal. unfold nn, sn, vcross. apply V3_eq; cbn; field.
  - unfold unit, wo, vdot. cbn [vx vy vz]. rewrite <- XZ. field.
  - change (vdot wo (bs_nn b)) with (vz (w2l b wo)). rewrite WL. exact Z0.
  - intros u0 u1 uc U. unfold bsdf_sample. change (n_components b mirror_flags) with 1%nat. cbn [Nat.eqb].
    assert (PK : pick (bs_bdfs b) mirror_flags (pick_index uc 1) = Some (SpecularReflection (spec 1) FrFull)).
    { unfold b. cbn [bs_bdfs pick]. change (match_flag (SpecularReflection (spec 1) FrFull) mirror_flags) with true. cbv iota. 
      assert (E0 : pick_index uc 1 = 0%Z) by (apply (pick_index_at uc 1 0); [lra|lia|cbn; lra|right; reflexivity]). rewrite E0. reflexivity. }
    rewrite PK, WL. cbn [bdf_sample bind]. destruct (Reqb 1 0) eqn:Q; [exfalso; apply Reqb_true in Q; lra|]. cbn [Nat.ltb Nat.leb]. reflexivity.
  - reflexivity.
  - reflexivity.
  - assert (CD : vdot (l2w b (mkV (- x) (-0) z)) (bs_nn b) = (4 * z - 21 * x) / 25) by (unfold l2w, b, sn, nn, vdot; cbn [bs_sn bs_tn bs_nn vx vy vz]; field).
    unfold carried. rewrite CD. cbn [sm_f sm_pdf]. unfold sdiv, smul, spec, vmap, vmap2. cbn [vx vy vz].
    assert (X0 : x < 0). { unfold x. apply Rmult_lt_reg_r with d; [exact D|]. replace ((1 - k * k) / d * d) with (1 - k * k) by (field; lra). nra. }
    rewrite (Rabs_pos_eq z) by lra. rewrite Rabs_pos_eq by lra.
    assert (BB : B < (4 * z - 21 * x) / 25 * (1 * 1 / z) / 1).
    { apply Rmult_lt_reg_r with (25 * z); [lra|]. replace ((4 * z - 21 * x) / 25 * (1 * 1 / z) / 1 * (25 * z)) with (4 * z - 21 * x) by (field; lra).
      apply Rmult_lt_reg_r with d; [exact D|]. replace (B * (25 * z) * d) with (B * (25 * (2 * k))) by (unfold z; field; lra).
      replace ((4 * z - 21 * x) * d) with (4 * (2 * k) - 21 * (1 - k * k)) by (unfold z, x; field; lra). unfold k. nra. }
    repeat split; exact BB.
Qed.
Print Assumptions C287_amplified_refuted.
