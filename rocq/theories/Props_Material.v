(** Property theorems C172-C185 (materials).  Specification vocabulary: S_Material.v. *)
From Coq Require Import String.
From Coq Require Import Reals Lra Lia List ZArith Bool.
From Verif Require Import Base M_Geometry S_Geometry P_Geometry M_Transform M_MonteCarlo M_Film M_Shapes M_Reflection S_Reflection
  P_Reflection P_Reflection2 P_Reflection3 P_Reciprocity P_Fresnel M_Material S_Material P_Material P_Material2 P_Material3 P_Material4
  P_Material5 P_Material6.
Import ListNotations.
Open Scope R_scope.

(** C172: matte *)
Theorem C172_smooth (kd : stex) (sigma : ftex) (flip : bool) (g s : dgeom) (wo wi : vec) :
  sigma (at_hit flip s) <= 0 ->
  exists b, get_bsdf (Matte kd sigma None) flip g s = Ok b /\
    (same_side (dg_nn g) wo wi -> bsdf_f b wo wi ALL = Ok (vscale (1 / PI) (positive_part (kd (at_hit flip s))))) /\
    (~ same_side (dg_nn g) wo wi -> bsdf_f b wo wi ALL = Ok vzero).
Proof. exact (matte_lambert kd sigma flip g s wo wi). Qed.
Print Assumptions C172_smooth.
Theorem C172_rough (kd : stex) (sigma : ftex) (flip : bool) (g s : dgeom) (wo wi : vec) :
  regular s -> 0 < sigma (at_hit flip s) -> unit wo -> unit wi -> let n := dg_nn (at_hit flip s) in
  vdot wo n <> 0 -> vdot wi n <> 0 -> off_normal n wo -> off_normal n wi ->
  exists b, get_bsdf (Matte kd sigma None) flip g s = Ok b /\
    (same_side (dg_nn g) wo wi -> bsdf_f b wo wi ALL =
       Ok (oren_nayar_value (positive_part (kd (at_hit flip s))) (Rmin (sigma (at_hit flip s)) 90) n wo wi)) /\
    (~ same_side (dg_nn g) wo wi -> bsdf_f b wo wi ALL = Ok vzero).
Proof. exact (matte_rough kd sigma flip g s wo wi). Qed.
Print Assumptions C172_rough.
Example C172_ex : regular patch /\ off_normal (dg_nn (at_hit false patch)) wo_w /\ unit wo_w /\ vdot wo_w (dg_nn (at_hit false patch)) <> 0.
Proof.
  rewrite patch_hit. change (dg_nn patch) with (mkV 0 0 1). unfold off_normal. rewrite wo_dot.
  split; [exact patch_regular|]. split; [unfold EPS; lra|]. split; [exact wo_unit|lra].
Qed.

(** C173: textures *)
Theorem C173_lookup_partial (kd : stex) (sigma : ftex) (flip : bool) (g s : dgeom) (wo wi : vec) :
  pointwise kd -> pointwise sigma -> sigma s <= 0 -> same_side (dg_nn g) wo wi ->
  exists b, get_bsdf (Matte kd sigma None) flip g s = Ok b /\
    bsdf_f b wo wi ALL = Ok (vscale (1 / PI) (positive_part (kd s))).
Proof.
  intros P1 P2 H S0. assert (K : kd (at_hit flip s) = kd s) by (apply P1; reflexivity).
  assert (K2 : sigma (at_hit flip s) = sigma s) by (apply P2; reflexivity).
  destruct (matte_lambert kd sigma flip g s wo wi) as (b & A & B & _); [now rewrite K2|]. exists b. split; [exact A|].
  rewrite (B S0), K. reflexivity.
Qed.
Print Assumptions C173_lookup_partial.
(** the footprint computed for the hit never reaches the texture *)
Theorem C173_footprint_refuted : exists (kd : stex) (g : dgeom) (wo wi : vec) b,
  dg_dudx g <> 0 /\ same_side (dg_nn g) wo wi /\ get_bsdf (Matte kd (fun _ => 0) None) false g g = Ok b /\
  bsdf_f b wo wi ALL <> Ok (vscale (1 / PI) (positive_part (kd g))).
Proof.
  set (g := mkDG vzero (mkV 1 0 0) (mkV 0 1 0) vzero vzero (mkV 0 0 1) 0 0 1 0 0 0 vzero vzero).
  set (kd := fun h => spec (dg_dudx h)). 
  assert (SS : same_side (dg_nn g) (mkV 0 0 1) (mkV 0 0 1)) by (unfold same_side, g, vdot; cbn; lra).
  destruct (matte_lambert kd (fun _ => 0) false g g (mkV 0 0 1) (mkV 0 0 1)) as (b & A & B & _); [lra|].
  exists kd, g, (mkV 0 0 1), (mkV 0 0 1), b. split; [cbn; lra|]. split; [exact SS|]. split; [exact A|]. rewrite (B SS).
  intros Q. apply (f_equal (fun r => match r with Ok v => vx v | Err _ => 0 end)) in Q.
  unfold kd, at_hit, g, positive_part, vscale, vmap, spec in Q. cbn in Q. rewrite Rmax_left in Q by lra.
  rewrite Rmax_right in Q by lra. pose proof PI_RGT_0. assert (0 < 1 / PI) by (apply Rdiv_lt_0_compat; lra). lra.
Qed.
Print Assumptions C173_footprint_refuted.
Example C173_ex : pointwise (fun g => spec (dg_u g)) /\ pointwise (fun _ : dgeom => 0).
Proof. split; intros g h A B C; cbn; congruence. Qed.

(** C174: mirror *)
Theorem C174_mirror (kr : stex) (flip : bool) (g s : dgeom) : regular s ->
  let q := at_hit flip s in let n := dg_nn q in
  exists b, get_bsdf (Mirror kr None) flip g s = Ok b /\
    (forall wo wi flags, bsdf_f b wo wi flags = Ok vzero) /\
    (nearly_black (positive_part (kr q)) -> forall wo u0 u1 uc, bsdf_sample b wo u0 u1 uc ALL = Ok (mkSmp 0 None None vzero)) /\
    (~ nearly_black (positive_part (kr q)) -> forall wo u0 u1 uc, unit wo -> vdot wo n <> 0 -> 0 <= uc ->
      exists smp wi, bsdf_sample b wo u0 u1 uc ALL = Ok smp /\ sm_pdf smp = 1 /\ sm_type smp = Some 17%Z /\
        sm_wi smp = Some wi /\ vscale (Rabs (vdot wo n)) (sm_f smp) = positive_part (kr q)).
Proof.
  intros RG q n. destruct (mirror_spec kr flip g s RG) as (b & A & B & C & D). exists b.
  split; [exact A|]. split; [exact B|]. split; [exact C|]. intros K wo u0 u1 uc U Z0 UC.
  destruct (D K wo u0 u1 uc U Z0 UC) as (smp & wi & E1 & E2 & E3 & E4 & E5 & _). exists smp, wi. repeat (split; [assumption|]). exact E5.
Qed.
Print Assumptions C174_mirror.
Example C174_ex : regular patch /\ ~ nearly_black (positive_part (spec 1)).
Proof. split; [exact patch_regular|exact white_nb]. Qed.

(** C175: glass *)
Theorem C175_split_partial (kr kt : stex) (ix : ftex) (flip : bool) (g s : dgeom) (wo : vec) : regular s ->
  let q := at_hit flip s in let n := dg_nn q in let c := vdot wo n in
  let k := if Rltb 0 c then ix q else 1 / ix q in
  1/3 <= ix q <= 3 -> ~ nearly_black (positive_part (kr q)) -> ~ nearly_black (positive_part (kt q)) -> unit wo -> c <> 0 ->
  exists b F, get_bsdf (Glass kr kt ix None) flip g s = Ok b /\ 0 <= F <= 1 /\
    (forall u0 u1 uc, 0 <= uc < 1/2 -> exists smp wi, bsdf_sample b wo u0 u1 uc ALL = Ok smp /\ sm_pdf smp = 1/2 /\
       sm_type smp = Some 17%Z /\ sm_wi smp = Some wi /\ vscale (Rabs c) (sm_f smp) = vscale F (positive_part (kr q)) /\
       (world_axes b -> wi = vsub (vscale (2 * c) n) wo)) /\
    (forall u0 u1 uc, 1/2 <= uc < 1 -> k * k * (1 - c * c) < 1 -> exists smp wi, bsdf_sample b wo u0 u1 uc ALL = Ok smp /\
       sm_pdf smp = 1/2 /\ sm_type smp = Some 18%Z /\ sm_wi smp = Some wi /\
       vscale (sqrt (1 - k * k * (1 - c * c))) (sm_f smp) = vscale ((1 - F) / (k * k)) (positive_part (kt q)) /\
       (world_axes b -> unit wi /\ vdot wi n * c < 0 /\ Rabs (vdot wi n) = sqrt (1 - k * k * (1 - c * c)))) /\
    (forall u0 u1 uc, 1/2 <= uc < 1 -> 1 <= k * k * (1 - c * c) ->
       bsdf_sample b wo u0 u1 uc ALL = Ok (mkSmp 0 None (Some 18%Z) vzero)).
Proof.
  intros RG q n c k IX B1 B2 U Z0.
  destruct (glass_spec kr kt ix flip g s wo RG) as (b & F & A & FE & R0); fold q; try assumption; try lra.
  exists b, F. split; [exact A|]. split; [|exact R0]. rewrite FE. apply fr_diel_call_range; fold q; lra.
Qed.
Print Assumptions C175_split_partial.
Example C175_ex : regular patch /\ ~ nearly_black (positive_part (spec 1)) /\ unit wo_w /\ vdot wo_w (dg_nn (at_hit false patch)) <> 0.
Proof. rewrite patch_hit. change (dg_nn patch) with (mkV 0 0 1). rewrite wo_dot. split; [exact patch_regular|]. split; [exact white_nb|]. split; [exact wo_unit|lra]. Qed.
(** at sin = 4/5 onto clear glass of index 4/3 from outside: 49/1250 of the light is reflected, the rest is lost *)
Theorem C175_light_lost_refuted : exists b,
  get_bsdf (Glass (fun _ => spec 1) (fun _ => spec 1) (fun _ => 4/3) None) false patch patch = Ok b /\
  (forall u0 u1 uc, 0 <= uc < 1/2 -> exists smp, bsdf_sample b (mkV (4/5) 0 (3/5)) u0 u1 uc ALL = Ok smp /\ sm_pdf smp = 1/2 /\
     vscale (3/5) (sm_f smp) = spec (49/1250)) /\
  (forall u0 u1 uc, 1/2 <= uc < 1 ->
     bsdf_sample b (mkV (4/5) 0 (3/5)) u0 u1 uc ALL = Ok (mkSmp 0 None (Some 18%Z) vzero)).
Proof. exact glass_lost. Qed.
Print Assumptions C175_light_lost_refuted.

(** C176: a coating of index 4/3 seen from outside reflects everything where Fresnel's formula gives 49/1250 *)
Theorem C176_coating_refuted : fresnel_dielectric (3/5) (4/5) 1 (4/3) = 49/1250 /\
  exists b, get_bsdf (Uber (fun _ => spec 0) (fun _ => spec 0) (fun _ => spec 1) (fun _ => spec 0) (fun _ => 1)
    (fun _ => spec 1) (fun _ => 4/3) None) false patch patch = Ok b /\
  (forall u0 u1 uc, 0 <= uc < 1 -> exists smp, bsdf_sample b (mkV (4/5) 0 (3/5)) u0 u1 uc ALL = Ok smp /\ sm_pdf smp = 1 /\
     vscale (3/5) (sm_f smp) = spec 1).
Proof. split; [exact fr_book|exact uber_inverted]. Qed.
Print Assumptions C176_coating_refuted.

(** C177: opacity of the uber material *)
Theorem C177_translucent (kd ks kr kt : stex) (ro : ftex) (op : stex) (eta : ftex) (flip : bool) (g s : dgeom) : regular s ->
  let q := at_hit flip s in let n := dg_nn q in
  0 < ro q -> positive_part (op q) <> mkV 1 1 1 ->
  exists b, get_bsdf (Uber kd ks kr kt ro op eta None) flip g s = Ok b /\ (1 <= n_components b ALL)%nat /\
    forall wo u0 u1 uc, unit wo -> vdot wo n <> 0 -> 0 <= uc -> uc * INR (n_components b ALL) < 1 ->
    exists smp wi, bsdf_sample b wo u0 u1 uc ALL = Ok smp /\ sm_wi smp = Some wi /\ sm_pdf smp * INR (n_components b ALL) = 1 /\
      sm_type smp = Some 18%Z /\ vscale (Rabs (vdot wo n)) (sm_f smp) = vsub (mkV 1 1 1) (positive_part (op q)).
Proof.
  intros RG q n RO W. destruct (uber_pass kd ks kr kt ro op eta flip g s RG RO W) as (b & A & B & C). exists b.
  split; [exact A|]. split; [exact B|]. intros wo u0 u1 uc U Z0 U1 U2.
  destruct (C wo u0 u1 uc U Z0 U1 U2) as (smp & wi & E1 & E2 & E3 & E4 & E5 & _). exists smp, wi. repeat (split; [assumption|]). exact E5.
Qed.
Print Assumptions C177_translucent.
Theorem C177_clear (kd ks kr kt : stex) (ro : ftex) (op : stex) (eta : ftex) (flip : bool) (g s : dgeom) :
  let q := at_hit flip s in 0 < ro q -> positive_part (op q) = vzero ->
  exists b, get_bsdf (Uber kd ks kr kt ro op eta None) flip g s = Ok b /\ n_components b ALL = 1%nat /\
    forall wo wi flags, bsdf_f b wo wi flags = Ok vzero.
Proof. exact (uber_clear kd ks kr kt ro op eta flip g s). Qed.
Print Assumptions C177_clear.
Theorem C177_opaque (kd ks kr kt : stex) (ro : ftex) (op : stex) (eta : ftex) (flip : bool) (g s : dgeom) :
  let q := at_hit flip s in 0 < ro q -> positive_part (op q) = mkV 1 1 1 -> nearly_black (positive_part (kt q)) ->
  exists b, get_bsdf (Uber kd ks kr kt ro op eta None) flip g s = Ok b /\
    n_components b (Z.lor 2 16) = 0%nat /\ (forall wo wi, ~ same_side (dg_nn g) wo wi -> bsdf_f b wo wi ALL = Ok vzero) /\
    (forall wo u0 u1 uc smp, bsdf_sample b wo u0 u1 uc ALL = Ok smp -> sm_type smp <> Some (Z.lor 2 16)).
Proof. exact (uber_opaque kd ks kr kt ro op eta flip g s). Qed.
Print Assumptions C177_opaque.
(** everything but the undeviated part is scaled: the surface evaluates like the opaque one with scaled textures *)
Theorem C177_scaled (kd ks kr kt : stex) (ro : ftex) (op : stex) (eta : ftex) (flip : bool) (g s : dgeom) :
  0 < ro (at_hit flip s) ->
  let sc (k : stex) : stex := fun h => smul (positive_part (op h)) (positive_part (k h)) in
  exists b b', get_bsdf (Uber kd ks kr kt ro op eta None) flip g s = Ok b /\
    get_bsdf (Uber (sc kd) (sc ks) (sc kr) (sc kt) ro (fun _ => mkV 1 1 1) eta None) flip g s = Ok b' /\
    forall wo wi flags, bsdf_f b wo wi flags = bsdf_f b' wo wi flags.
Proof. exact (uber_scaled kd ks kr kt ro op eta flip g s). Qed.
Print Assumptions C177_scaled.
Theorem C177_diffuse (kd ks kr kt : stex) (ro : ftex) (op : stex) (eta : ftex) (flip : bool) (g s : dgeom) (wo wi : vec) :
  0 < ro (at_hit flip s) -> let q := at_hit flip s in let o := positive_part (op q) in
  nearly_black (positive_part (ks q)) -> vx o <= 1 -> vy o <= 1 -> vz o <= 1 ->
  ~ nearly_black (smul o (positive_part (kd q))) -> same_side (dg_nn g) wo wi ->
  exists b, get_bsdf (Uber kd ks kr kt ro op eta None) flip g s = Ok b /\
    bsdf_f b wo wi ALL = Ok (vscale (1 / PI) (smul o (positive_part (kd q)))).
Proof. exact (uber_diffuse kd ks kr kt ro op eta flip g s wo wi). Qed.
Print Assumptions C177_diffuse.
Example C177_ex : positive_part (spec (1/2)) <> mkV 1 1 1 /\ positive_part (spec (-1)) = vzero.
Proof.
  split; unfold positive_part, spec, vzero; cbn; [rewrite Rmax_right by lra; intros H; injection H; lra|now rewrite Rmax_left by lra].
Qed.

(** C178: every sensible material produces a usable BSDF *)
Theorem C178_usable (m : material) (flip : bool) (g s : dgeom) : regular s -> sensible m (at_hit flip s) ->
  exists b, get_bsdf m flip g s = Ok b /\ frame (bs_sn b) (bs_tn b) (bs_nn b) /\
    bs_nn b = vscale (if flip then -1 else 1) (normalize (vcross (dg_dpdu s) (dg_dpdv s))) /\ bs_ng b = dg_nn g /\
    (forall wo wi flags, exists f, bsdf_f b wo wi flags = Ok f) /\
    (forall wo wi flags, unit wo -> unit wi -> vdot wo (bs_nn b) <> 0 -> vdot wi (bs_nn b) <> 0 ->
       bsdf_f b wo wi flags = bsdf_f b wi wo flags) /\
    (forall wo wi flags, 0 <= bsdf_pdf b wo wi flags).
Proof.
  intros RG M. destruct (get_bsdf_good m flip g s RG M) as (b & A & OK & NG & NN & SL & PO). exists b. split; [exact A|].
  assert (LO : List.Forall lobe_ok (bs_bdfs b)).
  { rewrite List.Forall_forall in *. intros x HX. apply simple_ok; auto. }
  split; [now apply frame_bs_ok|]. split; [rewrite NN; reflexivity|]. split; [exact NG|]. split; [|split].
  - intros. now apply sum_total.
  - intros wo wi flags U1 U2 Z1 Z2. apply bsdf_recip; auto.
    eapply Forall_impl; [|exact SL]. intros x HX. destruct x; try contradiction; exact I.
  - intros. unfold bsdf_pdf. destruct (bs_bdfs b) eqn:EB; [lra|]. rewrite <- EB in *. cbv zeta.
    assert (P : forall l acc, List.Forall lobe_ok l -> 0 <= acc -> 0 <= sum_pdf l flags (w2l b wo) (w2l b wi) acc).
    { induction l0 as [|x l0 IH]; intros acc F H; cbn [sum_pdf]; [exact H|]. inversion F; subst. apply IH; auto.
      destruct (match_flag x flags); [|exact H]. pose proof (P_LobeSampling.bdf_pdf_nonneg x (w2l b wo) (w2l b wi)). 
      assert (0 <= bdf_pdf x (w2l b wo) (w2l b wi)) by auto. lra. }
    destruct (0 <? n_components b flags)%nat eqn:C; [|lra]. apply Nat.ltb_lt in C.
    apply div_nonneg; [apply P; [exact LO|lra]|now apply lt_0_INR].
Qed.
Print Assumptions C178_usable.
(** C179: and never a negative value where the two normals agree about the sides *)
Theorem C179_non_negative (m : material) (flip : bool) (g s : dgeom) (wo wi : vec) (flags : Z) :
  regular s -> sensible m (at_hit flip s) -> unit wo -> unit wi ->
  let n := dg_nn (at_hit flip s) in vdot wo n <> 0 -> vdot wi n <> 0 -> (same_side (dg_nn g) wo wi <-> same_side n wo wi) ->
  exists b f, get_bsdf m flip g s = Ok b /\ bsdf_f b wo wi flags = Ok f /\ spec_ge0 f.
Proof.
  intros RG M U1 U2 n Z1 Z2 SS. destruct (get_bsdf_good m flip g s RG M) as (b & A & G).
  destruct G as (OK & NG & NN & SL & PO).
  destruct (sum_total (bs_bdfs b) (side_flags b wo wi flags) (w2l b wo) (w2l b wi) SL (spec 0)) as (f & EF).
  exists b, f. split; [exact A|]. split; [exact EF|].
  apply (good_nonneg (dg_nn g) (at_hit flip s) b wo wi flags f); auto. unfold good. auto.
Qed.
Print Assumptions C179_non_negative.
Example C178_ex : sensible (Uber (fun _ => spec (1/2)) (fun _ => spec (1/4)) (fun _ => spec 0) (fun _ => spec (1/8)) (fun _ => 1/10)
  (fun _ => spec (3/4)) (fun _ => 3/2) None) (at_hit false patch) /\
  sensible (Metal (fun _ => spec 2) (fun _ => spec 3) (fun _ => 1/100) None) (at_hit false patch).
Proof. cbn. repeat split; lra. Qed.

(** C180: mixtures *)
Theorem C180_mix_refuted (m1 m2 : material) (sc : stex) (flip : bool) (g s : dgeom) (b1 b2 : bsdf) :
  get_bsdf m1 flip g s = Ok b1 -> get_bsdf m2 flip g s = Ok b2 -> (bs_bdfs b1 <> [] \/ bs_bdfs b2 <> []) ->
  get_bsdf (Mix m1 m2 sc) flip g s = Err TypeError.
Proof. exact (mix_fails m1 m2 sc flip g s b1 b2). Qed.
Print Assumptions C180_mix_refuted.
Example C180_ex : exists b, get_bsdf (Matte (fun _ => spec 1) (fun _ => 0) None) false patch patch = Ok b /\ bs_bdfs b <> [].
Proof. rewrite matte_shape. eexists; split; [reflexivity|]. cbn. discriminate. Qed.

(** C181: subsurface coefficients *)
Theorem C181_coefficients (scale : R) (kr sa sps : stex) (eta : ftex) (bm : option ftex) (g s : dgeom) :
  exists c, get_bssrdf (Subsurface scale kr sa sps eta bm) g s = Ok (Some c) /\
    (forall i, vnth (ss_sigma_a c) i = scale * vnth (sa s) i /\ vnth (ss_sigma_ps c) i = scale * vnth (sps s) i) /\ ss_eta c = eta s.
Proof.
  eexists; split; [reflexivity|]. split; [|reflexivity]. intros i. cbn [ss_sigma_a ss_sigma_ps].
  destruct i as [|[|i]]; cbn; auto.
Qed.
Print Assumptions C181_coefficients.
(** C182: but their surface reflection, and the coefficients from a diffuse colour, cannot be obtained *)
Theorem C182_surface_refuted (scale : R) (kr sa sps : stex) (eta : ftex) (flip : bool) (g s : dgeom) :
  get_bsdf (Subsurface scale kr sa sps eta None) flip g s = Err TypeError.
Proof. reflexivity. Qed.
Print Assumptions C182_surface_refuted.
Theorem C182_diffuse_refuted (kd kr : stex) (mfp eta : ftex) (bm : option ftex) (g s : dgeom) :
  get_bssrdf (KdSubsurface kd kr mfp eta bm) g s = Err TypeError.
Proof. reflexivity. Qed.
Print Assumptions C182_diffuse_refuted.
Theorem C182_kd_surface_partial (kd kr : stex) (mfp eta : ftex) (flip : bool) (g s : dgeom) (wo : vec) (u0 u1 uc : R) : regular s ->
  let q := at_hit flip s in let n := dg_nn q in ~ nearly_black (positive_part (kr q)) ->
  unit wo -> vdot wo n <> 0 -> 0 <= uc -> 1/3 <= eta q <= 3 ->
  exists b F smp, get_bsdf (KdSubsurface kd kr mfp eta None) flip g s = Ok b /\ 0 <= F <= 1 /\
    bsdf_sample b wo u0 u1 uc ALL = Ok smp /\ sm_pdf smp = 1 /\
    vscale (Rabs (vdot wo n)) (sm_f smp) = vscale F (positive_part (kr q)).
Proof.
  intros RG q n NB U Z0 UC ET. cbn [get_bsdf shading bind]. rewrite at_hit_copy, sclip_pos. fold q.
  assert (K : M_Utility.is_black (positive_part (kr q)) = false).
  { destruct (M_Utility.is_black (positive_part (kr q))) eqn:C; [apply ublack_iff in C; contradiction|reflexivity]. }
  rewrite K. eexists. exists (fr_diel_call 1 (eta q) (vdot wo n)). eexists. split; [reflexivity|].
  split; [apply fr_diel_call_range; lra|].
  set (lb := SpecularReflection _ _). set (b0 := bsdf_make q (dg_nn g)). set (b := push_back b0 lb).
  rewrite (sample_at b wo u0 u1 uc 0 lb); cbn [b push_back bs_bdfs b0 bsdf_make app length INR nth_error]; auto.
  2:{ repeat constructor. } 2:{ lra. }
  cbn [lb bdf_sample bind]. rewrite Reqb1. split; [reflexivity|]. cbn [sm_pdf sm_f]. split; [field|].
  cbn [fresnel_call]. rewrite smul_spec. unfold abs_cos_theta, mirror_dir, cos_theta. cbn [vz].
  change (w2l b wo) with (w2l b0 wo). rewrite w2l_z. change (bs_nn b0) with n. now apply sdiv_cancel.
Qed.
Print Assumptions C182_kd_surface_partial.

(** C183: a bump map makes every shading call fail *)
Theorem C183_bump_refuted (d : ftex) (kd ks kr eta k : stex) (sigma ro ix mfp : ftex) (flip : bool) (g s : dgeom) :
  get_bsdf (Matte kd sigma (Some d)) flip g s = Err AttributeError /\
  get_bsdf (Plastic kd ks ro (Some d)) flip g s = Err AttributeError /\
  get_bsdf (Mirror kr (Some d)) flip g s = Err AttributeError /\
  get_bsdf (Metal eta k ro (Some d)) flip g s = Err AttributeError /\
  get_bsdf (Glass kr ks ix (Some d)) flip g s = Err AttributeError /\
  get_bsdf (KdSubsurface kd kr mfp ix (Some d)) flip g s = Err AttributeError.
Proof. repeat split. Qed.
Print Assumptions C183_bump_refuted.

(** C184: measured data files *)
Theorem C184_file (conv : list R -> list R -> vec) (wls : list R) (l : list msample) (lines : list (list tok)) :
  List.Forall (fun s => length (ms_vals s) = length wls) l -> spells lines (encode wls l) ->
  read_brdf conv lines = Ok (map (fun s =>
    (brdf_remap (dir_of (ms_tho s) (ms_pho s)) (dir_of (ms_thi s) (ms_phi s)), conv wls (ms_vals s))) l).
Proof. exact (read_encode conv wls l lines). Qed.
Print Assumptions C184_file.
Theorem C184_malformed (conv : list R -> list R -> vec) (lines : list (list tok)) (n : nat) (rest : list R) :
  spells lines (INR n :: rest) -> ~ (exists k, length rest = (n + k * (4 + n))%nat) -> read_brdf conv lines = Err RuntimeError.
Proof. exact (read_malformed conv lines n rest). Qed.
Print Assumptions C184_malformed.
Example C184_ex : spells [[Hash; Word]; [Num 1]; []; [Num 550; Num 0]; [Num 1; Num (1/2); Num 2]; [Num (1/4)]]
  (encode [550] [mkMS 0 1 (1/2) 2 [1/4]]).
Proof.
  unfold encode. cbn. apply sp_comment. apply (sp_data [1]); [discriminate|]. apply sp_blank.
  apply (sp_data [550; 0]); [discriminate|]. apply (sp_data [1; 1/2; 2]); [discriminate|].
  apply (sp_data [1/4]); [discriminate|]. constructor.
Qed.
(** C185: the first material made from a file name works; any later one with the same base name does not *)
Theorem C185_first_partial (conv : list R -> list R -> vec) (fs : string -> string -> option (list (list tok))) (reg : registry)
  (dir file : string) (lines : list (list tok)) (smp : list (vec * vec)) :
  ~ In file (map fst reg) -> fs dir file = Some lines -> read_brdf conv lines = Ok smp ->
  exists m reg', measured_make conv fs reg dir file = Ok (m, reg') /\
    forall query wo wi, exists r q, measured_f query m wo wi = Some r /\ ir_f (query (map fst smp)) smp wo wi 16 = Some (r, q).
Proof.
  intros A B C. destruct (measured_first conv fs reg dir file lines smp A B C) as (m & reg' & M & F). exists m, reg'.
  split; [exact M|]. intros query wo wi. destruct (ir_ends (query (map fst smp)) smp wo wi) as (r & q & E0 & _).
  exists r, q. rewrite F, E0. auto.
Qed.
Print Assumptions C185_first_partial.
Theorem C185_again_refuted (conv : list R -> list R -> vec) (fs : string -> string -> option (list (list tok))) (reg : registry)
  (dir file : string) (m : measured) (reg' : registry) : measured_make conv fs reg dir file = Ok (m, reg') ->
  forall fs' dir', exists m', measured_make conv fs' reg' dir' file = Ok (m', reg') /\
    forall query wo wi, measured_f query m' wo wi = Some (Err TypeError).
Proof. exact (measured_again conv fs reg dir file m reg'). Qed.
Print Assumptions C185_again_refuted.

(** C186: directions of specular materials.  For surfaces facing along the world axes: *)
Theorem C186_mirror_partial (kr : stex) (flip : bool) (g s : dgeom) : regular s ->
  let q := at_hit flip s in let n := dg_nn q in ~ nearly_black (positive_part (kr q)) ->
  exists b, get_bsdf (Mirror kr None) flip g s = Ok b /\
    (world_axes b -> forall wo u0 u1 uc, unit wo -> vdot wo n <> 0 -> 0 <= uc ->
      exists smp, bsdf_sample b wo u0 u1 uc ALL = Ok smp /\ sm_wi smp = Some (vsub (vscale (2 * vdot wo n) n) wo)).
Proof.
  intros RG q n NB. destruct (mirror_spec kr flip g s RG) as (b & A & _ & _ & D). exists b. split; [exact A|].
  intros W wo u0 u1 uc U Z0 UC. destruct (D NB wo u0 u1 uc U Z0 UC) as (smp & wi & E1 & E2 & E3 & E4 & E5 & E6).
  exists smp. split; [exact E1|]. rewrite E4. f_equal. now apply E6.
Qed.
Print Assumptions C186_mirror_partial.
Theorem C186_clear_partial (kd ks kr kt : stex) (ro : ftex) (op : stex) (eta : ftex) (flip : bool) (g s : dgeom) : regular s ->
  let q := at_hit flip s in let n := dg_nn q in
  0 < ro q -> positive_part (op q) <> mkV 1 1 1 ->
  exists b, get_bsdf (Uber kd ks kr kt ro op eta None) flip g s = Ok b /\
    (world_axes b -> forall wo u0 u1 uc, unit wo -> vdot wo n <> 0 -> 0 <= uc -> uc * INR (n_components b ALL) < 1 ->
    exists smp, bsdf_sample b wo u0 u1 uc ALL = Ok smp /\ sm_wi smp = Some (vneg wo)).
Proof.
  intros RG q n RO W. destruct (uber_pass kd ks kr kt ro op eta flip g s RG RO W) as (b & A & B & C). exists b.
  split; [exact A|]. intros WA wo u0 u1 uc U Z0 U1 U2.
  destruct (C wo u0 u1 uc U Z0 U1 U2) as (smp & wi & E1 & E2 & E3 & E4 & E5 & E6). exists smp. split; [exact E1|]. rewrite E2. f_equal. now apply E6.
Qed.
Print Assumptions C186_clear_partial.
(** an upright mirror (normal +x) does not reflect (3/5,4/5,0) to (3/5,-4/5,0) *)
Theorem C186_direction_refuted : exists b smp wi, regular wall /\ dg_nn (at_hit false wall) = mkV 1 0 0 /\
  get_bsdf (Mirror (fun _ => spec 1) None) false wall wall = Ok b /\
  bsdf_sample b (mkV (3/5) (4/5) 0) 0 0 0 ALL = Ok smp /\ sm_wi smp = Some wi /\ wi <> mkV (3/5) (-4/5) 0.
Proof.
  destruct wall_mirror as (b & smp & wi & H). exists b, smp, wi. split; [exact wall_regular|]. split; [exact wall_hit|exact H].
Qed.
Print Assumptions C186_direction_refuted.
