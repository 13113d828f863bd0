From Coq Require Import String.
From Coq Require Import Reals Lra Lia List ZArith Bool.
From Verif Require Import Base M_Geometry S_Geometry P_Geometry M_Transform M_MonteCarlo M_Film M_Shapes M_Reflection S_Reflection
  P_Reflection P_Reflection2 P_Reflection3 P_LobeSampling P_Reciprocity P_Fresnel M_Material S_Material P_Material P_Material2 P_Material3.
From Verif Require M_Utility.
Import ListNotations.
Open Scope R_scope.

(** ** Uber *)
Definition opt_lobe (c : bool) (b : bdf) : list bdf := if c then [] else [b].
Lemma push_opt s (c : bool) b : bs_bdfs (if c then s else push_back s b) = bs_bdfs s ++ opt_lobe c b.
Proof. destruct c; cbn; [now rewrite app_nil_r|reflexivity]. Qed.
Lemma uber_shape kd ks kr kt ro op eta flip g s : let q := at_hit flip s in let o := positive_part (op q) in 0 < ro q ->
  exists b d, get_bsdf (Uber kd ks kr kt ro op eta None) flip g s = Ok b /\
    bs_sn b = bs_sn (bsdf_make q (dg_nn g)) /\ bs_tn b = bs_tn (bsdf_make q (dg_nn g)) /\
    bs_nn b = dg_nn q /\ bs_ng b = dg_nn g /\
    bs_bdfs b = opt_lobe (is_white o) (SpecularTransmission (vsub (spec 1) o) 1 1) ++
      opt_lobe (sblack (smul o (positive_part (kd q)))) (Lambertian (smul o (positive_part (kd q)))) ++
      opt_lobe (sblack (smul o (positive_part (ks q)))) (Microfacet (smul o (positive_part (ks q))) (FrDiel (eta q) 1) d) ++
      opt_lobe (sblack (smul o (positive_part (kr q)))) (SpecularReflection (smul o (positive_part (kr q))) (FrDiel (eta q) 1)) ++
      opt_lobe (sblack (smul o (positive_part (kt q)))) (SpecularTransmission (smul o (positive_part (kt q))) (eta q) 1) /\
    blinn_of (ro q) = Ok d.
Proof.
  intros q o RO. destruct (blinn_pos _ RO) as (d & D1 & _). cbn [get_bsdf shading bind]. rewrite at_hit_copy. fold q.
  unfold uber_lobes, uber_glossy. rewrite !sclip_pos. fold o. cbv zeta. rewrite D1. cbn [bind].
  set (b0 := bsdf_make q (dg_nn g)).
  set (s1 := if is_white o then b0 else _). 
  set (s2 := if sblack (smul o (positive_part (kd q))) then s1 else _).
  set (s3 := if sblack (smul o (positive_part (ks q))) then s2 else push_back s2 (Microfacet (smul o (positive_part (ks q))) (FrDiel (eta q) 1) d)).
  replace (if sblack (smul o (positive_part (ks q))) then Ok s2 else Ok (push_back s2 (Microfacet (smul o (positive_part (ks q))) (FrDiel (eta q) 1) d)))
    with (Ok s3) by (unfold s3; destruct (sblack (smul o (positive_part (ks q)))); reflexivity).
  cbn [bind]. eexists; exists d; split; [reflexivity|].
  assert (P1 : forall (c : bool) s b, bs_sn (if c then s else push_back s b) = bs_sn s) by (now intros []).
  assert (P2 : forall (c : bool) s b, bs_tn (if c then s else push_back s b) = bs_tn s) by (now intros []).
  assert (P3 : forall (c : bool) s b, bs_nn (if c then s else push_back s b) = bs_nn s) by (now intros []).
  assert (P4 : forall (c : bool) s b, bs_ng (if c then s else push_back s b) = bs_ng s) by (now intros []).
  unfold s3, s2, s1. rewrite !P1, !P2, !P3, !P4, !push_opt. split; [reflexivity|]. split; [reflexivity|]. split; [reflexivity|].
  split; [reflexivity|]. split; [|try rewrite D1; reflexivity]. cbn [b0 bsdf_make bs_bdfs app].
  rewrite <- !app_assoc. reflexivity.
Qed.
Lemma white_iff o : is_white o = true <-> o = mkV 1 1 1.
Proof.
  unfold is_white. rewrite !andb_true_iff, !Reqb_true. destruct o; cbn. split; [intros [[-> ->] ->]; reflexivity|].
  intros [= -> -> ->]; auto.
Qed.
Lemma fr_diel_same c : -1 <= c <= 1 -> c <> 0 -> fr_diel_call 1 1 c = 0.
Proof.
  intros H Z0. unfold fr_diel_call. rewrite (clip_id c) by lra. rewrite sin_sq_clip by lra.
  replace (if Rltb c 0 then (1, 1) else (1, 1)) with (1, 1) by (now destruct (Rltb c 0)). cbv zeta.
  assert (P : 0 < c * c) by nra. assert (Q : c * c <= 1) by nra.
  assert (E0 : 1 / 1 * sqrt (1 - c * c) = sqrt (1 - c * c)) by field. rewrite E0.
  assert (L : sqrt (1 - c * c) < 1) by (rewrite <- sqrt_1 at 2; apply sqrt_lt_1; lra).
  replace (Rleb 1 _) with false by (symmetry; apply Rleb_false; exact L).
  rewrite sqrt_sqrt by lra. replace (1 - (1 - c * c)) with (c * c) by ring.
  rewrite pmax_Rmax, Rmax_right by lra. change (c * c) with (Rsqr c). rewrite sqrt_Rsqr_abs.
  unfold fr_diel. pose proof (Rabs_pos_lt c Z0). field. lra.
Qed.
Lemma used_same wo : used_ratio 1 1 wo = 1.
Proof. unfold used_ratio. destruct (Rltb _ _); field. Qed.
Lemma pass_through t wo u1 u2 : unit wo -> vz wo <> 0 ->
  exists f, bdf_sample (SpecularTransmission t 1 1) wo u1 u2 = Ok (1, Some (vscale (-1) wo, f)) /\ vscale (Rabs (vz wo)) f = t.
Proof.
  intros U Z0. assert (UZ : vz wo * vz wo <= 1) by (unfold unit in U; nra). assert (ZP : 0 < vz wo * vz wo) by nra.
  destruct (transmit_value t 1 1 wo u1 u2 ltac:(lra) ltac:(lra) U Z0) as (wi & f & S0 & Uw & Sg & X & Y & AZ & V);
    rewrite ?used_same in *; try lra.
  assert (Q : sqrt (1 - 1 * 1 * (1 - vz wo * vz wo)) = Rabs (vz wo)).
  { rewrite <- sqrt_Rsqr_abs. f_equal. unfold Rsqr. ring. }
  rewrite Q in AZ, V. exists f. rewrite S0. split.
  - do 4 f_equal. apply V3_eq; cbn; try lra. 
    revert AZ. unfold Rabs. destruct (Rcase_abs (vz wi)), (Rcase_abs (vz wo)); intros; nra.
  - rewrite V. rewrite fr_diel_same; [|split; nra|exact Z0]. destruct t. unfold vscale, vmap; cbn. f_equal; field.
Qed.
Lemma opt_simple c b : simple_lobe b -> List.Forall simple_lobe (opt_lobe c b).
Proof. destruct c; cbn; auto. Qed.

Lemma uber_pass kd ks kr kt ro op eta flip g s : regular s -> let q := at_hit flip s in let n := dg_nn q in
  0 < ro q -> positive_part (op q) <> mkV 1 1 1 ->
  exists b, get_bsdf (Uber kd ks kr kt ro op eta None) flip g s = Ok b /\ (1 <= n_components b ALL)%nat /\
    forall wo u0 u1 uc, unit wo -> vdot wo n <> 0 -> 0 <= uc -> uc * INR (n_components b ALL) < 1 ->
    exists smp wi, bsdf_sample b wo u0 u1 uc ALL = Ok smp /\ sm_wi smp = Some wi /\ sm_pdf smp * INR (n_components b ALL) = 1 /\
      sm_type smp = Some 18%Z /\ vscale (Rabs (vdot wo n)) (sm_f smp) = vsub (mkV 1 1 1) (positive_part (op q)) /\
      (world_axes b -> wi = vneg wo).
Proof.
  intros RG q n RO NW. destruct (uber_shape kd ks kr kt ro op eta flip g s RO) as (b & d & GB & SN & TN & NN & NG & LB & _).
  fold q in SN, TN, NN, LB. exists b. split; [exact GB|].
  assert (OK : bs_ok b).
  { pose proof (make_ok flip s (dg_nn g) RG) as OK. fold q in OK. unfold bs_ok in *. rewrite SN, TN, NN. exact OK. }
  assert (W : is_white (positive_part (op q)) = false).
  { destruct (is_white (positive_part (op q))) eqn:C; [apply white_iff in C; contradiction|reflexivity]. }
  rewrite W in LB. cbn [opt_lobe app] in LB. set (lb := SpecularTransmission _ _ _) in LB.
  assert (FS : List.Forall simple_lobe (bs_bdfs b)).
  { rewrite LB. constructor; [exact I|]. repeat (apply Forall_app; split); apply opt_simple; exact I. }
  assert (NC : n_components b ALL = length (bs_bdfs b)) by (now rewrite n_components_spec, simple_filter).
  rewrite NC. split; [rewrite LB; cbn [length]; lia|].
  intros wo u0 u1 uc U Z0 UC LT. assert (P : (0 < length (bs_bdfs b))%nat) by (rewrite LB; cbn [length]; lia).
  rewrite (sample_at b wo u0 u1 uc 0 lb); [|exact FS|exact UC|now rewrite LB| |left; cbn [INR]; lra].
  2:{ cbn [INR]. apply Rmult_le_pos; [exact UC|apply pos_INR]. }
  assert (ZL : vz (w2l b wo) = vdot wo n) by (rewrite w2l_z, NN; reflexivity).
  destruct (pass_through (vsub (spec 1) (positive_part (op q))) (w2l b wo) u0 u1) as (f & S0 & V).
  { now apply w2l_unit. } { rewrite ZL. exact Z0. }
  fold lb in S0. rewrite S0. cbn [bind]. rewrite Reqb1. eexists; eexists; split; [reflexivity|].
  cbn [sm_pdf sm_type sm_wi sm_f]. split; [reflexivity|]. split; [field; apply not_0_INR; lia|]. split; [reflexivity|].
  split; [rewrite <- ZL; exact V|]. intros WA. rewrite l2w_scale, (proj2 (l2w_axes b OK) WA).
  unfold vscale, vneg, vmap. f_equal; ring.
Qed.
Lemma black_zero v : nearly_black (smul vzero v).
Proof. unfold nearly_black, smul, vmap2, vzero; cbn. unfold EPS. lra. Qed.
Lemma black_smul o v : spec_ge0 o -> vx o <= 1 -> vy o <= 1 -> vz o <= 1 -> nearly_black (positive_part v) -> nearly_black (smul o (positive_part v)).
Proof.
  intros (A & B & C) A1 B1 C1 (X & Y & Z0). destruct (positive_ge0 v) as (P & Q & R0).
  unfold nearly_black, smul, vmap2. cbn [vx vy vz]. repeat split; nra.
Qed.
(** a fully transparent material only passes light through; a fully opaque one without Kt passes none *)
Lemma uber_clear kd ks kr kt ro op eta flip g s : let q := at_hit flip s in
  0 < ro q -> positive_part (op q) = vzero ->
  exists b, get_bsdf (Uber kd ks kr kt ro op eta None) flip g s = Ok b /\ n_components b ALL = 1%nat /\
    forall wo wi flags, bsdf_f b wo wi flags = Ok vzero.
Proof.
  intros q RO Z0. destruct (uber_shape kd ks kr kt ro op eta flip g s RO) as (b & d & GB & SN & TN & NN & NG & LB & _).
  fold q in LB. exists b. split; [exact GB|]. rewrite Z0 in LB.
  assert (K : forall v, sblack (smul vzero v) = true) by (intros; apply sblack_iff, black_zero).
  rewrite !K in LB. cbn [opt_lobe app] in LB.
  assert (W : is_white vzero = false) by (destruct (is_white vzero) eqn:C; [apply white_iff in C; unfold vzero in C; injection C; lra|reflexivity]).
  rewrite W in LB. cbn [opt_lobe app] in LB. split.
  - rewrite n_components_spec, simple_filter; rewrite LB; [reflexivity|repeat constructor].
  - intros. apply specular_f0. rewrite LB. repeat constructor.
Qed.
Lemma sum_f_nomatch l flags wo wi : List.Forall (fun b => match_flag b flags = false) l -> forall acc, sum_f l flags wo wi acc = Ok acc.
Proof. induction 1; intros acc; cbn [sum_f]; [reflexivity|]. now rewrite H. Qed.
Lemma pick_in l flags x : forall z, pick l flags z = Some x -> In x l.
Proof.
  induction l as [|y l IH]; intros z; cbn [pick]; [discriminate|].
  destruct (match_flag y flags); [destruct (z =? 0)%Z|]; intros PK.
  - injection PK as ->. now left.
  - right. eauto.
  - right. eauto.
Qed.
Definition refl_type (b : bdf) : Prop := match b with Lambertian _ | Microfacet _ _ _ | SpecularReflection _ _ => True | _ => False end.
Lemma opt_refl c b : refl_type b -> List.Forall refl_type (opt_lobe c b).
Proof. destruct c; cbn; auto. Qed.
Lemma uber_opaque kd ks kr kt ro op eta flip g s : let q := at_hit flip s in
  0 < ro q -> positive_part (op q) = mkV 1 1 1 -> nearly_black (positive_part (kt q)) ->
  exists b, get_bsdf (Uber kd ks kr kt ro op eta None) flip g s = Ok b /\
    n_components b 18 = 0%nat /\ (forall wo wi, ~ same_side (dg_nn g) wo wi -> bsdf_f b wo wi ALL = Ok vzero) /\
    (forall wo u0 u1 uc smp, bsdf_sample b wo u0 u1 uc ALL = Ok smp -> sm_type smp <> Some 18%Z).
Proof.
  intros q RO Z0 KT. destruct (uber_shape kd ks kr kt ro op eta flip g s RO) as (b & d & GB & SN & TN & NN & NG & LB & _).
  fold q in LB. exists b. split; [exact GB|].
  assert (K : sblack (smul (positive_part (op q)) (positive_part (kt q))) = true).
  { apply sblack_iff. rewrite Z0. apply black_smul; cbn; try lra; auto. unfold spec_ge0; cbn; lra. }
  rewrite K in LB. assert (W : is_white (positive_part (op q)) = true) by (now apply white_iff).
  rewrite W in LB. cbn [opt_lobe app] in LB. rewrite app_nil_r in LB.
  assert (FR : List.Forall refl_type (bs_bdfs b)).
  { rewrite LB. repeat (apply Forall_app; split); apply opt_refl; exact I. }
  split; [|split].
  - rewrite n_components_spec. clear LB. induction FR as [|x l HX FR IH]; [reflexivity|]. cbn [filter].
    destruct x; try contradiction; cbn [match_flag bdf_type]; exact IH.
  - intros wo wi NS. unfold bsdf_f, side_flags. rewrite NG. unfold same_side in NS.
    replace (Rltb 0 _) with false by (symmetry; apply Rltb_false; lra). change (spec 0) with vzero. apply sum_f_nomatch.
    eapply Forall_impl; [|exact FR]. intros x HX. destruct x; try contradiction; reflexivity.
  - intros wo u0 u1 uc smp H Q. unfold bsdf_sample in H. cbv zeta in H.
    destruct (n_components b ALL =? 0)%nat; [injection H as <-; discriminate|].
    destruct (pick (bs_bdfs b) ALL _) as [x|] eqn:PK; [|discriminate].
    apply pick_in in PK. rewrite List.Forall_forall in FR. specialize (FR x PK).
    assert (T : bdf_type x <> 18%Z) by (destruct x; try contradiction; discriminate).
    destruct (bdf_sample x (w2l b wo) u0 u1) as [[pdf o]|]; cbn [bind] in H; [|discriminate].
    destruct (Reqb pdf 0); [injection H as <-; cbn in Q; congruence|].
    destruct o as [[wi f]|]; [|discriminate]. injection H as <-; cbn in Q; congruence.
Qed.

(** ** Witness: a flat patch at the origin, seen at sin = 4/5, index 4/3 *)
Definition patch : dgeom := mkDG vzero (mkV 1 0 0) (mkV 0 1 0) vzero vzero (mkV 0 0 1) 0 0 0 0 0 0 vzero vzero.
Definition wo_w : vec := mkV (4/5) 0 (3/5).
Lemma normalize_e v : unit v -> normalize v = v.
Proof. intros U. pose proof (normalize_pos_scale 1 v ltac:(lra) U) as H. replace (vscale 1 v) with v in H; [exact H|].
  destruct v; unfold vscale, vmap; cbn; f_equal; ring. Qed.
Lemma patch_regular : regular patch.
Proof. unfold regular, patch, vcross, vzero; cbn. intros H; injection H; lra. Qed.
Lemma patch_hit : at_hit false patch = patch.
Proof.
  unfold at_hit, patch. cbn [dg_p dg_dpdu dg_dpdv dg_dndu dg_dndv dg_u dg_v]. f_equal.
  replace (vcross (mkV 1 0 0) (mkV 0 1 0)) with (mkV 0 0 1) by (unfold vcross; cbn; f_equal; ring).
  rewrite normalize_e by (unfold unit; cbn; lra). unfold vscale, vmap; cbn; f_equal; ring.
Qed.
Lemma wo_unit : unit wo_w. Proof. unfold unit, wo_w; cbn; lra. Qed.
Lemma wo_dot : vdot wo_w (mkV 0 0 1) = 3/5. Proof. unfold vdot, wo_w; cbn; lra. Qed.
Lemma sqrt_is x y : 0 <= y -> x = y * y -> sqrt x = y.
Proof. intros H ->. now apply sqrt_square. Qed.
Lemma fr_in : fr_diel_call 1 (4/3) (3/5) = 49/1250.
Proof.
  unfold fr_diel_call. rewrite (clip_id (3/5)) by lra. replace (Rltb (3/5) 0) with false by (symmetry; apply Rltb_false; lra).
  cbv zeta. rewrite sin_sq_clip by lra. rewrite (sqrt_is (1 - 3/5 * (3/5)) (4/5)) by lra.
  replace (Rleb 1 (1 / (4/3) * (4/5))) with false by (symmetry; apply Rleb_false; lra).
  replace (pmax 0 (1 - 1 / (4 / 3) * (4 / 5) * (1 / (4 / 3) * (4 / 5)))) with (16/25) by (rewrite pmax_Rmax, Rmax_right; lra).
  rewrite (sqrt_is (16/25) (4/5)) by lra. rewrite Rabs_pos_eq by lra. unfold fr_diel. field.
Qed.
Lemma fr_out : fr_diel_call (4/3) 1 (3/5) = 1.
Proof.
  apply fr_diel_tir; try lra. replace (Rltb (3/5) 0) with false by (symmetry; apply Rltb_false; lra).
  rewrite (sqrt_is (1 - 3/5 * (3/5)) (4/5)) by lra. lra.
Qed.
Lemma fr_book : fresnel_dielectric (3/5) (4/5) 1 (4/3) = 49/1250.
Proof. unfold fresnel_dielectric, Rsqr. field. Qed.
Lemma white_nb : ~ nearly_black (positive_part (spec 1)).
Proof. unfold nearly_black, positive_part, spec, EPS; cbn. rewrite Rmax_right by lra. lra. Qed.
Lemma pos_spec c : 0 <= c -> positive_part (spec c) = spec c.
Proof. intros. unfold positive_part, spec; cbn. now rewrite Rmax_right by lra. Qed.
Lemma glass_lost : exists b, get_bsdf (Glass (fun _ => spec 1) (fun _ => spec 1) (fun _ => 4/3) None) false patch patch = Ok b /\
  (forall u0 u1 uc, 0 <= uc < 1/2 -> exists smp, bsdf_sample b wo_w u0 u1 uc ALL = Ok smp /\ sm_pdf smp = 1/2 /\
     vscale (3/5) (sm_f smp) = spec (49/1250)) /\
  (forall u0 u1 uc, 1/2 <= uc < 1 -> bsdf_sample b wo_w u0 u1 uc ALL = Ok (mkSmp 0 None (Some 18%Z) vzero)).
Proof.
  pose proof (glass_spec (fun _ => spec 1) (fun _ => spec 1) (fun _ => 4/3) false patch patch wo_w patch_regular) as G.
  cbv zeta in G. rewrite patch_hit in G. change (dg_nn patch) with (mkV 0 0 1) in G. rewrite wo_dot in G.
  destruct G as (b & F & GB & FE & G1 & _ & G3); try apply white_nb; try apply wo_unit; try lra.
  exists b. split; [exact GB|]. rewrite fr_in in FE. split.
  - intros u0 u1 uc UC. destruct (G1 u0 u1 uc UC) as (smp & wi & S0 & P & _ & _ & V & _). exists smp.
    split; [exact S0|]. split; [exact P|]. rewrite Rabs_pos_eq in V by lra. rewrite V, FE, pos_spec by lra.
    unfold vscale, vmap, spec; cbn. f_equal; lra.
  - intros u0 u1 uc UC. apply (G3 u0 u1 uc UC). unfold glass_ratio.
    replace (Rltb 0 (3/5)) with true by (symmetry; apply Rltb_true; lra). lra.
Qed.
Lemma uber_inverted : exists b, get_bsdf (Uber (fun _ => spec 0) (fun _ => spec 0) (fun _ => spec 1) (fun _ => spec 0) (fun _ => 1)
    (fun _ => spec 1) (fun _ => 4/3) None) false patch patch = Ok b /\
  (forall u0 u1 uc, 0 <= uc < 1 -> exists smp, bsdf_sample b wo_w u0 u1 uc ALL = Ok smp /\ sm_pdf smp = 1 /\ 
     vscale (3/5) (sm_f smp) = spec 1).
Proof.
  destruct (uber_shape (fun _ => spec 0) (fun _ => spec 0) (fun _ => spec 1) (fun _ => spec 0) (fun _ => 1)
    (fun _ => spec 1) (fun _ => 4/3) false patch patch ltac:(lra)) as (b & d & GB & SN & TN & NN & NG & LB & _).
  rewrite patch_hit in *. exists b. split; [exact GB|]. rewrite !pos_spec in LB by lra. rewrite !smul_1 in LB.
  assert (W : is_white (spec 1) = true) by (now apply white_iff). rewrite W in LB.
  assert (K0 : sblack (spec 0) = true) by (apply sblack_iff; unfold nearly_black, spec, EPS; cbn; lra).
  assert (K1 : sblack (spec 1) = false) by (apply sblack_niff; unfold nearly_black, spec, EPS; cbn; lra).
  rewrite K0, K1 in LB. cbn [opt_lobe app] in LB. intros u0 u1 uc UC.
  set (lb := SpecularReflection _ _) in LB.
  rewrite (sample_at b wo_w u0 u1 uc 0 lb); rewrite ?LB; cbn [length INR nth_error]; auto; try lra.
  2:{ repeat constructor. } 
  cbn [lb bdf_sample bind]. rewrite Reqb1. eexists; split; [reflexivity|]. cbn [sm_pdf sm_f]. split; [field|].
  unfold cos_theta, abs_cos_theta, mirror_dir. cbn [vz]. rewrite w2l_z, NN. change (dg_nn patch) with (mkV 0 0 1).
  rewrite wo_dot. cbn [fresnel_call]. rewrite fr_out, smul_1. rewrite Rabs_pos_eq by lra.
  unfold vscale, sdiv, vmap, spec; cbn; f_equal; field.
Qed.

(** ** Mix, subsurface *)
Lemma mix_fails m1 m2 sc flip g s b1 b2 : get_bsdf m1 flip g s = Ok b1 -> get_bsdf m2 flip g s = Ok b2 ->
  (bs_bdfs b1 <> [] \/ bs_bdfs b2 <> []) -> get_bsdf (Mix m1 m2 sc) flip g s = Err TypeError.
Proof.
  intros A B H. cbn [get_bsdf]. rewrite A, B. cbn [bind]. destruct (bs_bdfs b1), (bs_bdfs b2); try reflexivity.
  destruct H; congruence.
Qed.
