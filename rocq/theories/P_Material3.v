From Coq Require Import String.
From Coq Require Import Reals Lra Lia List ZArith Bool.
From Verif Require Import Base M_Geometry S_Geometry P_Geometry M_Transform M_MonteCarlo M_Film M_Shapes M_Reflection S_Reflection
  P_Reflection P_Reflection2 P_Reflection3 P_LobeSampling P_Reciprocity P_Fresnel M_Material S_Material P_Material P_Material2.
From Verif Require M_Utility.
Import ListNotations.
Open Scope R_scope.

Lemma simple_match b : simple_lobe b -> match_flag b ALL = true.
Proof. destruct b; cbn [simple_lobe]; intros H; try contradiction; reflexivity. Qed.
Lemma simple_filter l : List.Forall simple_lobe l -> filter (fun b => match_flag b ALL) l = l.
Proof. induction 1; cbn [filter]; [reflexivity|]. now rewrite simple_match, IHForall. Qed.
Lemma pick_index_at uc n j : 0 <= uc -> (j < n)%nat -> INR j <= uc * INR n -> uc * INR n < INR j + 1 \/ j = (n - 1)%nat ->
  pick_index uc n = Z.of_nat j.
Proof.
  intros H J A B. unfold pick_index. destruct (Zfloor_spec (uc * INR n)) as [F1 F2].
  assert (L : (Z.of_nat j <= Zfloor (uc * INR n))%Z).
  { apply Zfloor_ge. now rewrite <- INR_IZR_INZ. }
  destruct B as [B| ->].
  - assert ((Zfloor (uc * INR n) < Z.of_nat j + 1)%Z).
    { apply Zfloor_lt. rewrite plus_IZR, <- INR_IZR_INZ. exact B. }
    lia.
  - lia.
Qed.
Lemma sample_at s wo u0 u1 uc j b : List.Forall simple_lobe (bs_bdfs s) -> 0 <= uc ->
  nth_error (bs_bdfs s) j = Some b -> INR j <= uc * INR (length (bs_bdfs s)) ->
  uc * INR (length (bs_bdfs s)) < INR j + 1 \/ j = (length (bs_bdfs s) - 1)%nat ->
  bsdf_sample s wo u0 u1 uc ALL =
  (do r <- bdf_sample b (w2l s wo) u0 u1;
   let '(pdf, o) := r in
   if Reqb pdf 0 then Ok (mkSmp pdf None (Some (bdf_type b)) (spec 0))
   else match o with None => Err AttributeError | Some (wi, f) =>
     Ok (mkSmp (pdf / INR (length (bs_bdfs s))) (Some (l2w s wi)) (Some (bdf_type b)) f) end).
Proof.
  intros F U NE A B. assert (J : (j < length (bs_bdfs s))%nat) by (apply nth_error_Some; congruence).
  unfold bsdf_sample. rewrite n_components_spec, simple_filter by exact F. cbv zeta.
  destruct (length (bs_bdfs s) =? 0)%nat eqn:Z0; [apply Nat.eqb_eq in Z0; lia|].
  rewrite (pick_index_at uc _ j) by assumption. rewrite pick_spec by lia. rewrite simple_filter by exact F.
  rewrite Nat2Z.id, NE. destruct (bdf_sample b (w2l s wo) u0 u1) as [[pdf [[wi f]|]]|]; cbn [bind]; try reflexivity.
  destruct (Reqb pdf 0); [reflexivity|]. do 2 f_equal.
  destruct (1 <? length (bs_bdfs s))%nat eqn:L1; [reflexivity|]. apply Nat.ltb_ge in L1.
  replace (length (bs_bdfs s)) with 1%nat by lia. cbn. field.
Qed.
Lemma specular_f0 s wo wi flags : List.Forall (fun b => match b with SpecularReflection _ _ | SpecularTransmission _ _ _ => True | _ => False end) (bs_bdfs s) ->
  bsdf_f s wo wi flags = Ok vzero.
Proof.
  intros F. unfold bsdf_f. change (spec 0) with vzero. induction F as [|b l Hb F IH]; cbn [sum_f]; [reflexivity|].
  assert (V : vadd vzero (spec 0) = vzero) by (change (spec 0) with vzero; apply vadd_0_l).
  destruct b; try contradiction; destruct (match_flag _ _); cbn [bdf_f bind]; rewrite ?V; exact IH.
Qed.
Lemma Reqb1 : Reqb 1 0 = false. Proof. apply Reqb_false; lra. Qed.
Lemma smul_1 v : smul (spec 1) v = v.
Proof. destruct v. unfold smul, spec, vmap2. cbn. f_equal; ring. Qed.
Lemma smul_spec c v : smul (spec c) v = vscale c v.
Proof. reflexivity. Qed.

(** ** Mirror *)
Lemma mirror_spec kr flip g s : regular s -> let q := at_hit flip s in let n := dg_nn q in
  exists b, get_bsdf (Mirror kr None) flip g s = Ok b /\
    (forall wo wi flags, bsdf_f b wo wi flags = Ok vzero) /\
    (nearly_black (positive_part (kr q)) -> forall wo u0 u1 uc, bsdf_sample b wo u0 u1 uc ALL = Ok (mkSmp 0 None None vzero)) /\
    (~ nearly_black (positive_part (kr q)) -> forall wo u0 u1 uc, unit wo -> vdot wo n <> 0 -> 0 <= uc ->
      exists smp wi, bsdf_sample b wo u0 u1 uc ALL = Ok smp /\ sm_pdf smp = 1 /\ sm_type smp = Some 17%Z /\
        sm_wi smp = Some wi /\ vscale (Rabs (vdot wo n)) (sm_f smp) = positive_part (kr q) /\
        (world_axes b -> wi = vsub (vscale (2 * vdot wo n) n) wo)).
Proof.
  intros RG q n. cbn [get_bsdf shading bind]. rewrite at_hit_copy, sclip_pos. fold q. eexists; split; [reflexivity|].
  set (b0 := bsdf_make q (dg_nn g)). assert (OK : bs_ok b0) by (now apply make_ok).
  split; [|split].
  - intros wo wi flags. apply specular_f0. destruct (sblack _); cbn; repeat constructor.
  - intros B. apply sblack_iff in B. rewrite B. reflexivity.
  - intros B wo u0 u1 uc U Z0 UC. apply sblack_niff in B. rewrite B.
    set (lb := SpecularReflection _ _). set (b := push_back b0 lb).
    rewrite (sample_at b wo u0 u1 uc 0 lb); cbn [b push_back bs_bdfs b0 bsdf_make app length INR nth_error]; auto.
    2:{ repeat constructor. } 2:{ lra. }
    cbn [lb bdf_sample bind]. rewrite Reqb1. eexists; eexists; split; [reflexivity|].
    cbn [sm_pdf sm_type sm_wi sm_f]. split; [field|]. split; [reflexivity|]. split; [reflexivity|]. split.
    + cbn [fresnel_call]. rewrite smul_1. unfold abs_cos_theta, mirror_dir, cos_theta. cbn [vz].
      change (w2l b wo) with (w2l b0 wo). rewrite w2l_z. change (bs_nn b0) with n. now apply sdiv_cancel.
    + intros W. apply (l2w_mirror b); [exact OK|exact W].
Qed.

(** ** Transmission *)
Lemma transmit_value t ei et wo u1 u2 : 0 < ei -> 0 < et -> unit wo -> vz wo <> 0 ->
  let k := used_ratio ei et wo in k * k * (1 - vz wo * vz wo) < 1 ->
  exists wi f, bdf_sample (SpecularTransmission t ei et) wo u1 u2 = Ok (1, Some (wi, f)) /\
    unit wi /\ vz wi * vz wo < 0 /\ vx wi = - k * vx wo /\ vy wi = - k * vy wo /\
    Rabs (vz wi) = sqrt (1 - k * k * (1 - vz wo * vz wo)) /\
    vscale (sqrt (1 - k * k * (1 - vz wo * vz wo))) f = vscale ((1 - fr_diel_call ei et (vz wo)) / (k * k)) t.
Proof.
  intros H1 H2 U Z0 k K. assert (SQ : 1 - vz wo * vz wo = vx wo * vx wo + vy wo * vy wo) by (unfold unit in U; lra).
  destruct (transmit_main t ei et wo u1 u2 H1 H2 U) as [M _]. cbv zeta in M. fold k in M. rewrite <- SQ in M.
  destruct (M K) as (wi & f & S0 & Uw & Sg & [R1 R2]). specialize (Sg Z0). exists wi, f. split; [exact S0|].
  split; [exact Uw|]. split; [exact Sg|]. split; [exact R1|]. split; [exact R2|].
  assert (AZ : Rabs (vz wi) = sqrt (1 - k * k * (1 - vz wo * vz wo))).
  { rewrite <- sqrt_Rsqr_abs. f_equal. unfold Rsqr. unfold unit in Uw. rewrite R1, R2 in Uw. rewrite SQ. lra. }
  split; [exact AZ|]. rewrite <- AZ. clear M.
  cbn [bdf_sample] in S0. unfold transmit_dir in S0.
  assert (KE : k = (let '(a, b) := if Rltb 0 (cos_theta wo) then (et, ei) else (ei, et) in a / b)).
  { unfold k, used_ratio, cos_theta. now destruct (Rltb 0 (vz wo)). }
  assert (POS : forall a b, (if Rltb 0 (cos_theta wo) then (et, ei) else (ei, et)) = (a, b) -> 0 < a /\ 0 < b).
  { intros a b. destruct (Rltb 0 (cos_theta wo)); intros [= <- <-]; auto. }
  destruct (if Rltb 0 (cos_theta wo) then (et, ei) else (ei, et)) as [a b] eqn:AB. destruct (POS a b eq_refl) as [PA PB].
  cbv zeta in S0. destruct (Rleb 1 _); [discriminate|]. injection S0 as S1 S2. rewrite S1 in S2. rewrite <- S2.
  unfold abs_cos_theta. assert (Z1 : vz wi <> 0) by (intros Q; rewrite Q in Sg; lra).
  rewrite sdiv_cancel by exact Z1. cbn [fresnel_call]. unfold cos_theta. rewrite KE.
  destruct t. unfold smul, vscale, vsub, spec, vmap, vmap2. cbn. f_equal; field; lra.
Qed.
Lemma transmit_blocked t ei et wo u1 u2 : 0 < ei -> 0 < et -> unit wo ->
  let k := used_ratio ei et wo in 1 <= k * k * (1 - vz wo * vz wo) ->
  bdf_sample (SpecularTransmission t ei et) wo u1 u2 = Ok (0, None).
Proof.
  intros H1 H2 U k K. apply (transmit_main t ei et wo u1 u2 H1 H2 U). fold k. unfold unit in U.
  replace (vx wo * vx wo + vy wo * vy wo) with (1 - vz wo * vz wo) by lra. exact K.
Qed.

(** ** Glass *)
Definition glass_ratio (ior c : R) : R := if Rltb 0 c then ior else 1 / ior.
Lemma glass_used ior s wo : used_ratio 1 ior (w2l s wo) = glass_ratio ior (vdot wo (bs_nn s)).
Proof. unfold used_ratio, glass_ratio. rewrite w2l_z. destruct (Rltb _ _); [field|reflexivity]. Qed.
Lemma unit_l2w s v : bs_ok s -> world_axes s -> unit v -> unit (l2w s v) /\ vdot (l2w s v) (bs_nn s) = vz v.
Proof.
  intros OK W U. pose proof (w2l_l2w_axes s v W) as E0. split.
  - unfold unit in *. change (vdot (l2w s v) (l2w s v) = 1). rewrite <- (w2l_dot s) by exact OK. rewrite E0. exact U.
  - rewrite <- w2l_z, E0. reflexivity.
Qed.
Lemma glass_shape kr kt ix flip g s : let q := at_hit flip s in
  ~ nearly_black (positive_part (kr q)) -> ~ nearly_black (positive_part (kt q)) ->
  get_bsdf (Glass kr kt ix None) flip g s = Ok (push_back (push_back (bsdf_make q (dg_nn g))
    (SpecularReflection (positive_part (kr q)) (FrDiel 1 (ix q)))) (SpecularTransmission (positive_part (kt q)) 1 (ix q))).
Proof.
  intros q A B. cbn [get_bsdf shading bind]. rewrite at_hit_copy, !sclip_pos. fold q.
  apply sblack_niff in A. apply sblack_niff in B. now rewrite A, B.
Qed.
Lemma glass_spec kr kt ix flip g s wo : regular s -> let q := at_hit flip s in let n := dg_nn q in let c := vdot wo n in
  let k := glass_ratio (ix q) c in
  0 < ix q -> ~ nearly_black (positive_part (kr q)) -> ~ nearly_black (positive_part (kt q)) -> unit wo -> c <> 0 ->
  exists b F, get_bsdf (Glass kr kt ix None) flip g s = Ok b /\ F = fr_diel_call 1 (ix q) c /\
    (forall u0 u1 uc, 0 <= uc < 1/2 -> exists smp wi, bsdf_sample b wo u0 u1 uc ALL = Ok smp /\ sm_pdf smp = 1/2 /\
       sm_type smp = Some 17%Z /\ sm_wi smp = Some wi /\ vscale (Rabs c) (sm_f smp) = vscale F (positive_part (kr q)) /\
       (world_axes b -> wi = vsub (vscale (2 * c) n) wo)) /\
    (forall u0 u1 uc, 1/2 <= uc < 1 -> k * k * (1 - c * c) < 1 -> exists smp wi, bsdf_sample b wo u0 u1 uc ALL = Ok smp /\
       sm_pdf smp = 1/2 /\ sm_type smp = Some 18%Z /\ sm_wi smp = Some wi /\
       vscale (sqrt (1 - k * k * (1 - c * c))) (sm_f smp) = vscale ((1 - F) / (k * k)) (positive_part (kt q)) /\
       (world_axes b -> unit wi /\ vdot wi n * c < 0 /\ Rabs (vdot wi n) = sqrt (1 - k * k * (1 - c * c)))) /\
    (forall u0 u1 uc, 1/2 <= uc < 1 -> 1 <= k * k * (1 - c * c) -> 
       bsdf_sample b wo u0 u1 uc ALL = Ok (mkSmp 0 None (Some 18%Z) vzero)).
Proof.
  intros RG q n c k I0 B1 B2 U Z0. rewrite (glass_shape kr kt ix flip g s B1 B2). fold q.
  set (b0 := bsdf_make q (dg_nn g)). assert (OK : bs_ok b0) by (now apply make_ok).
  set (l1 := SpecularReflection _ _). set (l2 := SpecularTransmission _ _ _). set (b := push_back (push_back b0 l1) l2).
  exists b, (fr_diel_call 1 (ix q) c). split; [reflexivity|]. split; [reflexivity|].
  assert (BB : bs_bdfs b = [l1; l2]) by reflexivity.
  assert (FS : List.Forall simple_lobe (bs_bdfs b)) by (rewrite BB; repeat constructor).
  assert (OKb : bs_ok b) by exact OK. assert (NN : bs_nn b = n) by reflexivity.
  assert (LL : INR (length (bs_bdfs b)) = 2) by (rewrite BB; cbn; ring).
  assert (UL : unit (w2l b wo)) by (now apply w2l_unit).
  assert (ZL : vz (w2l b wo) = c) by reflexivity.
  assert (KU : used_ratio 1 (ix q) (w2l b wo) = k) by (rewrite glass_used, NN; reflexivity).
  split; [|split].
  - intros u0 u1 uc UC. rewrite (sample_at b wo u0 u1 uc 0 l1); [|exact FS|lra|now rewrite BB|rewrite LL; cbn; lra|left; rewrite LL; cbn; lra].
    rewrite LL. cbn [l1 bdf_sample bind]. rewrite Reqb1. eexists; eexists; split; [reflexivity|].
    cbn [sm_pdf sm_type sm_wi sm_f]. split; [field|]. split; [reflexivity|]. split; [reflexivity|]. split.
    + cbn [fresnel_call]. rewrite smul_spec. unfold abs_cos_theta, mirror_dir, cos_theta. cbn [vz]. rewrite ZL. 
      now apply sdiv_cancel.
    + intros W. apply (l2w_mirror b); [exact OKb|exact W].
  - intros u0 u1 uc UC K. rewrite (sample_at b wo u0 u1 uc 1 l2); [|exact FS|lra|now rewrite BB|rewrite LL; cbn; lra|right; now rewrite BB].
    rewrite LL. destruct (transmit_value (positive_part (kt q)) 1 (ix q) (w2l b wo) u0 u1) as (wi & f & S0 & Uw & Sg & _ & _ & AZ & V);
      try assumption; try lra. { rewrite KU, ZL. exact K. }
    fold l2 in S0. rewrite S0. cbn [bind]. rewrite Reqb1. eexists; eexists; split; [reflexivity|].
    cbn [sm_pdf sm_type sm_wi sm_f]. split; [field|]. split; [reflexivity|]. split; [reflexivity|]. split.
    + rewrite KU, ZL in V. exact V.
    + intros W. destruct (unit_l2w b wi OKb W Uw) as [Q1 Q2]. rewrite NN in Q2. rewrite Q2. split; [exact Q1|].
      split; [rewrite <- ZL; exact Sg|]. rewrite AZ, KU, ZL. reflexivity.
  - intros u0 u1 uc UC K. rewrite (sample_at b wo u0 u1 uc 1 l2); [|exact FS|lra|now rewrite BB|rewrite LL; cbn; lra|right; now rewrite BB].
    unfold l2. rewrite transmit_blocked; try assumption; try lra. 2:{ rewrite KU, ZL. exact K. }
    cbn [bind]. replace (Reqb 0 0) with true by (symmetry; now apply Reqb_true). reflexivity.
Qed.
