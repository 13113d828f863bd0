(** Property theorems C290: what a path of one surface shows on average.  Vocabulary: S_Integrator2.v, S_Brighter.v, S_World.v. *)
From Coq Require Import Reals Lra Lia List ZArith Bool.
From Verif Require Import Base M_MonteCarlo M_Aggregate M_Utility M_Spectrum M_Sampler M_Film.
From Verif Require Import M_Geometry S_Geometry P_Geometry M_Transform S_Transform P_Transform P_Transform2 M_Shapes S_Shapes P_ShapesMore M_BVH S_BVH
  M_Reflection S_Reflection M_Light M_Primitive S_Scene P_Scene2 M_Material S_Material M_Integrator S_Integrator S_Integrator2 P_Integrator P_Integrator2 P_Integrator3 M_World S_World P_World P_World2
  S_Superpose P_Superpose S_Brighter P_Brighter P_Agree P_Integrator4 P_Integrator5 Props_Integrator Props_Integrator2 Props_World Props_Superpose Props_Brighter.
From Coquelicot Require Import Coquelicot.
Import ListNotations.
Open Scope R_scope.

Lemma path_first {V} (e : env V) u s po fuel r v k L k' c : path_li e u 0 s po fuel r v k = Some (Ok (L, k', c)) ->
  exists p b Ld k1, v_bsdf e v r = Ok (p, b) /\ path_direct e u s po 0 v r p (b_dgs_nn e v r) (vneg (rdir r)) b k = Ok (Ld, k1) /\
    L = vadd (v_le e v (vneg (rdir r))) Ld.
Proof.
  unfold path_li, path_run. destruct fuel as [|fuel]; cbn [path_loop]; [discriminate|]. unfold path_step. cbn [p_v p_r p_beta p_bounce p_L p_k p_spb p_calls Nat.eqb orb].
  destruct (v_bsdf e v r) as [[p b]|]; [|discriminate]. destruct (path_direct _ _ _ _ _ _ _ _ _ _ _ _) as [[Ld k1]|] eqn:ED; [|discriminate].
  cbv zeta. intros H. exists p, b, Ld, k1. split; [reflexivity|]. split; [exact ED|].
  set (L2 := vadd _ _) in H. assert (E2 : L2 = vadd (v_le e v (vneg (rdir r))) Ld).
  { unfold L2, vadd, smul, vmap2, spec. apply V3_eq; cbn; ring. }
  rewrite <- E2. clearbody L2. clear E2 ED. revert H. change (0 <? SAMPLE_DEPTH)%nat with true. change (SAMPLE_DEPTH <? 0)%nat with false. cbv iota.
  destruct (path_smp_of s po 0) as [[[a0 a1] a2]|]; cbn [bind]; [|discriminate].
  destruct (bsdf_sample b (vneg (rdir r)) a0 a1 a2 ALL) as [sm|]; [|discriminate]. destruct (_ || _); [now intros [= <- _ _]|]. destruct (sm_wi sm); [|discriminate].
  change (false || (Z.of_nat 0 =? 0)%Z) with true. cbv iota. now intros [= <- _ _].
Qed.

(** C290: a scene without medium whose lights are all delta lights of non-negative radiance, where no surface reflects
    negatively.  Let L be what the Whitted integrator returns for a ray which meets a surface and is not traced further,
    and F x what the path integrator with maximum depth 0 returns there when the number stored for choosing the light is
    x; all other samples and random numbers may be whatever they are.  Then L is the mean of F over the uniform x. *)
Theorem C290_mean (V : Type) (e : env V) (u0 : nat -> R) (md : Z) (time : R) (f0 : nat) (r r1 : raydiff) (i v : V) (k0 : nat) L T i' k' n
    (u : R -> nat -> R) (s : R -> sample) (po : list path_offs) (o : path_offs) (fuel : nat) (k : R -> nat) (F : R -> vec) :
  vol e = None -> (forall l, In l (lights e) -> lt_delta l = true /\ gives_light l) ->
  (forall v q p b, v_bsdf e v q = Ok (p, b) -> forall wo wi f, bsdf_f b wo wi ALL = Ok f -> spec_ge0 f) ->
  hit e r = (r1, Some v) -> (md <= rdepth (rd_ray r1) + 1)%Z ->
  renderer_li e u0 md time (whitted_local e u0) f0 r i k0 = Some (Ok (L, T, i', k', n)) ->
  nth_error po 0 = Some o -> (forall x, 0 < x < 1 -> exists rest, nth_error (oneD (s x)) (po_num o) = Some (x :: rest)) ->
  (forall x, 0 < x < 1 -> exists k'' c, path_li e (u x) 0 (s x) po fuel r1 v (k x) = Some (Ok (F x, k'', c))) ->
  expected F L.
Proof.
  intros NV HL HF EH HM HW EO HS HP.
  destruct f0 as [|f0]; cbn [renderer_li] in HW; [discriminate|]. destruct (negb _); [discriminate|]. rewrite EH, NV in HW. unfold surf_li in HW.
  destruct (v_bsdf e v r1) as [[p b]|] eqn:EB; cbn [obind] in HW; [|discriminate].
  destruct (whitted_local _ _ _ _ _ _ _ _ _) as [[Ld k1]|] eqn:E1; cbn [obind] in HW; [|discriminate].
  replace (rdepth (rd_ray r1) + 1 <? md)%Z with false in HW by (symmetry; apply Z.ltb_ge; exact HM). cbn [obind] in HW. injection HW as <- _ _ _ _.
  set (le := v_le e v (vneg (rdir r1))).
  apply C131_whitted_sum in E1 as (xs & LX & -> & _ & WX); [|exact NV].
  assert (FX : forall x, 0 < x < 1 -> F x = vadd le (vscale (INR (length xs)) (nth (Z.to_nat (light_index x (length xs))) xs vzero))).
  { intros x Hx. destruct (HP x Hx) as (k'' & c & HX). apply path_first in HX as (p' & b' & Ld & k2 & EB' & ED & ->). rewrite EB in EB'. injection EB' as <- <-.
    f_equal. unfold path_direct in ED. change (0 <? SAMPLE_DEPTH)%nat with true in ED. cbv iota in ED. unfold idx in ED. rewrite EO in ED. cbn [bind] in ED.
    destruct (lights e) as [|l0 ls0] eqn:EL.
    { destruct xs; [|discriminate LX]. rewrite C133_no_light in ED by exact EL. injection ED as <- _. cbn [length INR]. unfold vscale, vmap, spec. apply V3_eq; cbn; ring. }
    rewrite <- EL in *. assert (NE : lights e <> []) by (rewrite EL; discriminate).
    apply C133_one_light in ED as (y & a & c' & k3 & l & Le & (Y & _ & _ & _) & GL & EE & ->); [|exact NE].
    destruct Y as (l1 & Y1 & Y2). destruct (HS x Hx) as (rest & HR). rewrite HR in Y1. injection Y1 as <-. cbn in Y2. injection Y2 as <-.
    specialize (GL ltac:(lra)). rewrite LX. f_equal.
    set (j := Z.to_nat (light_index x (length (lights e)))) in *.
    assert (J : (j < length xs)%nat) by (rewrite LX; apply nth_error_Some; congruence).
    pose proof (nth_error_nth' xs vzero J) as EX. specialize (WX j l _ GL EX).
    destruct (HL l (nth_error_In _ _ GL)) as [DL GV].
    apply (whitted_delta e _ _ _ _ _ _ _ _ a) in WX; [|exact GV|intros wi f; apply (HF _ _ _ _ EB)].
    pose proof (proj2 (C132_delta_estimate V e l p (b_dgs_nn e v r1) (vneg (rdir r1)) (v_eps e v) (rtime (rd_ray r1)) b a c' k3 _ k3 NV DL) (conj WX eq_refl)) as E2.
    unfold rtm in EE. rewrite E2 in EE. now injection EE as <- _. }
  destruct xs as [|x0 xs0].
  { assert (E0 : vadd le (vsum []) = le) by (change (vsum []) with (spec 0); unfold vadd, vmap2, spec; destruct le; apply V3_eq; cbn; ring). rewrite E0.
    assert (F0 : forall x, 0 < x < 1 -> F x = le). { intros x Hx. rewrite (FX x Hx). unfold vadd, vscale, vmap, vmap2. destruct le. apply V3_eq; cbn; ring. }
    assert (C0 : forall g : vec -> R, is_RInt (fun x => g (F x)) 0 1 (g le)).
    { intros g. apply (is_RInt_ext (fun _ => g le)).
      - intros x Hx. rewrite Rmin_left, Rmax_right in Hx by lra. now rewrite F0.
      - pose proof (const_int (g le) 0 1) as CI. replace ((1 - 0) * g le) with (g le) in CI by ring. exact CI. }
    repeat split; apply C0. }
  set (xs := x0 :: xs0) in *. destruct (C133_unbiased_choice xs vzero ltac:(discriminate)) as (A & B & C).
  assert (C1 : forall g : vec -> R, (forall a c, g (vadd a c) = g a + g c) ->
    is_RInt (fun x => g (vscale (INR (length xs)) (nth (Z.to_nat (light_index x (length xs))) xs vzero))) 0 1 (g (vsum xs)) -> is_RInt (fun x => g (F x)) 0 1 (g (vadd le (vsum xs)))).
  { intros g GA GI. rewrite GA. apply (is_RInt_ext (fun x => plus (g le) (g (vscale (INR (length xs)) (nth (Z.to_nat (light_index x (length xs))) xs vzero))))).
    - intros x Hx. rewrite Rmin_left, Rmax_right in Hx by lra. rewrite (FX x Hx), GA. reflexivity.
    - apply (is_RInt_plus (fun _ => g le)); [|exact GI]. pose proof (const_int (g le) 0 1) as CI. replace ((1 - 0) * g le) with (g le) in CI by ring. exact CI. }
  split; [|split]; apply C1; try assumption; reflexivity.
Qed.
Print Assumptions C290_mean.

(** So on average a path of one surface shows a diffuse scene as the light falls on it (C270): [F x] as above. *)
Theorem C290_diffuse (mp : nat) (items : list item) (nu nv : Z) (colour : nat -> vec) (mats : nat -> material)
    diffs (lamps : list lamp) (r : raydiff) :
  let prims := full_refine_items items nu nv in
  (mp <= 4)%nat -> List.Forall (fun it => geom_ok (it_geom it)) items -> (forall it, In it items -> plain_item it) ->
  ((length prims <= 65)%nat \/ forall bounds t o n, prim_bounds prims = Ok bounds ->
     bvh_build SAH mp bounds = Ok (t, o, n) -> (theight t <= 64)%nat) ->
  diffuse_mats mats colour -> clear_ray items prims (rd_ray r) -> off_poles items (rd_ray r) ->
  (forall it t l, In it items -> touches (it_geom it) (rd_ray r) t -> In l lamps ->
     lp_pos l <> ray_at (rd_ray r) t /\ clear_ray items prims (sight (ray_at (rd_ray r) t) (lp_pos l) (offset_at (it_geom it) t) (rtime (rd_ray r)))) ->
  (forall l, In l lamps -> spec_ge0 (lp_i l)) ->
  exists sc, scene_make mp prims = Ok sc /\ forall f0, (scene_size sc <= f0)%nat ->
    let e := env_of (mkW sc mats (map lamp_light lamps) f0 diffs) in
    forall r1 v, hit e r = (r1, Some v) -> exists L, shown items colour lamps (rd_ray r) L /\
      forall (u : R -> nat -> R) (s : R -> sample) (po : list path_offs) (o : path_offs) (fuel : nat) (k : R -> nat) (F : R -> vec),
      nth_error po 0 = Some o -> (forall x, 0 < x < 1 -> exists rest, nth_error (oneD (s x)) (po_num o) = Some (x :: rest)) ->
      (forall x, 0 < x < 1 -> exists k'' c, path_li e (u x) 0 (s x) po fuel r1 v (k x) = Some (Ok (F x, k'', c))) ->
      expected F L.
Proof.
  intros prims A B C D M E G F0 I0.
  pose proof (fun md => C270_lit mp items nu nv colour mats diffs lamps r (fun _ => /2) md 0 A B C D M E G F0) as Q.
  destruct (Q 0%Z) as (sc & HS & _). exists sc. split; [exact HS|]. intros f0 HF e r1 v EH.
  destruct (Q (rdepth (rd_ray r1))) as (sc' & HS' & Q1). fold prims in HS, HS'. rewrite HS in HS'. injection HS' as <-.
  destruct (Q1 f0 1%nat HF ltac:(lia)) as (L & T & i & k' & c & HW & SH). exists L. split; [exact SH|].
  intros u s po o fuel k F EO HX HP. unfold whitted in HW. fold e in HW.
  refine (C290_mean _ e (fun _ => /2) _ _ 1 r r1 isect_new v 0 L T i k' c u s po o fuel k F eq_refl _ _ EH _ HW EO HX HP).
  - intros l Hl. apply in_map_iff in Hl. destruct Hl as (x & <- & Hx). split; [reflexivity|]. apply lamp_gives. now apply I0.
  - intros v0 q p b. unfold e. cbn [env_of v_bsdf]. unfold world_bsdf, isect_bsdf. cbn [w_mats].
    destruct (is_prim v0) as [q0|]; [|discriminate]. destruct (is_dg v0) as [g|]; [|discriminate].
    destruct (shape_shading _ _) as [g'|]; cbn [bind]; [|discriminate].
    destruct (get_bsdf _ _ _ _) as [b'|] eqn:EB; cbn [bind]; [|discriminate]. intros [= _ <-]. refine (proj1 (C286_materials _ _ _ _ _ _ EB)).
    destruct (M (gp_material q0)) as (kd & sg & -> & _ & Q2). exact Q2.
  - lia.
Qed.
Print Assumptions C290_diffuse.

(** A grey diffuse surface that also glows, under two lamps overhead: the hypotheses hold. *)
Definition ex_two : env Datatypes.unit := mkEnv Datatypes.unit [ex_light; ex_light] (fun r => (r, Some tt)) (fun _ => false) (fun _ _ => spec 1)
  (fun _ => 0) (fun _ _ => Ok (mkV 0 0 0, w_bsdf)) (fun _ _ => mkV 0 0 1) (fun _ _ _ _ _ => (false, vzero, vzero, vzero, vzero)) None.
Lemma two_sample wo : exists s, bsdf_sample w_bsdf wo 0 0 0 ALL = Ok s /\ (sm_pdf s = 0 \/ exists wi, sm_wi s = Some wi).
Proof.
  unfold bsdf_sample. change (n_components w_bsdf ALL) with 1%nat. cbn [Nat.eqb]. unfold pick_index. rewrite Rmult_0_l.
  replace (Zfloor 0) with 0%Z by (symmetry; apply Zfloor_unique; lra). cbn [Z.min Z.of_nat Z.sub Z.add Z.opp Z.pos_sub Pos.of_succ_nat Z.to_nat Z.compare].
  change (pick (bs_bdfs w_bsdf) ALL _) with (Some (Lambertian (spec (/ 2)))). cbv iota.
  cbn [bdf_sample]. unfold base_sample. cbn [bdf_f bind]. set (pdf := bdf_pdf _ _ _).
  destruct (Reqb pdf 0) eqn:Q; (eexists; split; [reflexivity|]); [left; now apply Reqb_true in Q|right; eexists; reflexivity].
Qed.
Example C290_ex : vol ex_two = None /\ (forall l, In l (lights ex_two) -> lt_delta l = true /\ gives_light l) /\
  (forall v q p b, v_bsdf ex_two v q = Ok (p, b) -> forall wo wi f, bsdf_f b wo wi ALL = Ok f -> spec_ge0 f) /\
  let r := mkRD (mkRay (mkV 0 0 1) (mkV 0 0 (-1)) (mkV false false false) (Fin 0) PInf 0%Z 0) false vzero vzero vzero vzero in
  hit ex_two r = (r, Some tt) /\ (exists L T k n, renderer_li ex_two (fun _ => 0) 1 0 (whitted_local ex_two (fun _ => 0)) 1 r tt 0 = Some (Ok (L, T, tt, k, n))) /\
  exists s po o F, nth_error po 0 = Some o /\ (forall x, 0 < x < 1 -> exists rest, nth_error (oneD (s x)) (po_num o) = Some (x :: rest)) /\
    forall x, 0 < x < 1 -> exists k'' c, path_li ex_two (fun _ => 0) 0 (s x) po 1 r tt 0 = Some (Ok (F x, k'', c)).
Proof.
  pose proof w_f_bright as FB. pose proof w_f_nn as FN.
  assert (B1 : bright (spec 1)) by (left; unfold spec; cbn; lra). assert (N1 : nn (spec 1)) by (unfold nn, spec; cbn; lra).
  split; [reflexivity|]. split.
  { intros l [<-|[<-|[]]]; (split; [reflexivity|]; split; [intros p eps a a' t; reflexivity|]; split; [intros r; apply zero_ge0|]);
      intros p eps a t Li wi pdf vis; cbn [ex_light lt_sample]; intros [= <- _ <- _]; (split; [exact N1|lra]). }
  split.
  { intros v q p b [= <- <-] wo wi f H. unfold bsdf_f in H. revert H. generalize (side_flags w_bsdf wo wi ALL). intros y. cbn [w_bsdf bs_bdfs sum_f].
    destruct (match_flag _ _); cbn [bdf_f bind sum_f]; intros [= <-]; [|apply zero_ge0]. exact FN. }
  intros r. split; [reflexivity|].
  set (x := vscale (Rabs (vdot (mkV 0 0 1) (mkV 0 0 1)) / 1) (smul w_f (spec 1))).
  assert (HN : vneg (rdir r) = mkV 0 0 1) by (unfold vneg, vmap, rdir, r; cbn; apply V3_eq; cbn; ring).
  split.
  { cbn [renderer_li]. change (rtm r) with 0. destruct (Reqb 0 0) eqn:Q; [|exfalso; apply Reqb_false in Q; lra]. cbn [negb ex_two hit]. fold ex_two. unfold surf_li. cbn [ex_two v_bsdf b_dgs_nn]. fold ex_two. rewrite HN.
    assert (EW : whitted_local ex_two (fun _ => 0) tt r (mkV 0 0 0) (mkV 0 0 1) (mkV 0 0 1) w_bsdf 0 = Ok (vsum [x; x], 6%nat)).
    { apply C131_whitted_sum; [reflexivity|]. exists [x; x]. split; [reflexivity|]. split; [reflexivity|]. split; [reflexivity|].
      intros [|[|[|i]]] l y; cbn [nth_error ex_two lights]; try discriminate; intros [= <-] [= <-]; do 4 eexists; (split; [reflexivity|]); left; (split; [exact B1|]); (split; [lra|]);
      exists w_f; (split; [apply w_bsdf_f; now left|]); left; (split; [exact FB|]); split; reflexivity. }
    rewrite EW. change (rdepth (rd_ray r) + 1 <? 1)%Z with false. cbn [obind ex_two vol]. eexists _, _, _, _. reflexivity. }
  exists (fun x => mkS 0 0 0 0 0 [] [] [[x]; [0]] [[(0, 0)]]), [mkPO 0 (mkOff 1 1 0) (mkOff 1 1 0) (mkOff 1 1 0)], (mkPO 0 (mkOff 1 1 0) (mkOff 1 1 0) (mkOff 1 1 0)).
  exists (fun _ => vadd (vadd (spec 0) (smul (spec 1) (spec 1))) (smul (spec 1) (vscale (INR 2) x))). split; [reflexivity|]. split; [intros y _; exists []; reflexivity|].
  intros y Hy. set (s := mkS 0 0 0 0 0 _ _ _ _). set (po := [_]). unfold path_li, path_run. cbn [path_loop]. unfold path_step. cbn [p_v p_r p_beta p_bounce p_L p_k p_spb p_calls Nat.eqb orb].
  cbn [ex_two v_bsdf b_dgs_nn v_le]. fold ex_two. rewrite HN.
  assert (ED : path_direct ex_two (fun _ => 0) s po 0 tt r (mkV 0 0 0) (mkV 0 0 1) (mkV 0 0 1) w_bsdf 0 = Ok (vscale (INR 2) x, 0%nat)).
  { unfold path_direct. change (0 <? SAMPLE_DEPTH)%nat with true. cbv iota. unfold po, idx. cbn [nth_error bind po_num po_light po_bsdf]. unfold uniform_sample_one_light.
    change (length (lights ex_two)) with 2%nat. cbn [Nat.eqb]. unfold idx. cbn [s oneD nth_error bind].
    pose proof (light_index_range y 2 ltac:(lia) ltac:(lra)) as LI.
    assert (EG : get1 (lights ex_two) (light_index y 2) = Ok ex_light).
    { assert (light_index y 2 = 0%Z \/ light_index y 2 = 1%Z) as [-> | ->] by lia; reflexivity. }
    rewrite EG. cbn [bind]. assert (SS : smp_from_sample s (mkOff 1 1 0) 0 = Ok (0, 0, 0)) by reflexivity. rewrite !SS. cbn [bind].
    assert (EE : forall a c k, estimate_direct ex_two ex_light (mkV 0 0 0) (mkV 0 0 1) (mkV 0 0 1) (v_eps ex_two tt) (rtm r) w_bsdf a c NOSPEC k = Ok (x, k)).
    { intros a c k. apply C132_delta_estimate; [reflexivity|reflexivity|]. split; [|reflexivity]. do 4 eexists. split; [reflexivity|].
      left. split; [now apply nn_black|]. split; [lra|]. exists w_f. split; [apply w_bsdf_f; now right|]. left.
      split; [now apply nn_black|]. split; reflexivity. }
    rewrite EE. reflexivity. }
  rewrite ED. cbv zeta. change (0 <? SAMPLE_DEPTH)%nat with true. change (SAMPLE_DEPTH <? 0)%nat with false. cbv iota.
  assert (EP : path_smp_of s po 0 = Ok (0, 0, 0)) by reflexivity. rewrite EP. cbn [bind].
  destruct (two_sample (mkV 0 0 1)) as (sm & -> & HSM). destruct (spec_is_black (sm_f sm) || Reqb (sm_pdf sm) 0) eqn:QB; [eexists _, _; reflexivity|].
  apply orb_false_iff in QB. destruct QB as [_ QB]. apply Reqb_false in QB. destruct HSM as [H0|(wi & ->)]; [contradiction|].
  change (false || (Z.of_nat 0 =? 0)%Z) with true. cbv iota. eexists _, _. reflexivity.
Qed.
