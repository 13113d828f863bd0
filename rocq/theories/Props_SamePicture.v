(** Property theorems C299: pixel-identical pictures.  Vocabulary: S_Picture.v, S_Order.v, S_World.v. *)
From Coq Require Import Reals Lra Lia List ZArith Bool Permutation.
From Flocq Require Import Core.Raux.
From Verif Require Import Base M_MonteCarlo M_Aggregate M_Utility M_Spectrum M_Sampler S_Sampler M_Film S_Film P_Sampler P_Film P_Film3 P_Renderer.
From Verif Require Import M_Geometry S_Geometry P_Geometry P_LobeSampling M_Transform S_Transform P_Transform P_Transform2 M_Shapes S_Shapes P_ShapesMore M_BVH S_BVH
  M_Reflection S_Reflection M_Light M_Primitive S_Scene P_Scene P_Scene2 M_Material S_Material M_Integrator S_Integrator S_Integrator2 M_World S_World P_World
  P_World2 Props_Scene Props_World M_Renderer M_Render P_Render Props_Render S_Picture P_Picture M_World2 M_Camera S_Camera P_Camera Props_Picture
  S_Order P_Order Props_Order.
Import ListNotations.
Local Open Scope R_scope.

(** what the renderer deposits for a sample: [v], the radiance which the integrator returns for the camera's ray, or black if the ray meets nothing *)
Definition reports {W : Type} (cam : sample -> W -> res (R * raydiff * W)) (hitp : raydiff -> W -> res (bool * W))
    (li : raydiff -> sample -> W -> res (V3 E * W)) (n : nat) (smp : sample) (w : W) (v : vec) : Prop :=
  exists r w1 h w2, cam smp w = Ok (1, r, w1) /\ hitp (scale_differential r (1 / sqrt (INR n))) w1 = Ok (h, w2) /\ (h = false -> v = vzero) /\
    (h = true -> exists w3, li (scale_differential r (1 / sqrt (INR n))) smp w2 = Ok (vmap Fin v, w3)).

Section Same.
Context {W W' : Type} (cam : sample -> W -> res (R * raydiff * W)) (hitp : raydiff -> W -> res (bool * W)) (li : raydiff -> sample -> W -> res (V3 E * W))
  (cam' : sample -> W' -> res (R * raydiff * W')) (hitp' : raydiff -> W' -> res (bool * W')) (li' : raydiff -> sample -> W' -> res (V3 E * W')).
Variables (wx0 wx1 wy0 wy1 : Z) (xst yst : Z) (jitter : bool) (o c : R).
Hypotheses (HX : (wx0 < wx1)%Z) (HY : (wy0 < wy1)%Z).
Let s0 := stratified_make (IZR wx0) (IZR wx1) (IZR wy0) (IZR wy1) xst yst jitter o c.
Let n := (xSamples s0 * ySamples s0)%nat.
Variables (orig : sample) (rn : nat -> rnd).
Hypothesis RN : forall k, rnd_ok s0 (duplicate orig n) (rn k).
Hypothesis HS : forall smp w w', sent s0 orig wx0 wx1 wy0 wy1 smp -> exists v, reports cam hitp li n smp w v /\ reports cam' hitp' li' n smp w' v.

Lemma shade_reports {V : Type} (cm : sample -> V -> res (R * raydiff * V)) hp l smp w v : reports cm hp l n smp w v ->
  exists w', shade cm hp l false n smp w = Ok (sanitise (vmap Fin v), w').
Proof.
  intros (r & w1 & h & w2 & C & HP & H0 & H1). unfold shade. rewrite C. cbn [bind]. rewrite HP. cbn [bind].
  replace (Rltb 0 1) with true by (symmetry; apply Rltb_true; lra). rewrite andb_true_r. destruct h.
  - destruct (H1 eq_refl) as (w3 & ->). cbn [bind]. eexists. f_equal. f_equal. f_equal. unfold vmap; cbn. now rewrite !Rmult_1_r.
  - rewrite (H0 eq_refl). eexists. reflexivity.
Qed.
Lemma shade_all_same l : List.Forall (sent s0 orig wx0 wx1 wy0 wy1) l -> forall w w', exists Ls w1 w1',
  shade_all cam hitp li false n l w = Ok (Ls, w1) /\ shade_all cam' hitp' li' false n l w' = Ok (Ls, w1').
Proof.
  induction 1 as [|s l H _ IH]; intros w w'; cbn [shade_all]; [eexists _, _, _; split; reflexivity|].
  destruct (HS s w w' H) as (v & R1 & R2). destruct (shade_reports _ _ _ _ _ _ R1) as (w1 & ->). destruct (shade_reports _ _ _ _ _ _ R2) as (w1' & ->). cbn [bind].
  destruct (IH w1 w1') as (Ls & w2 & w2' & -> & ->). cbn [bind]. eexists _, _, _. split; reflexivity.
Qed.
Lemma loop_same : forall m k samples w w' fuel, (k + m = Z.to_nat (wx1 - wx0) * Z.to_nat (wy1 - wy0))%nat -> (m < fuel)%nat ->
  length samples = n ->
  (forall i, n1D (nth i samples dsmp) = n1D (nth i (duplicate orig n) dsmp) /\
             n2D (nth i samples dsmp) = n2D (nth i (duplicate orig n) dsmp)) ->
  task_loop cam hitp li false n fuel (st wx0 wx1 wy0 wy1 xst yst jitter o c k) samples rn k w =
  task_loop cam' hitp' li' false n fuel (st wx0 wx1 wy0 wy1 xst yst jitter o c k) samples rn k w'.
Proof.
  induction m as [|m IH]; intros k samples w w' fuel HK HF HL HN; (destruct fuel as [|fuel]; [lia|]); cbn [task_loop].
  - replace k with (Z.to_nat (wx1 - wx0) * Z.to_nat (wy1 - wy0))%nat by lia.
    rewrite (st_end wx0 wx1 wy0 wy1 xst yst jitter o c HX HY). reflexivity.
  - assert (RO : rnd_ok s0 samples (rn k)).
    { eapply rnd_ok_ext; [| |apply RN]; [unfold duplicate; rewrite repeat_length; exact HL|exact HN]. }
    destruct (st_step wx0 wx1 wy0 wy1 xst yst jitter o c HX HY k samples (rn k)) as (smp' & G & CG);
      [lia|exact HL|exact RO|].
    rewrite G. destruct (gen_keeps _ _ _ _ _ _ G) as [KL KN].
    assert (SF : List.Forall (sent s0 orig wx0 wx1 wy0 wy1) smp').
    { apply List.Forall_forall. intros a Ha. destruct (In_nth _ _ dsmp Ha) as (i & Hi & <-). rewrite KL, HL in Hi.
      destruct CG as (_ & CG & _). rewrite HL in CG. specialize (CG i Hi).
      exists (pxk wx0 wx1 k), (pyk wx0 wx1 wy0 k).
      assert (D0 : (0 < Z.to_nat (wx1 - wx0))%nat) by lia.
      split; [|split].
      - unfold pxk. pose proof (Nat.mod_upper_bound k (Z.to_nat (wx1 - wx0)) ltac:(lia)). lia.
      - unfold pyk. assert (k / Z.to_nat (wx1 - wx0) < Z.to_nat (wy1 - wy0))%nat by (apply Nat.div_lt_upper_bound; lia). lia.
      - eapply sample_good_old; [| |exact CG].
        + destruct (HN i) as [-> _]. now rewrite (dup_nth wx0 wx1 wy0 wy1 xst yst jitter o c orig).
        + destruct (HN i) as [_ ->]. now rewrite (dup_nth wx0 wx1 wy0 wy1 xst yst jitter o c orig). }
    destruct (shade_all_same smp' SF w w') as (Ls & w1 & w1' & -> & ->).
    rewrite (IH (S k) smp' w1 w1' fuel); [reflexivity|lia|lia|congruence|].
    intros i. destruct (KN i) as [-> ->]. apply HN.
Qed.
Lemma render_same w w' sc fuel f : (Z.to_nat (wx1 - wx0) * Z.to_nat (wy1 - wy0) < fuel)%nat ->
  render cam hitp li s0 orig rn w fuel f sc = render cam' hitp' li' s0 orig rn w' fuel f sc.
Proof.
  intros Hfu. unfold render, task.
  pose proof (loop_same (Z.to_nat (wx1 - wx0) * Z.to_nat (wy1 - wy0)) 0 (duplicate orig n) w w' fuel ltac:(lia) Hfu ltac:(apply repeat_length) ltac:(auto)) as T.
  change (maximum_sample_cnt s0) with n. fold n. rewrite st_0 in T by assumption. fold s0 in T.
  rewrite T. reflexivity.
Qed.
End Same.

(** ** Statements *)
(** The picture is a function of what the samples report: two renders (of different scenes, with different integrators, random numbers, ...) in which
    every sample the sampler sends reports the same give pixel-identical pictures. *)
Theorem C299_same_reports (W W' : Type) (cam : sample -> W -> res (R * raydiff * W)) hitp li (cam' : sample -> W' -> res (R * raydiff * W')) hitp' li'
    (x0 x1 y0 y1 xst yst : Z) (jitter : bool) (o c : R) (orig : sample) (rn : nat -> rnd) (w : W) (w' : W') (sc : R) (fuel : nat) (f : film) :
  (x0 < x1)%Z -> (y0 < y1)%Z ->
  let s := stratified_make (IZR x0) (IZR x1) (IZR y0) (IZR y1) xst yst jitter o c in
  let n := (xSamples s * ySamples s)%nat in
  (forall k, rnd_ok s (duplicate orig n) (rn k)) ->
  (forall smp w w', sent s orig x0 x1 y0 y1 smp -> exists v, reports cam hitp li n smp w v /\ reports cam' hitp' li' n smp w' v) ->
  (Z.to_nat (x1 - x0) * Z.to_nat (y1 - y0) < fuel)%nat ->
  render cam hitp li s orig rn w fuel f sc = render cam' hitp' li' s orig rn w' fuel f sc.
Proof.
  intros HX HY s n RN HS Hfu. exact (render_same cam hitp li cam' hitp' li' x0 x1 y0 y1 xst yst jitter o c HX HY orig rn RN HS w w' sc fuel f Hfu).
Qed.
Print Assumptions C299_same_reports.

(** what a sample reports in a scene of diffuse objects *)
Lemma world_reports (mp : nat) (items : list item) (ns np : Z) (colour : nat -> vec) (mats : nat -> material) diffs (lamps : list lamp)
    (cam : sample -> res raydiff) (u : nat -> R) (md : Z) (n : nat) smp r :
  cam smp = Ok r -> rtime (rd_ray r) = stime smp -> viewable mp items ns np lamps (rd_ray r) -> diffuse_mats mats colour ->
  exists scn, scene_make mp (full_refine_items items ns np) = Ok scn /\ forall steps depth k, (scene_size scn <= steps)%nat -> (0 < depth)%nat ->
    exists v, reports (world_cam cam) (world_seen (mkW scn mats (map lamp_light lamps) steps diffs)) (world_li (mkW scn mats (map lamp_light lamps) steps diffs) u md depth) n smp k v /\
      shown items colour lamps (rd_ray r) v.
Proof.
  intros CR TM (Hmp & Hok & Hpm & Hfit & PR & PO & SI) DM. set (prims := full_refine_items items ns np) in *.
  assert (SC : exists scn, scene_make mp prims = Ok scn) by now apply scene_exists.
  destruct SC as (scn & SM). exists scn. split; [exact SM|]. intros steps depth k LS LD.
  set (r1 := scale_differential r (1 / sqrt (INR n))).
  assert (E1 : rd_ray r1 = rd_ray r) by reflexivity.
  pose proof PR as ((A1 & A2 & A3 & A4) & AV).
  destruct (scene_nearest_sized mp items ns np (rd_ray r) Hmp Hok AV A1 A2 A3 A4 Hfit) as (scn' & SM' & K).
  fold prims in SM'. rewrite SM in SM'. injection SM' as <-.
  destruct (K isect_new steps LS) as (found & r' & i' & HI & SN).
  destruct (Props_Scene.C208_shadow_consistent _ _ _ _ _ _ _ HI) as (HP & _).
  destruct (lit_main mp items ns np colour lamps r1 Hmp Hok Hpm Hfit) with (u := u) (md := md) (time := stime smp) (k := k) (mats := mats) (diffs := diffs)
    as (scn' & SM' & LM); [exact PR|exact PO| |exact TM|exact DM|].
  { intros it t l Hi HT Hl. change (rd_ray r1) with (rd_ray r). exact (SI it t l Hi HT Hl). }
  fold prims in SM'. rewrite SM in SM'. injection SM' as <-.
  destruct (LM steps depth LS LD) as (L & T & i & k' & cnt & WL & SH). rewrite E1 in SH.
  exists (if found then L else vzero). split.
  - exists r, k, found, k. unfold world_cam. rewrite CR. cbn [bind]. split; [reflexivity|].
    unfold world_seen. fold r1. rewrite E1. cbn [w_fuel w_scene]. rewrite HP. split; [reflexivity|]. split; intros ->; [reflexivity|].
    exists k'. unfold world_li. rewrite WL. reflexivity.
  - destruct found; [exact SH|]. left. split; [reflexivity|]. destruct SN as (_ & _ & SN). exact SN.
Qed.
Lemma something_sent (xr yr : Z) (flt : filt) (c0 c1 c2 c3 : R) (x0 x1 y0 y1 xst yst : Z) (jitter : bool) (o c : R) (orig : sample) (rn : nat -> rnd) (fuel : nat) :
  proper_filter flt ->
  let f := film_make xr yr flt c0 c1 c2 c3 in
  get_sample_extent f = (x0, x1, y0, y1) ->
  let s := stratified_make (IZR x0) (IZR x1) (IZR y0) (IZR y1) xst yst jitter o c in
  (forall k, rnd_ok s (duplicate orig (xSamples s * ySamples s)) (rn k)) ->
  (Z.to_nat (x1 - x0) * Z.to_nat (y1 - y0) < fuel)%nat ->
  exists smp, sent s orig x0 x1 y0 y1 smp.
Proof.
  intros PF f GE s RN Hfu.
  destruct (extent_window f x0 x1 y0 y1) as (EA & EB & EC & ED); [unfold f, film_make; cbn [xcnt]; lia|unfold f, film_make; cbn [ycnt]; lia|apply PF|apply PF|exact GE|].
  assert (XC : (0 < xcnt f)%Z) by (unfold f, film_make; cbn [xcnt]; lia).
  assert (YC : (0 < ycnt f)%Z) by (unfold f, film_make; cbn [ycnt]; lia).
  set (r0 := mkRD (mkRay vzero vzero (mkV false false false) (Fin 0) PInf 0%Z 0) false vzero vzero vzero vzero).
  destruct (C274_picture Datatypes.unit (fun _ w => Ok (1, r0, w)) (fun _ w => Ok (false, w)) (fun _ _ w => Ok (black, w)) (fun _ _ => True)
    xr yr flt c0 c1 c2 c3 x0 x1 y0 y1 xst yst jitter o c orig rn tt 1 fuel PF GE RN) as (img & l & _ & (RL & _) & SN & _); [|exact Hfu|].
  { intros smp w _. exists r0, w, false, w. repeat split. discriminate. }
  fold s in RL, SN. assert (Hn : (0 < xSamples s * ySamples s)%nat). { unfold s, stratified_make; cbn [xSamples ySamples]. nia. }
  assert (W0 : (0 < Z.to_nat (x1 - x0))%nat) by lia. assert (H0 : (0 < Z.to_nat (y1 - y0))%nat) by lia.
  destruct l as [|a l]; [cbn [length] in RL; exfalso; pose proof (Nat.mul_pos_pos _ _ W0 H0); pose proof (Nat.mul_pos_pos _ _ H Hn); lia|].
  inversion SN as [|? ? (SA & _) _]; subst. exists (fst a). exact SA.
Qed.
(** Two scenes of diffuse objects lit by the same point lights which agree on what the camera's rays and the sight lines from the points they meet
    meet: pixel-identical pictures, in whatever order the objects are listed (or repeated), whatever the trees and the other objects are, and whatever
    the integrator's random numbers. *)
Theorem C299_same_picture (mp mp' : nat) (items items' : list item) (ns np ns' np' : Z) (colour : nat -> vec) (mats mats' : nat -> material)
    diffs diffs' (lamps : list lamp) (cam : sample -> res raydiff) (u u' : nat -> R) (md md' : Z)
    (xr yr : Z) (flt : filt) (c0 c1 c2 c3 : R) (x0 x1 y0 y1 xst yst : Z) (jitter : bool) (o c : R)
    (orig : sample) (rn : nat -> rnd) (k k' : nat) (sc : R) (fuel : nat) :
  diffuse_mats mats colour -> diffuse_mats mats' colour -> (forall l, In l lamps -> spec_ge0 (lp_i l)) ->
  proper_filter flt ->
  let f := film_make xr yr flt c0 c1 c2 c3 in
  get_sample_extent f = (x0, x1, y0, y1) ->
  let s := stratified_make (IZR x0) (IZR x1) (IZR y0) (IZR y1) xst yst jitter o c in
  let n := (xSamples s * ySamples s)%nat in
  (forall k, rnd_ok s (duplicate orig n) (rn k)) ->
  (forall smp, sent s orig x0 x1 y0 y1 smp -> exists r, cam smp = Ok r /\ rtime (rd_ray r) = stime smp /\
     viewable mp items ns np lamps (rd_ray r) /\ viewable mp' items' ns' np' lamps (rd_ray r) /\
     unambiguous items lamps (rd_ray r) /\ same_met items items' lamps (rd_ray r)) ->
  (Z.to_nat (x1 - x0) * Z.to_nat (y1 - y0) < fuel)%nat ->
  exists scn scn', scene_make mp (full_refine_items items ns np) = Ok scn /\ scene_make mp' (full_refine_items items' ns' np') = Ok scn' /\
    forall steps steps' depth depth', (scene_size scn <= steps)%nat -> (scene_size scn' <= steps')%nat -> (0 < depth)%nat -> (0 < depth')%nat ->
    exists img, world_render (mkW scn mats (map lamp_light lamps) steps diffs) cam u md depth s orig rn k fuel f sc = Some (Ok img) /\
      world_render (mkW scn' mats' (map lamp_light lamps) steps' diffs') cam u' md' depth' s orig rn k' fuel f sc = Some (Ok img).
Proof.
  intros DM DM' NN PF f GE s n RN HC Hfu.
  destruct (something_sent xr yr flt c0 c1 c2 c3 x0 x1 y0 y1 xst yst jitter o c orig rn fuel PF GE RN Hfu) as (smp0 & S0).
  destruct (extent_window f x0 x1 y0 y1) as (EA & EB & EC & ED); [unfold f, film_make; cbn [xcnt]; lia|unfold f, film_make; cbn [ycnt]; lia|apply PF|apply PF|exact GE|].
  assert (XC : (0 < xcnt f)%Z) by (unfold f, film_make; cbn [xcnt]; lia).
  assert (YC : (0 < ycnt f)%Z) by (unfold f, film_make; cbn [ycnt]; lia).
  destruct (HC smp0 S0) as (r0 & _ & _ & (V1 & V2 & V3 & V4 & _) & (V1' & V2' & V3' & V4' & _) & _).
  destruct (C275_scene_picture mp items ns np colour mats diffs lamps cam u md xr yr flt c0 c1 c2 c3 x0 x1 y0 y1 xst yst jitter o c orig rn k sc fuel V1 V2 V3 V4 DM NN PF GE RN)
    as (scn & SM & G); [|exact Hfu|].
  { intros smp HS. destruct (HC smp HS) as (r & CR & TM & (_ & _ & _ & _ & P1 & P2 & P3) & _). exists r. rewrite <- TM. auto. }
  assert (SC : exists scn', scene_make mp' (full_refine_items items' ns' np') = Ok scn') by now apply scene_exists.
  destruct SC as (scn' & SM'). exists scn, scn'. split; [exact SM|]. split; [exact SM'|]. intros steps steps' depth depth' L1 L2 D1 D2.
  destruct (G steps depth L1 D1) as (img & l & R1 & _). exists img. split; [exact R1|]. rewrite <- R1. symmetry. unfold world_render.
  apply (C299_same_reports nat nat); [lia|lia|exact RN| |exact Hfu].
  intros smp w w' HS. destruct (HC smp HS) as (r & CR & TM & VW & VW' & UN & SMT).
  destruct (world_reports mp items ns np colour mats diffs lamps cam u md n smp r CR TM VW DM) as (q & Q1 & Q2). rewrite SM in Q1. injection Q1 as <-.
  destruct (world_reports mp' items' ns' np' colour mats' diffs' lamps cam u' md' n smp r CR TM VW' DM') as (q & Q1 & Q2'). rewrite SM' in Q1. injection Q1 as <-.
  destruct (Q2 steps depth w L1 D1) as (v & RV & SH). destruct (Q2' steps' depth' w' L2 D2) as (v' & RV' & SH').
  destruct VW as (_ & B & _). rewrite (shown_unique items items' colour lamps (rd_ray r) v v' B UN SMT SH SH') in RV'.
  exists v. split; assumption.
Qed.
Print Assumptions C299_same_picture.

(** The hypotheses hold for the scene and the camera of C275_ex (with the film and sampler given there) and the same scene with its object listed twice. *)
Lemma v2_shape p : In p (full_refine_items (v_items ++ v_items) 3 3) -> exists p0, In p0 (full_refine_items v_items 3 3) /\ gp_shape p = gp_shape p0.
Proof. intros [<-|[<-|[]]]; eexists; (split; [left; reflexivity|reflexivity]). Qed.
Lemma v2_clear q : clear_ray v_items (full_refine_items v_items 3 3) q -> clear_ray (v_items ++ v_items) (full_refine_items (v_items ++ v_items) 3 3) q.
Proof.
  intros ((A & B & C & D) & E). split; [|apply Forall_app; split; exact E]. split; [exact A|]. split; [exact B|]. split; [exact C|].
  intros p b HP HB. destruct (v2_shape p HP) as (p0 & H0 & Q). rewrite Q in HB. exact (D p0 b H0 HB).
Qed.
Lemma v2_in it : In it (v_items ++ v_items) <-> In it v_items.
Proof. rewrite in_app_iff. tauto. Qed.
Example C299_ex : exists c, persp_make v_still (-1) 1 (-1) 1 0 1 0 1 90 1 2 = Ok c /\
  forall smp, exists r, persp_raydiff c smp = Ok r /\ rtime (rd_ray r) = stime smp /\
    viewable 4 v_items 3 3 [v_lamp] (rd_ray r) /\ viewable 2 (v_items ++ v_items) 3 3 [v_lamp] (rd_ray r) /\
    unambiguous v_items [v_lamp] (rd_ray r) /\ same_met v_items (v_items ++ v_items) [v_lamp] (rd_ray r).
Proof.
  destruct C275_ex as (c & PM & HC & _). exists c. split; [exact PM|].
  destruct (persp_closed v_still (-1) 1 (-1) 1 0 1 0 1 90 1 2) as (c' & PM' & C1 & _ & _ & C2 & _); [lra..|].
  rewrite PM in PM'. injection PM' as <-. intros smp. destruct (HC smp) as (r & E & TM & CL & OP & SI).
  destruct (v_cam c smp C1 C2) as (r' & E' & RR). rewrite E in E'. injection E' as <-.
  exists r. split; [exact E|]. split; [exact TM|].
  assert (OKS : Forall (fun it => geom_ok (it_geom it)) v_items).
  { constructor; [|constructor]; cbn [it_geom geom_ok]; split; [reflexivity|]; split; [unfold faces_ok; repeat (constructor; [cbn; lia|]); constructor|intros l [=]]. }
  assert (PL : forall it, In it v_items -> plain_item it) by (intros it [<-|[]]; split; [reflexivity|now left]).
  rewrite <- TM in SI. split; [|split; [|split]].
  - split; [lia|]. do 2 (split; [assumption|]). split; [left; cbn; lia|]. do 2 (split; [assumption|]). exact SI.
  - split; [lia|]. split; [apply Forall_app; split; exact OKS|]. split; [intros it H; apply PL, v2_in, H|]. split; [left; cbn; lia|].
    split; [apply v2_clear, CL|]. split; [intros it t H; apply OP, v2_in, H|].
    intros it t l H HT HL. apply v2_in in H. destruct (SI it t l H HT HL) as (A & B). split; [exact A|]. apply v2_clear, B.
  - assert (T0 : forall it t, In it v_items -> touches (it_geom it) (rd_ray r) t -> t <> 0).
    { intros it t Hi HT ->. pose proof (v_touch it _ 0 Hi HT) as Z5. rewrite RR in Z5. unfold ray_at, vadd, vscale, vmap2, vmap in Z5; cbn [ro rd vz vzero] in Z5. lra. }
    split.
    + intros it t Hi HT. pose proof (T0 it t Hi HT) as N0. rewrite RR. cbn [rmint rmaxt]. split; [intros [= Q]; congruence|]. split; [discriminate|]. split.
      * intros it' Hi' _. destruct Hi as [<-|[]]. destruct Hi' as [<-|[]]. reflexivity.
      * destruct Hi as [<-|[]]. intros f f' Hf Hf' _ _. cbn [length] in Hf, Hf'. lia.
    + intros it t l it' s Hi HT [<-|[]] Hi' q HT'. pose proof (T0 it t Hi HT) as N0. pose proof (v_touch it _ t Hi HT) as Z5. pose proof (v_touch it' _ s Hi' HT') as Z5'.
      set (p := ray_at (rd_ray r) t) in *. cbn [v_lamp lp_pos] in *.
      assert (DN : 0 < dist p vzero).
      { unfold dist, vlength, sq_length, vsub, vmap2; cbn [vx vy vz vzero]. apply sqrt_lt_R0. rewrite Z5. nra. }
      assert (S0 : s = 0).
      { unfold q, sight, ray_at, dir, vadd, vscale, vsub, vmap2, vmap in Z5'; cbn [ro rd vz vzero] in Z5'. rewrite Z5 in Z5'.
        assert (I0 : 0 < / dist p vzero) by (apply Rinv_0_lt_compat; lra). assert (s * (/ dist p vzero * (0 - 5)) = 0) as Q by lra.
        apply Rmult_integral in Q as [Q|Q]; [exact Q|]. lra. }
      subst s. unfold q. cbn [sight rmint rmaxt]. split; [|intros [= Q]; lra]. destruct Hi as [<-|[]]. cbn [it_geom offset_at]. intros [= Q]. lra.
  - split; intros; rewrite v2_in; reflexivity.
Qed.
