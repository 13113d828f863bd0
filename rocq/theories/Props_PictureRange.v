(** Property theorems C306: a picture is as bright as what its samples saw.  Vocabulary: S_Picture.v, S_Film.v, S_World.v, S_Superpose.v, S_Brighter.v. *)
From Coq Require Import Reals Lra Lia List ZArith Bool Permutation.
From Flocq Require Import Core.Raux.
From Verif Require Import Base M_MonteCarlo M_Aggregate M_Utility M_Spectrum M_Sampler S_Sampler M_Film S_Film P_Sampler P_Film P_Film2 P_Film3 P_Renderer.
From Verif Require Import M_Geometry S_Geometry P_Geometry P_LobeSampling M_Transform S_Transform P_Transform P_Transform2 M_Shapes S_Shapes P_ShapesMore M_BVH S_BVH
  M_Reflection S_Reflection M_Light M_Primitive S_Scene P_Scene P_Scene2 M_Material S_Material M_Integrator S_Integrator S_Integrator2 M_World S_World P_World
  P_World2 Props_Scene Props_World M_Renderer M_Render P_Render Props_Render S_Picture P_Picture M_World2 M_Camera S_Camera P_Camera Props_Picture
  S_Order P_Order Props_Order S_Superpose S_Brighter P_Superpose Props_Superpose P_Reflection2 P_Brighter Props_Brighter Props_SumPicture
  Props_MoreLightPicture.
Import ListNotations.
Local Open Scope R_scope.

Lemma range_sums flt x y (lo hi : vec) q : (forall a b, 0 <= f_eval flt a b) -> (forall a, In a q -> S_Film.vle lo (fst (snd a)) /\ S_Film.vle (fst (snd a)) hi) ->
  S_Film.vle (vscale (total_weight flt x y (map op1 q)) lo) (weighted_sum flt x y (map op1 q)) /\
  S_Film.vle (weighted_sum flt x y (map op1 q)) (vscale (total_weight flt x y (map op1 q)) hi).
Proof.
  intros NN. unfold weighted_sum, total_weight. rewrite !map_map. induction q as [|a q IH]; intros H; cbn [map S_Film.vsum rsum].
  { unfold S_Film.vle, vscale, vmap, vzero; cbn. lra. }
  specialize (IH (fun b Hb => H b (or_intror Hb))). destruct (H a (or_introl eq_refl)) as (G & G'). revert IH.
  pose proof (nonneg_weight flt x y (op1 a) NN) as W0. unfold op1 in *. cbn [op_weight op_rad] in *. set (w := if coversb flt _ _ x y then _ else _) in *. clearbody w.
  match goal with |- context [rsum ?l] => set (T := rsum l) end. clearbody T. match goal with |- context [S_Film.vsum ?l] => set (sm := S_Film.vsum l) end. clearbody sm.
  destruct G as (G1 & G2 & G3), G' as (G1' & G2' & G3'). unfold S_Film.vle, vadd, vscale, vmap2, vmap; cbn [vx vy vz]. intros ((I1 & I2 & I3) & J1 & J2 & J3).
  repeat split; rewrite Rmult_plus_distr_r; apply Rplus_le_compat; try assumption; now apply Rmult_le_compat_l.
Qed.

(** a picture without splats has no negative pixel *)
Lemma pixel_ge0 xr yr flt c0 c1 c2 c3 sc q g x y : 0 < f_xw flt -> 0 < f_yw flt -> let f := film_make xr yr flt c0 c1 c2 c3 in
  run_ops f (map op1 q) = Ok g -> in_film f x y -> 0 < total_weight flt x y (map op1 q) -> spec_ge0 (pixel_at f (film_rgb g sc) x y).
Proof.
  intros FX FY f RG IN W0. pose proof (wf_make xr yr flt c0 c1 c2 c3) as WF. fold f in WF.
  destruct (run_ops_ok (map op1 q) f WF FX FY) as (g1 & G1 & WG1 & SG1 & P1). rewrite RG in G1. injection G1 as <-.
  unfold pixel_at. replace (nth _ _ vzero) with (pixel_rgb sc (pix g x y)).
  2:{ assert (E1 : xstart f = xstart g /\ ystart f = ystart g) by (split; symmetry; apply SG1). destruct E1 as [-> ->]. symmetry. apply film_rgb_nth; [exact WG1|]. now apply (same_in f). }
  destruct (P1 x y IN) as (_ & B1 & D1). assert (PX : pix f x y = pixel0) by (apply make_pix; exact IN). rewrite PX in B1, D1. cbn [pS pW pixel0] in B1, D1. change (ffilt f) with flt in D1.
  rewrite vadd_0_l in B1. rewrite splat_add in B1 by reflexivity. rewrite rgb2xyz_0 in B1.
  destruct (pix g x y) as [l s u]. cbn [pS pW] in B1, D1. subst s u. unfold pixel_rgb. cbn [pL pS pW].
  assert (Z0 : vscale sc (xyz2rgb vzero) = vzero) by (unfold xyz2rgb, vscale, vmap, vzero; apply V3_eq; cbn; ring). rewrite Z0.
  assert (A0 : forall u, vadd u vzero = u) by (intros [u1 u2 u3]; unfold vadd, vmap2, vzero; apply V3_eq; cbn; lra). rewrite !A0.
  replace (Reqb _ 0) with false by (symmetry; apply Reqb_false; lra).
  unfold spec_ge0, vmap; cbn [negb vx vy vz]. auto using Rmax_l.
Qed.

(** ** Statements *)
(** A render in which every sample deposits a value between [lo] and [hi] (channel by channel, not negative): every pixel of the picture lies between [lo] and
    [hi], up to one millionth of the size of [hi] (the constants of the colour conversion). *)
Theorem C306_range (W : Type) (cam : sample -> W -> res (R * raydiff * W)) hitp li
    (xr yr : Z) (flt : filt) (c0 c1 c2 c3 : R) (x0 x1 y0 y1 xst yst : Z) (jitter : bool) (o c : R) (orig : sample) (rn : nat -> rnd)
    (w : W) (sc : R) (fuel : nat) (lo hi : vec) img :
  proper_filter flt ->
  let f := film_make xr yr flt c0 c1 c2 c3 in
  get_sample_extent f = (x0, x1, y0, y1) ->
  let s := stratified_make (IZR x0) (IZR x1) (IZR y0) (IZR y1) xst yst jitter o c in
  let n := (xSamples s * ySamples s)%nat in
  (forall k, rnd_ok s (duplicate orig n) (rn k)) ->
  spec_ge0 lo ->
  (forall a w L w', sent s orig x0 x1 y0 y1 a -> shade cam hitp li false n a w = Ok (L, w') -> exists v, L = vmap Fin v /\ S_Film.vle lo v /\ S_Film.vle v hi) ->
  (Z.to_nat (x1 - x0) * Z.to_nat (y1 - y0) < fuel)%nat ->
  render cam hitp li s orig rn w fuel f sc = Some (Ok img) ->
  forall x y, in_film f x y ->
    let e := 1e-6 * (vx hi + vy hi + vz hi) in
    spec_ge0 (pixel_at f img x y) /\ S_Film.vle (vsub lo (spec e)) (pixel_at f img x y) /\ S_Film.vle (pixel_at f img x y) (vadd hi (spec e)).
Proof.
  intros PF f GE s n RN LO HS Hfu.
  assert (XC : (0 < xcnt f)%Z) by (unfold f, film_make; cbn [xcnt]; lia).
  assert (YC : (0 < ycnt f)%Z) by (unfold f, film_make; cbn [ycnt]; lia).
  destruct (extent_window f x0 x1 y0 y1) as (A & B & C & D); [exact XC|exact YC|apply PF|apply PF|exact GE|].
  assert (HX : (x0 < x1)%Z) by lia. assert (HY : (y0 < y1)%Z) by lia.
  unfold render, task. change (maximum_sample_cnt s) with n. fold n.
  destruct (task_loop cam hitp li false n fuel s (duplicate orig n) rn 0 w) as [[adds|]|] eqn:T1; try discriminate.
  set (inr := fun v (_ : vec) => S_Film.vle lo v /\ S_Film.vle v hi).
  assert (HS' : forall a w1 w2 w3 L1 L2 w1' w2', sent s orig x0 x1 y0 y1 a ->
     shade cam hitp li false n a w1 = Ok (L1, w1') -> shade cam hitp li false n a w2 = Ok (L2, w2') ->
     exists v1 v2 w3', L1 = vmap Fin v1 /\ L2 = vmap Fin v2 /\ inr v1 v2 /\ shade blind_cam blind_hit blind_li false n a w3 = Ok (vmap Fin vzero, w3')).
  { intros a p1 p2 p3 L1 L2 p1' p2' SS H1 H2. destruct (HS a p1 L1 p1' SS H1) as (v1 & G1 & G2). destruct (HS a p2 L2 p2' SS H2) as (v2 & G3 & _).
    exists v1, v2, p3. repeat (split; [auto|]). unfold shade, blind_cam, blind_hit. cbn [bind andb]. now rewrite sanitise_idem_black. }
  pose proof (fun H1 H2 => loop_sum cam hitp li cam hitp li blind_cam blind_hit blind_li x0 x1 y0 y1 xst yst jitter o c HX HY orig rn (fun _ _ => vzero) inr RN HS'
    (Z.to_nat (x1 - x0) * Z.to_nat (y1 - y0)) 0 (duplicate orig n) w w tt fuel adds adds eq_refl Hfu (repeat_length _ _) (fun _ => conj eq_refl eq_refl) H1 H2) as LS.
  pose proof (weight_pos W cam hitp li xr yr flt c0 c1 c2 c3 x0 x1 y0 y1 xst yst jitter o c orig rn w fuel adds) as WP.
  rewrite (st_0 x0 x1 y0 y1 xst yst jitter o c HX HY) in LS, WP. fold s in LS, WP. fold n in LS. cbv zeta in WP. fold f in WP. fold n in WP.
  destruct (LS T1 T1) as (q & _ & F & -> & _). specialize (WP PF A B C D RN Hfu T1). clear LS.
  rewrite List.Forall_forall in F.
  destruct (ops_add vadd q) as (O1 & _ & _).
  assert (F1 : forall a, In a (map add1 q) -> exists v, snd a = vmap Fin v).
  { intros a Ha. apply in_map_iff in Ha. destruct Ha as (b & <- & _). eexists; reflexivity. }
  specialize (WP F1). rewrite O1 in WP.
  assert (G1 : forall a, In a q -> spec_ge0 (op_rad (op1 a))).
  { intros a Ha. destruct (F a Ha) as ((p1 & p2 & p3) & _). destruct LO as (q1 & q2 & q3). unfold op1, spec_ge0; cbn [op_rad]. lra. }
  assert (INF : in_film f (xstart f) (ystart f)) by (split; lia).
  destruct (pixel_average xr yr flt c0 c1 c2 c3 sc _ _ op1 q _ PF G1 (fun _ => eq_refl) INF eq_refl (WP _ _ INF)) as (g1 & R1 & _).
  fold f in R1. rewrite (deposit_run (map add1 q) F1 f g1) by (rewrite O1; exact R1).
  intros [= <-]. intros x y IN.
  destruct (pixel_average xr yr flt c0 c1 c2 c3 sc x y op1 q _ PF G1 (fun _ => eq_refl) IN eq_refl (WP _ _ IN)) as (h1 & E1 & N1 & Q1).
  fold f in E1, Q1. rewrite R1 in E1. injection E1 as <-. split; [apply (pixel_ge0 xr yr flt c0 c1 c2 c3 sc q); try assumption; [destruct PF; lra|destruct PF as (_ & ? & _); lra|exact (WP x y IN)]|].
  destruct (range_sums flt x y lo hi q (proj1 (proj2 (proj2 PF))) F) as (MS1 & MS2). pose proof (WP x y IN) as W0. pose proof (Rinv_0_lt_compat _ W0) as IW.
  set (tw := total_weight flt x y (map op1 q)) in *. clearbody tw.
  set (v1 := weighted_sum flt x y (map op1 q)) in *. clearbody v1.
  set (p1 := pixel_at f (film_rgb g1 sc) x y) in *. clearbody p1.
  assert (MA : S_Film.vle lo (vscale (/ tw) v1) /\ S_Film.vle (vscale (/ tw) v1) hi).
  { assert (K1 : forall a b, tw * a <= b -> a <= / tw * b). { intros a b Hab. apply Rmult_le_reg_l with tw; [exact W0|]. rewrite <- Rmult_assoc, Rinv_r, Rmult_1_l by lra. exact Hab. }
    assert (K2 : forall a b, b <= tw * a -> / tw * b <= a). { intros a b Hab. apply Rmult_le_reg_l with tw; [exact W0|]. rewrite <- Rmult_assoc, Rinv_r, Rmult_1_l by lra. exact Hab. }
    destruct MS1 as (M1 & M2 & M3), MS2 as (M4 & M5 & M6). unfold S_Film.vle, vscale, vmap in *; cbn [vx vy vz] in *. repeat split; auto. }
  clear -LO N1 Q1 MA. set (a := vscale (/ tw) v1) in *. clearbody a.
  destruct a as [a1 a2 a3], p1 as [r1 r2 r3], lo as [l1 l2 l3], hi as [h1 h2 h3].
  unfold vclose, vabs1, spec_ge0, S_Film.vle, vadd, vsub, spec, vmap2 in *. cbn [vx vy vz] in *.
  rewrite (Rabs_right a1), (Rabs_right a2), (Rabs_right a3) in Q1 by lra.
  destruct Q1 as (Q11 & Q12 & Q13). apply Rabs_le_inv in Q11, Q12, Q13. destruct MA as ((? & ? & ?) & ? & ? & ?).
  repeat split; lra.
Qed.
Print Assumptions C306_range.

(** A scene of shapes without area lights, and no other light: every pixel of the picture is exactly black, whatever the materials. *)
Theorem C306_dark (mp : nat) (items : list item) (ns np : Z) scn mats steps diffs (cam : sample -> res raydiff) (u : nat -> R)
    (md : Z) (depth : nat) (xr yr : Z) (flt : filt) (c0 c1 c2 c3 : R) (x0 x1 y0 y1 xst yst : Z) (jitter : bool) (o c : R) (orig : sample) (rn : nat -> rnd)
    (k : nat) (sc : R) (fuel : nat) img :
  (forall it, In it items -> it_light it = None) -> scene_make mp (full_refine_items items ns np) = Ok scn ->
  proper_filter flt ->
  let f := film_make xr yr flt c0 c1 c2 c3 in
  get_sample_extent f = (x0, x1, y0, y1) ->
  let s := stratified_make (IZR x0) (IZR x1) (IZR y0) (IZR y1) xst yst jitter o c in
  (forall i, rnd_ok s (duplicate orig (xSamples s * ySamples s)) (rn i)) ->
  (Z.to_nat (x1 - x0) * Z.to_nat (y1 - y0) < fuel)%nat ->
  world_render (mkW scn mats [] steps diffs) cam u md depth s orig rn k fuel f sc = Some (Ok img) ->
  forall x y, in_film f x y -> pixel_at f img x y = vzero.
Proof.
  intros HN HS PF f GE s RN Hfu HR x y IN.
  pose proof (C306_range nat (world_cam cam) (world_seen (mkW scn mats [] steps diffs)) (world_li (mkW scn mats [] steps diffs) u md depth)
    xr yr flt c0 c1 c2 c3 x0 x1 y0 y1 xst yst jitter o c orig rn k sc fuel vzero vzero img PF GE RN zero_ge0) as G. cbv zeta in G. fold f in G. fold s in G.
  destruct (fun H => G H Hfu HR x y IN) as (G0 & G1 & G2).
  2:{ destruct (pixel_at f img x y) as [p1 p2 p3]. unfold S_Film.vle, vadd, vsub, spec, vmap2, vzero in *. cbn [vx vy vz] in *. apply V3_eq; cbn; lra. }
  intros a w L w' SS. unfold shade, world_cam. destruct (cam a) as [r|]; cbn [bind]; [|discriminate].
  unfold world_seen. cbn [w_fuel w_scene]. destruct (scene_intersect_p _ _ _) as [[h|]|]; cbn [bind]; try discriminate.
  assert (V0 : S_Film.vle vzero vzero) by (unfold S_Film.vle; lra).
  destruct (h && Rltb 0 1)%bool.
  2:{ intros [= <- _]. exists vzero. now rewrite sanitise_idem_black. }
  unfold world_li. set (r1 := scale_differential r _).
  destruct (whitted _ u md (stime a) depth r1 w) as [[[[[[La Ta] ia] ka] na]|]|] eqn:WA; cbn [bind]; try discriminate. intros [= <- _].
  rewrite (C271_world mp items ns np scn mats steps diffs u md (stime a) depth r1 w _ _ _ _ _ HN HS WA). exists vzero.
  replace (vmap (fun x => emul x (Fin 1)) (vmap Fin vzero)) with (vmap Fin vzero); [|unfold vmap; cbn; now rewrite !Rmult_1_r].
  rewrite sanitise_keeps by apply zero_ge0. auto.
Qed.
Print Assumptions C306_dark.

(** A picture of diffuse objects lit by lamps (what C275 and C292 show to come out): if the irradiance of all lamps together, unhidden and at right angles, is
    reflected with at most [hi] at every point that a camera ray touches, then no pixel is brighter than [hi], up to one millionth of its size. *)
Theorem C306_lit (items : list item) (colour : nat -> vec) (lamps : list lamp) (cam : sample -> res raydiff) (f : film) img l (hi : vec) :
  (forall a b, 0 <= f_eval (ffilt f) a b) -> (forall l, In l lamps -> spec_ge0 (lp_i l)) -> spec_ge0 hi ->
  pictures f img l -> List.Forall (fun a => exists r, cam (fst a) = Ok r /\ shown items colour lamps (rd_ray r) (snd a)) l ->
  (forall smp r it t, In smp (map fst l) -> cam smp = Ok r -> In it items -> touches (it_geom it) (rd_ray r) t ->
     spec_le (vsum (map (fun l => smul (vscale (/ PI) (positive_part (colour (it_material it)))) (vscale (/ dist (ray_at (rd_ray r) t) (lp_pos l) ^ 2) (lp_i l))) lamps)) hi) ->
  forall x y, in_film f x y -> let e := 1e-6 * (vx hi + vy hi + vz hi) in
    S_Film.vle vzero (vadd (pixel_at f img x y) (spec e)) /\ S_Film.vle (pixel_at f img x y) (vadd hi (spec e)).
Proof.
  intros NN GE H0 PI Fa HB x y IN. destruct (PI x y IN) as (avg & (W & E) & A0 & CL).
  set (q := map (fun a => (fst a, (snd a, snd a))) l).
  assert (EQ : map contribution l = map op1 q) by (unfold q; rewrite map_map; reflexivity). rewrite EQ in W, E.
  destruct (range_sums (ffilt f) x y vzero hi q NN) as (_ & M).
  { intros a Ha. apply in_map_iff in Ha. destruct Ha as (b & <- & Hb). cbn [fst snd]. rewrite List.Forall_forall in Fa.
    destruct (Fa b Hb) as (r & CR & SH). destruct (C270_bounded items colour lamps _ _ GE SH) as (G & HH). split; [exact G|].
    destruct HH as [->|(it & t & Hi & HT & HL)]; [exact H0|]. specialize (HB (fst b) r it t (in_map fst _ _ Hb) CR Hi HT).
    destruct HL as (a1 & a2 & a3), HB as (b1 & b2 & b3). unfold S_Film.vle. repeat split; eapply Rle_trans; eassumption. }
  rewrite <- E in M. set (tw := total_weight _ _ _ _) in *. clearbody tw. destruct M as (M1 & M2 & M3). unfold vscale, vmap in M1, M2, M3. cbn [vx vy vz] in M1, M2, M3.
  apply Rmult_le_reg_l in M1, M2, M3; try exact W. set (p := pixel_at f img x y) in *. clearbody p. clear -A0 CL M1 M2 M3.
  destruct avg as [a1 a2 a3], p as [r1 r2 r3], hi as [h1 h2 h3]. unfold vclose, vabs1, S_Film.vle, vadd, spec, vmap2, vzero in *. cbn [vx vy vz] in *.
  destruct A0 as (B1 & B2 & B3). rewrite (Rabs_right a1), (Rabs_right a2), (Rabs_right a3) in CL by lra.
  destruct CL as (Q1 & Q2 & Q3). apply Rabs_le_inv in Q1, Q2, Q3. repeat split; lra.
Qed.
Print Assumptions C306_lit.

(** The triangle of C275_ex is five away from its lamp of intensity 100: no pixel is brighter than 4/pi times its colour. *)
Example C306_ex : let s := stratified_make (IZR 0) (IZR 2) (IZR 0) (IZR 3) 1 1 true 0 1 in let f := film_make 1 2 (box_filter (/2) (/2)) 0 1 0 1 in
  exists c scn img,
  let w := mkW scn (fun k => Matte (fun _ => w_colour k) (fun _ => 0) None) (map lamp_light [v_lamp]) (scene_size scn) (fun _ _ _ _ _ => (false, vzero, vzero, vzero, vzero)) in
  persp_make v_still (-1) 1 (-1) 1 0 1 0 1 90 1 2 = Ok c /\
  world_render w (persp_raydiff c) (fun _ => 0) 5 1 s (mkS 0 0 0 0 0 [] [] [] []) (fun _ => ex_rnd) 0 100 f 1 = Some (Ok img) /\ in_film f 0 1 /\
  let hi := vscale (4 / PI) (positive_part (w_colour 0)) in S_Film.vle (pixel_at f img 0 1) (vadd hi (spec (1e-6 * (vx hi + vy hi + vz hi)))).
Proof.
  intros s f. destruct C275_ex as (c & PM & HC & _).
  assert (EX : xstart f = 0%Z) by (unfold f; cbn; rewrite Rmult_0_r; apply (Zceil_IZR 0)).
  assert (EY : ystart f = 0%Z) by (unfold f; cbn; rewrite Rmult_0_r; apply (Zceil_IZR 0)).
  assert (CX : xcnt f = 1%Z).
  { unfold f; cbn. rewrite Rmult_0_r, Rmult_1_r, (Zceil_IZR 0), (Zceil_IZR 1). reflexivity. }
  assert (CY : ycnt f = 2%Z).
  { unfold f; cbn. rewrite Rmult_0_r, Rmult_1_r, (Zceil_IZR 0), (Zceil_IZR 2). reflexivity. }
  assert (PIC : forall md, exists scn, scene_make 4 (full_refine_items v_items 3 3) = Ok scn /\ exists img l,
    world_render (mkW scn (fun k => Matte (fun _ => w_colour k) (fun _ => 0) None) (map lamp_light [v_lamp]) (scene_size scn) (fun _ _ _ _ _ => (false, vzero, vzero, vzero, vzero)))
      (persp_raydiff c) (fun _ => 0) md 1 s (mkS 0 0 0 0 0 [] [] [] []) (fun _ => ex_rnd) 0 100 f 1 = Some (Ok img) /\ pictures f img l /\
      List.Forall (fun a => exists r, persp_raydiff c (fst a) = Ok r /\ shown v_items w_colour [v_lamp] (rd_ray r) (snd a)) l).
  { intros md. destruct (C275_scene_picture 4 v_items 3 3 w_colour (fun k => Matte (fun _ => w_colour k) (fun _ => 0) None)
    (fun _ _ _ _ _ => (false, vzero, vzero, vzero, vzero)) [v_lamp] (persp_raydiff c) (fun _ => 0) md
    1 2 (box_filter (/2) (/2)) 0 1 0 1 0 2 0 3 1 1 true 0 1 (mkS 0 0 0 0 0 [] [] [] []) (fun _ => ex_rnd) 0 1 100) as (scn & SM & G).
  - lia.
  - constructor; [|constructor]; cbn [it_geom geom_ok]; split; [reflexivity|]; split; [unfold faces_ok; repeat (constructor; [cbn; lia|]); constructor|intros l [=]].
  - intros it [<-|[]]; split; [reflexivity|now left].
  - left. cbn. lia.
  - intros k; eexists _, _; split; [reflexivity|]; split; [reflexivity|intros; lra].
  - intros l [<-|[]]. unfold spec_ge0, v_lamp, spec; cbn. lra.
  - unfold proper_filter; cbn. repeat split; intros; lra.
  - fold f. unfold get_sample_extent. rewrite EX, EY, CX, CY. cbn [f ffilt film_make f_xw f_yw box_filter].
    replace (0 + /2 - /2) with (IZR 0) by lra. replace (0 + /2 + 1 + /2) with (IZR 2) by lra. replace (0 + /2 + 2 + /2) with (IZR 3) by lra.
    now rewrite !Zfloor_IZR.
  - intros k. assert (HF : in01 (/2)) by (unfold in01; lra). unfold rnd_ok. cbn -[Pos.to_nat]. change (Pos.to_nat 1) with 1%nat. cbn. split; [auto|].
    split; [apply Permutation_refl|]. split; [apply Permutation_refl|]. split; [auto|].
    intros i j Hi. destruct i; [|lia]. destruct j; split; apply Permutation_refl.
  - intros smp _. apply HC.
  - cbn. lia.
  - destruct (G (scene_size scn) 1%nat (le_n _) (le_n _)) as (img & l & R1 & _ & R3 & R4). exists scn. split; [exact SM|]. exists img, l. auto. }
  destruct (PIC 5%Z) as (scn & SM & img & l & R1 & R3 & R4).
  assert (IN : in_film f 0 1) by (unfold in_film; rewrite EX, EY, CX, CY; lia).
  exists c, scn, img. intros w. split; [exact PM|]. split; [exact R1|]. split; [exact IN|]. intros hi.
  assert (PP : forall v, spec_ge0 (positive_part v)) by (intros v; unfold spec_ge0, positive_part; cbn; auto using Rmax_l).
  assert (PI0 : 0 < / PI) by (apply Rinv_0_lt_compat, PI_RGT_0).
  refine (proj2 (C306_lit v_items w_colour [v_lamp] (persp_raydiff c) f img l hi _ _ _ R3 R4 _ 0%Z 1%Z IN)).
  - intros a b0. cbn. lra.
  - intros q [<-|[]]; unfold spec_ge0, v_lamp, spec; cbn; lra.
  - unfold hi. apply scale_ge0; [unfold Rdiv; lra|apply PP].
  - intros smp r it t _ CR Hi HT. pose proof (v_touch it _ t Hi HT) as Z5. destruct Hi as [<-|[]]. cbn [it_material map v_lamp lp_pos lp_i].
    set (p := ray_at _ t) in *. assert (Q : 25 <= dist p vzero ^ 2).
    { unfold dist, vlength. rewrite pow2_sqrt; unfold sq_length, vsub, vmap2; cbn [vx vy vz vzero]; rewrite Z5; pose proof (Rle_0_sqr (vx p)); pose proof (Rle_0_sqr (vy p)); unfold Rsqr in *; lra. }
    set (d := dist p vzero ^ 2) in *. assert (D : / d * 100 <= 4). { apply (Rmult_le_reg_l d); [lra|]. rewrite <- Rmult_assoc, Rinv_r by lra. lra. }
    clearbody d. destruct (PP (w_colour 1)) as (P1 & P2 & P3). unfold hi. change (w_colour 0) with (w_colour 1).
    unfold spec_le, vsum, smul, vscale, spec, vadd, vmap, vmap2, Rdiv. cbn [fold_right vx vy vz]. unfold spec; cbn [vx vy vz].
    assert (K : forall a, 0 <= a -> / PI * a * (/ d * 100) + 0 <= 4 * / PI * a).
    { intros a Ha. replace (4 * / PI * a) with (/ PI * a * 4) by ring. rewrite Rplus_0_r. apply Rmult_le_compat_l; [apply Rmult_le_pos; lra|exact D]. }
    repeat split; apply K; assumption.
Qed.
(** The same triangle without its lamp. *)
Example C306_ex_dark : let s := stratified_make (IZR 0) (IZR 2) (IZR 0) (IZR 3) 1 1 true 0 1 in let f := film_make 1 2 (box_filter (/2) (/2)) 0 1 0 1 in
  exists c scn img,
  let w := mkW scn (fun k => Matte (fun _ => w_colour k) (fun _ => 0) None) [] (scene_size scn) (fun _ _ _ _ _ => (false, vzero, vzero, vzero, vzero)) in
  persp_make v_still (-1) 1 (-1) 1 0 1 0 1 90 1 2 = Ok c /\
  world_render w (persp_raydiff c) (fun _ => 0) 5 1 s (mkS 0 0 0 0 0 [] [] [] []) (fun _ => ex_rnd) 0 100 f 1 = Some (Ok img) /\ in_film f 0 1 /\
  pixel_at f img 0 1 = vzero.
Proof.
  intros s f. destruct C275_ex as (c & PM & HC & _).
  assert (EX : xstart f = 0%Z) by (unfold f; cbn; rewrite Rmult_0_r; apply (Zceil_IZR 0)).
  assert (EY : ystart f = 0%Z) by (unfold f; cbn; rewrite Rmult_0_r; apply (Zceil_IZR 0)).
  assert (CX : xcnt f = 1%Z).
  { unfold f; cbn. rewrite Rmult_0_r, Rmult_1_r, (Zceil_IZR 0), (Zceil_IZR 1). reflexivity. }
  assert (CY : ycnt f = 2%Z).
  { unfold f; cbn. rewrite Rmult_0_r, Rmult_1_r, (Zceil_IZR 0), (Zceil_IZR 2). reflexivity. }
  assert (PIC : forall md, exists scn, scene_make 4 (full_refine_items v_items 3 3) = Ok scn /\ exists img,
    world_render (mkW scn (fun k => Matte (fun _ => w_colour k) (fun _ => 0) None) [] (scene_size scn) (fun _ _ _ _ _ => (false, vzero, vzero, vzero, vzero)))
      (persp_raydiff c) (fun _ => 0) md 1 s (mkS 0 0 0 0 0 [] [] [] []) (fun _ => ex_rnd) 0 100 f 1 = Some (Ok img)).
  { intros md. destruct (C275_scene_picture 4 v_items 3 3 w_colour (fun k => Matte (fun _ => w_colour k) (fun _ => 0) None)
    (fun _ _ _ _ _ => (false, vzero, vzero, vzero, vzero)) [] (persp_raydiff c) (fun _ => 0) md
    1 2 (box_filter (/2) (/2)) 0 1 0 1 0 2 0 3 1 1 true 0 1 (mkS 0 0 0 0 0 [] [] [] []) (fun _ => ex_rnd) 0 1 100) as (scn & SM & G).
  - lia.
  - constructor; [|constructor]; cbn [it_geom geom_ok]; split; [reflexivity|]; split; [unfold faces_ok; repeat (constructor; [cbn; lia|]); constructor|intros l [=]].
  - intros it [<-|[]]; split; [reflexivity|now left].
  - left. cbn. lia.
  - intros k; eexists _, _; split; [reflexivity|]; split; [reflexivity|intros; lra].
  - intros l [].
  - unfold proper_filter; cbn. repeat split; intros; lra.
  - fold f. unfold get_sample_extent. rewrite EX, EY, CX, CY. cbn [f ffilt film_make f_xw f_yw box_filter].
    replace (0 + /2 - /2) with (IZR 0) by lra. replace (0 + /2 + 1 + /2) with (IZR 2) by lra. replace (0 + /2 + 2 + /2) with (IZR 3) by lra.
    now rewrite !Zfloor_IZR.
  - intros k. assert (HF : in01 (/2)) by (unfold in01; lra). unfold rnd_ok. cbn -[Pos.to_nat]. change (Pos.to_nat 1) with 1%nat. cbn. split; [auto|].
    split; [apply Permutation_refl|]. split; [apply Permutation_refl|]. split; [auto|].
    intros i j Hi. destruct i; [|lia]. destruct j; split; apply Permutation_refl.
  - intros smp _. destruct (HC smp) as (r & K1 & K2 & K3 & K4 & _). exists r. repeat (split; [assumption|]). intros it t l _ _ [].
  - cbn. lia.
  - destruct (G (scene_size scn) 1%nat (le_n _) (le_n _)) as (img & l & R1 & _). exists scn. split; [exact SM|]. exists img. exact R1. }
  destruct (PIC 5%Z) as (scn & SM & img & R1).
  assert (IN : in_film f 0 1) by (unfold in_film; rewrite EX, EY, CX, CY; lia).
  exists c, scn, img. intros w. split; [exact PM|]. split; [exact R1|]. split; [exact IN|].
  refine (C306_dark 4 v_items 3 3 scn (fun k => Matte (fun _ => w_colour k) (fun _ => 0) None) (scene_size scn) (fun _ _ _ _ _ => (false, vzero, vzero, vzero, vzero))
    (persp_raydiff c) (fun _ => 0) 5 1 1 2 (box_filter (/2) (/2)) 0 1 0 1 0 2 0 3 1 1 true 0 1 (mkS 0 0 0 0 0 [] [] [] []) (fun _ => ex_rnd) 0 1 100 img _ SM _ _ _ _ R1 0%Z 1%Z IN).
  - intros it [<-|[]]. reflexivity.
  - unfold proper_filter; cbn. repeat split; intros; lra.
  - fold f. unfold get_sample_extent. rewrite EX, EY, CX, CY. cbn [f ffilt film_make f_xw f_yw box_filter].
    replace (0 + /2 - /2) with (IZR 0) by lra. replace (0 + /2 + 1 + /2) with (IZR 2) by lra. replace (0 + /2 + 2 + /2) with (IZR 3) by lra.
    now rewrite !Zfloor_IZR.
  - intros k. assert (HF : in01 (/2)) by (unfold in01; lra). unfold rnd_ok. cbn -[Pos.to_nat]. change (Pos.to_nat 1) with 1%nat. cbn. split; [auto|].
    split; [apply Permutation_refl|]. split; [apply Permutation_refl|]. split; [auto|].
    intros i j Hi. destruct i; [|lia]. destruct j; split; apply Permutation_refl.
  - cbn. lia.
Qed.
