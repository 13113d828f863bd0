(** Property theorems C304: more lamps never darken a picture.  Vocabulary: S_Picture.v, S_Film.v, S_World.v, S_Superpose.v, S_Brighter.v. *)
From Coq Require Import Reals Lra Lia List ZArith Bool Permutation.
From Flocq Require Import Core.Raux.
From Verif Require Import Base M_MonteCarlo M_Aggregate M_Utility M_Spectrum M_Sampler S_Sampler M_Film S_Film P_Sampler P_Film P_Film2 P_Film3 P_Renderer.
From Verif Require Import M_Geometry S_Geometry P_Geometry P_LobeSampling M_Transform S_Transform P_Transform P_Transform2 M_Shapes S_Shapes P_ShapesMore M_BVH S_BVH
  M_Reflection S_Reflection M_Light M_Primitive S_Scene P_Scene P_Scene2 M_Material S_Material M_Integrator S_Integrator S_Integrator2 M_World S_World P_World
  P_World2 Props_Scene Props_World M_Renderer M_Render P_Render Props_Render S_Picture P_Picture M_World2 M_Camera S_Camera P_Camera Props_Picture
  S_Order P_Order Props_Order S_Superpose S_Brighter P_Superpose Props_Superpose P_Reflection2 P_Brighter Props_Brighter Props_SumPicture.
Import ListNotations.
Local Open Scope R_scope.

(** ** The film *)
Definition lights_more (a b : vec) : Prop := spec_ge0 a /\ no_darker a b.
Lemma more_sums flt x y q : (forall a b, 0 <= f_eval flt a b) -> (forall a, In a q -> lights_more (fst (snd a)) (snd (snd a))) ->
  no_darker (weighted_sum flt x y (map op1 q)) (weighted_sum flt x y (map op2 q)).
Proof.
  intros NN. unfold weighted_sum. rewrite !map_map. induction q as [|a q IH]; intros H; cbn [map S_Film.vsum]; [unfold no_darker; lra|].
  specialize (IH (fun b Hb => H b (or_intror Hb))). destruct (H a (or_introl eq_refl)) as (_ & G). revert IH.
  pose proof (nonneg_weight flt x y (op1 a) NN) as W0. unfold op1, op2 in *. cbn [op_weight op_rad] in *. set (w := if coversb flt _ _ x y then _ else _) in *.
  destruct G as (G1 & G2 & G3). unfold no_darker, vadd, vscale, vmap2, vmap; cbn [vx vy vz]. intros (I1 & I2 & I3).
  repeat split; apply Rplus_le_compat; try assumption; now apply Rmult_le_compat_l.
Qed.
(** one pixel: the clamped average of what was deposited there, up to the rounded constants *)
Lemma pixel_average xr yr flt c0 c1 c2 c3 sc x y (op : sample * (vec * vec) -> film_op) q W0 :
  proper_filter flt -> let f := film_make xr yr flt c0 c1 c2 c3 in
  (forall a, In a q -> spec_ge0 (op_rad (op a))) -> (forall a, op_splat x y (op a) = vzero) -> in_film f x y ->
  total_weight flt x y (map op q) = W0 -> 0 < W0 ->
  exists g, run_ops f (map op q) = Ok g /\
    let avg := vscale (/ W0) (weighted_sum flt x y (map op q)) in
    spec_ge0 avg /\ vclose (1e-6 * vabs1 avg) (pixel_at f (film_rgb g sc) x y) avg.
Proof.
  intros (Hxw & Hyw & NN & PP) f OG OS IN TW W.
  destruct (reconstruct xr yr flt c0 c1 c2 c3 (map op q) sc x y ltac:(lra) ltac:(lra) IN) as (g & RG & CL); [rewrite TW; lra|].
  exists g. split; [exact RG|]. cbv zeta. rewrite TW in CL. cbv zeta in CL. rewrite splat_add in CL by exact OS.
  destruct (sums_ge0 flt x y op q NN OG) as (P1 & P2 & P3). set (avg := vscale _ _) in *.
  assert (AV : spec_ge0 avg).
  { unfold avg, spec_ge0, vscale, vmap; cbn. pose proof (Rinv_0_lt_compat _ W). repeat split; apply Rmult_le_pos; lra. }
  split; [exact AV|]. fold f in CL. fold (pixel_at f (film_rgb g sc) x y) in CL.
  replace (1e-6 * vabs1 avg + Rabs sc * (1e-6 * vabs1 vzero)) with (1e-6 * vabs1 avg) in CL.
  2:{ unfold vabs1, vzero; cbn. rewrite Rabs_R0. lra. }
  replace (vadd (vmap (Rmax 0) avg) (vscale sc vzero)) with avg in CL; [exact CL|].
  destruct AV as (A1 & A2 & A3). unfold vadd, vmap, vmap2, vscale, vzero. apply V3_eq; cbn; rewrite Rmax_right by assumption; lra.
Qed.
(** a third run that sees nothing *)
Definition blind_cam (a : sample) (w : Datatypes.unit) : res (R * raydiff * Datatypes.unit) := Ok (1, mkRD ex_ray false vzero vzero vzero vzero, w).
Definition blind_hit (r : raydiff) (w : Datatypes.unit) : res (bool * Datatypes.unit) := Ok (false, w).
Definition blind_li (r : raydiff) (a : sample) (w : Datatypes.unit) : res (V3 E * Datatypes.unit) := Ok (black, w).

(** ** Statements *)
(** Two renders with the same sampler and the same random numbers for it, such that for every sample the second deposits at least what the first deposits, in
    every channel, and that is not negative: no pixel of the second picture is darker than that of the first in any channel, up to three millionths of its size
    (the constants of the colour conversion). *)
Theorem C304_more (W1 W2 : Type) (cam1 : sample -> W1 -> res (R * raydiff * W1)) hitp1 li1 (cam2 : sample -> W2 -> res (R * raydiff * W2)) hitp2 li2
    (xr yr : Z) (flt : filt) (c0 c1 c2 c3 : R) (x0 x1 y0 y1 xst yst : Z) (jitter : bool) (o c : R) (orig : sample) (rn : nat -> rnd)
    (w1 : W1) (w2 : W2) (sc : R) (fuel : nat) img1 img2 :
  proper_filter flt ->
  let f := film_make xr yr flt c0 c1 c2 c3 in
  get_sample_extent f = (x0, x1, y0, y1) ->
  let s := stratified_make (IZR x0) (IZR x1) (IZR y0) (IZR y1) xst yst jitter o c in
  let n := (xSamples s * ySamples s)%nat in
  (forall k, rnd_ok s (duplicate orig n) (rn k)) ->
  (forall a w1 w2 L1 L2 w1' w2', sent s orig x0 x1 y0 y1 a ->
     shade cam1 hitp1 li1 false n a w1 = Ok (L1, w1') -> shade cam2 hitp2 li2 false n a w2 = Ok (L2, w2') ->
     exists v1 v2, L1 = vmap Fin v1 /\ L2 = vmap Fin v2 /\ spec_ge0 v1 /\ no_darker v1 v2) ->
  (Z.to_nat (x1 - x0) * Z.to_nat (y1 - y0) < fuel)%nat ->
  render cam1 hitp1 li1 s orig rn w1 fuel f sc = Some (Ok img1) ->
  render cam2 hitp2 li2 s orig rn w2 fuel f sc = Some (Ok img2) ->
  forall x y, in_film f x y ->
    no_darker (pixel_at f img1 x y) (vadd (pixel_at f img2 x y) (spec (3e-6 * vabs1 (pixel_at f img2 x y)))).
Proof.
  intros PF f GE s n RN HS Hfu.
  assert (XC : (0 < xcnt f)%Z) by (unfold f, film_make; cbn [xcnt]; lia).
  assert (YC : (0 < ycnt f)%Z) by (unfold f, film_make; cbn [ycnt]; lia).
  destruct (extent_window f x0 x1 y0 y1) as (A & B & C & D); [exact XC|exact YC|apply PF|apply PF|exact GE|].
  assert (HX : (x0 < x1)%Z) by lia. assert (HY : (y0 < y1)%Z) by lia.
  unfold render, task. change (maximum_sample_cnt s) with n. fold n.
  destruct (task_loop cam1 hitp1 li1 false n fuel s (duplicate orig n) rn 0 w1) as [[adds1|]|] eqn:T1; try discriminate.
  destruct (task_loop cam2 hitp2 li2 false n fuel s (duplicate orig n) rn 0 w2) as [[adds2|]|] eqn:T2; try (intros; discriminate).
  assert (HS' : forall a w1 w2 w3 L1 L2 w1' w2', sent s orig x0 x1 y0 y1 a ->
     shade cam1 hitp1 li1 false n a w1 = Ok (L1, w1') -> shade cam2 hitp2 li2 false n a w2 = Ok (L2, w2') ->
     exists v1 v2 w3', L1 = vmap Fin v1 /\ L2 = vmap Fin v2 /\ lights_more v1 v2 /\ shade blind_cam blind_hit blind_li false n a w3 = Ok (vmap Fin vzero, w3')).
  { intros a p1 p2 p3 L1 L2 p1' p2' SS H1 H2. destruct (HS a p1 p2 L1 L2 p1' p2' SS H1 H2) as (v1 & v2 & G1 & G2 & G3 & G4).
    exists v1, v2, p3. unfold lights_more. repeat (split; [auto|]). unfold shade, blind_cam, blind_hit. cbn [bind andb].
    now rewrite sanitise_idem_black. }
  pose proof (fun H1 H2 => loop_sum cam1 hitp1 li1 cam2 hitp2 li2 blind_cam blind_hit blind_li x0 x1 y0 y1 xst yst jitter o c HX HY orig rn (fun _ _ => vzero) lights_more RN HS'
    (Z.to_nat (x1 - x0) * Z.to_nat (y1 - y0)) 0 (duplicate orig n) w1 w2 tt fuel adds1 adds2 eq_refl Hfu (repeat_length _ _) (fun _ => conj eq_refl eq_refl) H1 H2) as LS.
  pose proof (weight_pos W1 cam1 hitp1 li1 xr yr flt c0 c1 c2 c3 x0 x1 y0 y1 xst yst jitter o c orig rn w1 fuel adds1) as WP.
  rewrite (st_0 x0 x1 y0 y1 xst yst jitter o c HX HY) in LS, WP. fold s in LS, WP. fold n in LS. cbv zeta in WP. fold f in WP. fold n in WP.
  destruct (LS T1 T2) as (q & _ & F & -> & ->). specialize (WP PF A B C D RN Hfu T1). clear LS.
  rewrite List.Forall_forall in F.
  destruct (ops_add vadd q) as (O1 & O2 & _).
  assert (F1 : forall a, In a (map add1 q) -> exists v, snd a = vmap Fin v).
  { intros a Ha. apply in_map_iff in Ha. destruct Ha as (b & <- & _). eexists; reflexivity. }
  assert (F2 : forall a, In a (map add2 q) -> exists v, snd a = vmap Fin v).
  { intros a Ha. apply in_map_iff in Ha. destruct Ha as (b & <- & _). eexists; reflexivity. }
  specialize (WP F1). rewrite O1 in WP.
  assert (TW : forall x y, total_weight flt x y (map op2 q) = total_weight flt x y (map op1 q)).
  { intros x y. destruct (weights_add vadd flt x y q) as (-> & ->). reflexivity. }
  assert (G1 : forall a, In a q -> spec_ge0 (op_rad (op1 a))) by (intros a Ha; apply (F a Ha)).
  assert (G2 : forall a, In a q -> spec_ge0 (op_rad (op2 a))).
  { intros a Ha. destruct (F a Ha) as ((p1 & p2 & p3) & q1 & q2 & q3). unfold op2, spec_ge0; cbn [op_rad]. lra. }
  assert (INF : in_film f (xstart f) (ystart f)) by (split; lia).
  destruct (pixel_average xr yr flt c0 c1 c2 c3 sc _ _ op1 q _ PF G1 (fun _ => eq_refl) INF eq_refl (WP _ _ INF)) as (g1 & R1 & _).
  destruct (pixel_average xr yr flt c0 c1 c2 c3 sc _ _ op2 q _ PF G2 (fun _ => eq_refl) INF (TW _ _) (WP _ _ INF)) as (g2 & R2 & _).
  fold f in R1, R2.
  rewrite (deposit_run (map add1 q) F1 f g1) by (rewrite O1; exact R1). rewrite (deposit_run (map add2 q) F2 f g2) by (rewrite O2; exact R2).
  intros [= <-] [= <-]. intros x y IN.
  destruct (pixel_average xr yr flt c0 c1 c2 c3 sc x y op1 q _ PF G1 (fun _ => eq_refl) IN eq_refl (WP _ _ IN)) as (h1 & E1 & N1 & Q1).
  fold f in E1, Q1. rewrite R1 in E1. injection E1 as <-.
  destruct (pixel_average xr yr flt c0 c1 c2 c3 sc x y op2 q _ PF G2 (fun _ => eq_refl) IN (TW _ _) (WP _ _ IN)) as (h2 & E2 & N2 & Q2).
  fold f in E2, Q2. rewrite R2 in E2. injection E2 as <-.
  pose proof (more_sums flt x y q (proj1 (proj2 (proj2 PF))) F) as MS. pose proof (Rinv_0_lt_compat _ (WP x y IN)) as IW.
  set (iw := / total_weight flt x y (map op1 q)) in *. clearbody iw.
  set (v1 := weighted_sum flt x y (map op1 q)) in *. set (v2 := weighted_sum flt x y (map op2 q)) in *. clearbody v1 v2.
  set (p1 := pixel_at f (film_rgb g1 sc) x y) in *. set (p2 := pixel_at f (film_rgb g2 sc) x y) in *. clearbody p1 p2.
  assert (MA : no_darker (vscale iw v1) (vscale iw v2)).
  { destruct MS as (M1 & M2 & M3). unfold no_darker, vscale, vmap; cbn [vx vy vz]. repeat split; apply Rmult_le_compat_l; lra. }
  clear -N1 N2 Q1 Q2 MA. set (a := vscale iw v1) in *. set (b := vscale iw v2) in *. clearbody a b.
  destruct a as [a1 a2 a3], b as [b1 b2 b3], p1 as [r1 r2 r3], p2 as [s1 s2 s3].
  unfold vclose, vabs1, spec_ge0, no_darker, vadd, spec, vmap2 in *. cbn [vx vy vz] in *.
  rewrite (Rabs_right a1), (Rabs_right a2), (Rabs_right a3) in Q1 by lra. rewrite (Rabs_right b1), (Rabs_right b2), (Rabs_right b3) in Q2 by lra.
  destruct Q1 as (Q11 & Q12 & Q13), Q2 as (Q21 & Q22 & Q23).
  apply Rabs_le_inv in Q11, Q12, Q13, Q21, Q22, Q23.
  pose proof (Rle_abs s1). pose proof (Rle_abs s2). pose proof (Rle_abs s3).
  repeat split; lra.
Qed.
Print Assumptions C304_more.

(** ** Scenes with point lights and emitting shapes *)
Lemma world_emits mp items ns np sc mats ls fuel diffs : (forall it e, In it items -> it_light it = Some e -> spec_ge0 e) ->
  scene_make mp (full_refine_items items ns np) = Ok sc ->
  forall r r' i wo, hit (env_of (mkW sc mats ls fuel diffs)) r = (r', Some i) -> spec_ge0 (v_le (env_of (mkW sc mats ls fuel diffs)) i wo).
Proof.
  intros HN HS r r' i wo. cbn [env_of hit v_le w_scene w_fuel].
  unfold world_hit. cbn [w_fuel w_scene].
  destruct (scene_intersect fuel sc (rd_ray r) isect_new) as [[[[[|] q] j]|]|] eqn:EI; try (intros [=]; fail).
  intros [= _ <-]. unfold world_le, isect_le. destruct (is_prim j) as [p|] eqn:EP; [|apply zero_ge0].
  assert (HG : forall e, gp_light p = Some e -> spec_ge0 e).
  { apply (made_rec (fun p => forall e, gp_light p = Some e -> spec_ge0 e) mp (full_refine_items items ns np) sc fuel (rd_ray r) true q j); [|discriminate|exact HS|exact EI|exact EP].
    intros p' HI e. destruct (refined_light _ _ _ _ HI) as (it & A & ->). now apply HN. }
  destruct (gp_light p) as [e|]; [|apply zero_ge0]. destruct (is_dg j); [|apply zero_ge0]. unfold diffuse_l.
  destruct (Rltb _ _); [now apply HG|apply zero_ge0].
Qed.
Lemma emitting_ge0 mp items ns np sc mats fuel diffs (A : list lamp) (u : nat -> R) md time depth r k L T i k' n :
  (forall it e, In it items -> it_light it = Some e -> spec_ge0 e) -> scene_make mp (full_refine_items items ns np) = Ok sc ->
  (forall j, simple_material (mats j)) -> (forall l, In l A -> spec_ge0 (lp_i l)) ->
  whitted (mkW sc mats (map lamp_light A) fuel diffs) u md time depth r k = Some (Ok (L, T, i, k', n)) -> spec_ge0 L.
Proof.
  intros HN HS HM HA H. set (e := env_of (mkW sc mats [] fuel diffs)).
  assert (BS : forall v q p b, v_bsdf e v q = Ok (p, b) -> reflects_light b).
  { intros v r0 p b. unfold e. cbn [env_of v_bsdf]. unfold world_bsdf, isect_bsdf. cbn [w_mats].
    destruct (is_prim v) as [q|]; [|discriminate]. destruct (is_dg v) as [g|]; [|discriminate].
    destruct (shape_shading _ _) as [g'|]; cbn [bind]; [|discriminate].
    destruct (get_bsdf _ _ _ _) as [b'|] eqn:EB; cbn [bind]; [|discriminate]. intros [= _ <-]. apply (C286_materials _ _ _ _ _ (HM _) EB). }
  assert (GL : forall l, In l (map lamp_light A) -> gives_light l).
  { intros l Hl. apply in_map_iff in Hl. destruct Hl as (x & <- & Hx). apply lamp_gives. now apply HA. }
  refine (proj2 (all_lit e u md time (map lamp_light A) (v_le e) eq_refl _ BS GL depth r isect_new k L T i k' n H)).
  intros r0 r' v w Hh. exact (world_emits mp items ns np sc mats [] fuel diffs HN HS r0 r' v w Hh).
Qed.

(** A scene of matte, mirror and glass shapes, which may emit light: with lamps added, in any order, no pixel of the picture gets darker in any channel (up to three
    millionths); whatever random numbers the integrator draws in the two runs. *)
Theorem C304_world (mp : nat) (items : list item) (ns np : Z) scn mats steps diffs (A B C : list lamp) (cam : sample -> res raydiff) (u1 u : nat -> R)
    (md : Z) (depth : nat) (xr yr : Z) (flt : filt) (c0 c1 c2 c3 : R) (x0 x1 y0 y1 xst yst : Z) (jitter : bool) (o c : R) (orig : sample) (rn : nat -> rnd)
    (k1 k : nat) (sc : R) (fuel : nat) imgA img :
  (forall it e, In it items -> it_light it = Some e -> spec_ge0 e) -> scene_make mp (full_refine_items items ns np) = Ok scn ->
  (forall j, simple_material (mats j)) -> (forall l, In l (A ++ B) -> spec_ge0 (lp_i l)) ->
  steady_stream u1 -> steady_stream u -> Permutation C (A ++ B) ->
  proper_filter flt ->
  let f := film_make xr yr flt c0 c1 c2 c3 in
  get_sample_extent f = (x0, x1, y0, y1) ->
  let s := stratified_make (IZR x0) (IZR x1) (IZR y0) (IZR y1) xst yst jitter o c in
  (forall i, rnd_ok s (duplicate orig (xSamples s * ySamples s)) (rn i)) ->
  (Z.to_nat (x1 - x0) * Z.to_nat (y1 - y0) < fuel)%nat ->
  let w lamps := mkW scn mats (map lamp_light lamps) steps diffs in
  world_render (w A) cam u1 md depth s orig rn k1 fuel f sc = Some (Ok imgA) ->
  world_render (w C) cam u md depth s orig rn k fuel f sc = Some (Ok img) ->
  forall x y, in_film f x y ->
    no_darker (pixel_at f imgA x y) (vadd (pixel_at f img x y) (spec (3e-6 * vabs1 (pixel_at f img x y)))).
Proof.
  intros HN HS HM HA U1 U P PF f GE s RN Hfu w. unfold world_render.
  apply (C304_more nat nat); [exact PF|exact GE|exact RN| |exact Hfu].
  intros a q1 q2 L1 L2 q1' q2' SS. unfold shade, world_cam. destruct (cam a) as [r|]; cbn [bind]; [|discriminate].
  unfold world_seen. cbn [w w_fuel w_scene]. destruct (scene_intersect_p _ _ _) as [[h|]|]; cbn [bind]; try discriminate.
  destruct (h && Rltb 0 1)%bool.
  2:{ intros [= <- _] [= <- _]. exists vzero, vzero. rewrite !sanitise_idem_black. split; [reflexivity|]. split; [reflexivity|].
      unfold spec_ge0, no_darker, vzero; cbn. lra. }
  unfold world_li. set (r1 := scale_differential r _).
  destruct (whitted (w A) u1 md (stime a) depth r1 q1) as [[[[[[La Ta] ia] ka] na]|]|] eqn:WA; cbn [bind]; try discriminate. intros [= <- _].
  destruct (whitted (w C) u md (stime a) depth r1 q2) as [[[[[[Lc Tc] ic] kc] nc]|]|] eqn:WC; cbn [bind]; try discriminate. intros [= <- _].
  pose proof (C286_world scn mats steps diffs A B C u1 u md (stime a) depth r1 q1 q2 _ _ _ _ _ _ _ _ _ _ HM (fun l Hl => HA l (in_or_app _ _ _ (or_intror Hl))) U1 U P WA WC) as ND.
  pose proof (emitting_ge0 mp items ns np scn mats steps diffs A u1 md (stime a) depth r1 q1 _ _ _ _ _ HN HS HM (fun l Hl => HA l (in_or_app _ _ _ (or_introl Hl))) WA) as GA.
  assert (GC : spec_ge0 Lc). { destruct GA as (?&?&?), ND as (?&?&?). unfold spec_ge0. lra. }
  assert (K : forall v, spec_ge0 v -> sanitise (vmap (fun x => emul x (Fin 1)) (vmap Fin v)) = vmap Fin v).
  { intros v V0. replace (vmap (fun x => emul x (Fin 1)) (vmap Fin v)) with (vmap Fin v); [apply sanitise_keeps; exact V0|].
    unfold vmap; cbn. now rewrite !Rmult_1_r. }
  exists La, Lc. rewrite (K La GA), (K Lc GC). auto.
Qed.
Print Assumptions C304_world.

(** The hypotheses hold for the two pictures of C302_ex: the triangle in the light of one lamp, and of two. *)
Example C304_ex : exists c scn img img2,
  let w lamps := mkW scn (fun k => Matte (fun _ => w_colour k) (fun _ => 0) None) (map lamp_light lamps) (scene_size scn) (fun _ _ _ _ _ => (false, vzero, vzero, vzero, vzero)) in
  let s := stratified_make (IZR 0) (IZR 2) (IZR 0) (IZR 3) 1 1 true 0 1 in let f := film_make 1 2 (box_filter (/2) (/2)) 0 1 0 1 in
  persp_make v_still (-1) 1 (-1) 1 0 1 0 1 90 1 2 = Ok c /\
  world_render (w [v_lamp]) (persp_raydiff c) (fun _ => 0) 5 1 s (mkS 0 0 0 0 0 [] [] [] []) (fun _ => ex_rnd) 0 100 f 1 = Some (Ok img) /\
  world_render (w [v_lamp; v_lamp]) (persp_raydiff c) (fun _ => /2) 5 1 s (mkS 0 0 0 0 0 [] [] [] []) (fun _ => ex_rnd) 7 100 f 1 = Some (Ok img2) /\
  in_film f 0 1 /\
  no_darker (pixel_at f img 0 1) (vadd (pixel_at f img2 0 1) (spec (3e-6 * vabs1 (pixel_at f img2 0 1)))).
Proof.
  destruct C302_ex as (c & scn & img & img2 & PM & SM & R1 & R2 & IN & _).
  exists c, scn, img, img2. intros w s f. split; [exact PM|]. split; [exact R1|]. split; [exact R2|]. split; [exact IN|].
  assert (EX : xstart f = 0%Z) by (unfold f; cbn; rewrite Rmult_0_r; apply (Zceil_IZR 0)).
  assert (EY : ystart f = 0%Z) by (unfold f; cbn; rewrite Rmult_0_r; apply (Zceil_IZR 0)).
  assert (CX : xcnt f = 1%Z).
  { unfold f; cbn. rewrite Rmult_0_r, Rmult_1_r, (Zceil_IZR 0), (Zceil_IZR 1). reflexivity. }
  assert (CY : ycnt f = 2%Z).
  { unfold f; cbn. rewrite Rmult_0_r, Rmult_1_r, (Zceil_IZR 0), (Zceil_IZR 2). reflexivity. }
  refine (C304_world 4 v_items 3 3 scn (fun k => Matte (fun _ => w_colour k) (fun _ => 0) None) (scene_size scn) (fun _ _ _ _ _ => (false, vzero, vzero, vzero, vzero))
    [v_lamp] [v_lamp] [v_lamp; v_lamp] (persp_raydiff c) (fun _ => 0) (fun _ => /2) 5 1
    1 2 (box_filter (/2) (/2)) 0 1 0 1 0 2 0 3 1 1 true 0 1 (mkS 0 0 0 0 0 [] [] [] []) (fun _ => ex_rnd) 0 7 1 100 img img2 _ SM _ _ _ _ (Permutation_refl _) _ _ _ _ R1 R2 0%Z 1%Z IN).
  - intros it e [<-|[]]. discriminate.
  - intros j. cbn. intros. lra.
  - intros q [<-|[<-|[]]]; unfold spec_ge0, v_lamp, spec; cbn; lra.
  - intros j. unfold in_unit. lra.
  - intros j. unfold in_unit. lra.
  - unfold proper_filter; cbn. repeat split; intros; lra.
  - fold f. unfold get_sample_extent. rewrite EX, EY, CX, CY. cbn [f ffilt film_make f_xw f_yw box_filter].
    replace (0 + /2 - /2) with (IZR 0) by lra. replace (0 + /2 + 1 + /2) with (IZR 2) by lra. replace (0 + /2 + 2 + /2) with (IZR 3) by lra.
    now rewrite !Zfloor_IZR.
  - intros k. assert (HF : in01 (/2)) by (unfold in01; lra). unfold rnd_ok. cbn -[Pos.to_nat]. change (Pos.to_nat 1) with 1%nat. cbn. split; [auto|].
    split; [apply Permutation_refl|]. split; [apply Permutation_refl|]. split; [auto|].
    intros i j Hi. destruct i; [|lia]. destruct j; split; apply Permutation_refl.
  - cbn. lia.
Qed.
