(** Property theorems C303: a picture in c times as much light is c times as bright.  Vocabulary: S_Picture.v, S_Film.v, S_World.v, S_Integrator2.v,
    S_Superpose.v, S_Brighter.v. *)
From Coq Require Import Reals Lra Lia List ZArith Bool Permutation.
From Flocq Require Import Core.Raux.
From Verif Require Import Base M_MonteCarlo M_Aggregate M_Utility M_Spectrum M_Sampler S_Sampler M_Film S_Film P_Sampler P_Film P_Film2 P_Film3 P_Renderer.
From Verif Require Import M_Geometry S_Geometry P_Geometry P_LobeSampling M_Transform S_Transform P_Transform P_Transform2 M_Shapes S_Shapes P_ShapesMore M_BVH S_BVH
  M_Reflection S_Reflection M_Light M_Primitive S_Scene P_Scene P_Scene2 M_Material S_Material M_Integrator S_Integrator S_Integrator2 M_World S_World P_World
  P_World2 Props_Scene Props_World M_Renderer M_Render P_Render Props_Render S_Picture P_Picture M_World2 M_Camera S_Camera P_Camera Props_Picture
  S_Order P_Order Props_Order S_Superpose S_Brighter P_Superpose Props_Superpose P_Reflection2 P_Brighter Props_Brighter Props_SumPicture.
Import ListNotations.
Local Open Scope R_scope.

(** ** The film *)
Definition scaled (c : R) (a _ : vec) : vec := vscale c a.
Lemma sums_scale c flt x y q : weighted_sum flt x y (map (op3 (scaled c)) q) = vscale c (weighted_sum flt x y (map op1 q)).
Proof.
  unfold weighted_sum. rewrite !map_map. induction q as [|a q IH]; cbn [map S_Film.vsum]; [now rewrite v_scale0|]. rewrite IH.
  unfold op1, op3, scaled. cbn [op_weight op_rad]. set (w := if coversb flt _ _ x y then _ else _). unfold vadd, vscale, vmap2, vmap. apply V3_eq; cbn; ring.
Qed.
Lemma pixel_scale c sc l w : 0 <= c -> pixel_rgb sc (M_Film.mkP (vscale c l) vzero w) = vscale c (pixel_rgb sc (M_Film.mkP l vzero w)).
Proof.
  intros C0. unfold pixel_rgb. cbn [pL pS pW]. rewrite xyz2rgb_scale. set (v := xyz2rgb l).
  assert (Z0 : vscale sc (xyz2rgb vzero) = vzero) by (unfold xyz2rgb, vscale, vmap, vzero; apply V3_eq; cbn; ring). rewrite Z0.
  assert (A0 : forall u, vadd u vzero = u) by (intros [u1 u2 u3]; unfold vadd, vmap2, vzero; apply V3_eq; cbn; lra). rewrite !A0.
  destruct (negb (Reqb w 0)); [|reflexivity].
  assert (M : forall r, Rmax 0 (c * r / w) = c * Rmax 0 (r / w)).
  { intros r. replace (c * r / w) with (c * (r / w)) by (unfold Rdiv; ring). rewrite <- RmaxRmult by exact C0. now rewrite Rmult_0_r. }
  unfold vscale, vmap. apply V3_eq; cbn; apply M.
Qed.

(** ** Statements *)
(** Two renders with the same sampler and the same random numbers for it, such that for every sample the second deposits [c] times what the first deposits:
    when the first succeeds so does the second, and every pixel of its picture is exactly [c] times the pixel of the first. *)
Theorem C303_scaled (W W' : Type) (cam : sample -> W -> res (R * raydiff * W)) hitp li (cam' : sample -> W' -> res (R * raydiff * W')) hitp' li' (k : R)
    (xr yr : Z) (flt : filt) (c0 c1 c2 c3 : R) (x0 x1 y0 y1 xst yst : Z) (jitter : bool) (o c : R) (orig : sample) (rn : nat -> rnd)
    (w : W) (w' : W') (sc : R) (fuel : nat) img :
  0 <= k -> 0 < f_xw flt -> 0 < f_yw flt -> (x0 < x1)%Z -> (y0 < y1)%Z ->
  let f := film_make xr yr flt c0 c1 c2 c3 in
  let s := stratified_make (IZR x0) (IZR x1) (IZR y0) (IZR y1) xst yst jitter o c in
  let n := (xSamples s * ySamples s)%nat in
  (forall j, rnd_ok s (duplicate orig n) (rn j)) ->
  (forall a w w' L w1, sent s orig x0 x1 y0 y1 a -> shade cam hitp li false n a w = Ok (L, w1) ->
     exists v w1', L = vmap Fin v /\ spec_ge0 v /\ shade cam' hitp' li' false n a w' = Ok (vmap Fin (vscale k v), w1')) ->
  (Z.to_nat (x1 - x0) * Z.to_nat (y1 - y0) < fuel)%nat ->
  render cam hitp li s orig rn w fuel f sc = Some (Ok img) ->
  exists img', render cam' hitp' li' s orig rn w' fuel f sc = Some (Ok img') /\
    forall x y, in_film f x y -> pixel_at f img' x y = vscale k (pixel_at f img x y).
Proof.
  intros K0 FX FY HX HY f s n RN HS Hfu.
  unfold render, task. change (maximum_sample_cnt s) with n. fold n.
  destruct (task_loop cam hitp li false n fuel s (duplicate orig n) rn 0 w) as [[adds|]|] eqn:T1; try discriminate.
  assert (HS3 : forall a w1 w2 w3 L1 L2 w1' w2', sent s orig x0 x1 y0 y1 a -> shade cam hitp li false n a w1 = Ok (L1, w1') -> shade cam hitp li false n a w2 = Ok (L2, w2') ->
    exists v1 v2 w3', L1 = vmap Fin v1 /\ L2 = vmap Fin v2 /\ ge0_both v1 v2 /\ shade cam' hitp' li' false n a w3 = Ok (vmap Fin (scaled k v1 v2), w3')).
  { intros a p1 p2 p3 L1 L2 p1' p2' SS H1 H2. destruct (HS a p1 p3 L1 p1' SS H1) as (v1 & w3 & E1 & N1 & E3). destruct (HS a p2 p3 L2 p2' SS H2) as (v2 & _ & E2 & N2 & _).
    exists v1, v2, w3. unfold ge0_both. auto 6. }
  pose proof (fun H1 H2 => loop_sum cam hitp li cam hitp li cam' hitp' li' x0 x1 y0 y1 xst yst jitter o c HX HY orig rn (scaled k) ge0_both RN HS3
    (Z.to_nat (x1 - x0) * Z.to_nat (y1 - y0)) 0 (duplicate orig n) w w w' fuel adds adds eq_refl Hfu (repeat_length _ _) (fun _ => conj eq_refl eq_refl) H1 H2) as LS.
  rewrite (st_0 x0 x1 y0 y1 xst yst jitter o c HX HY) in LS. fold s in LS. fold n in LS.
  destruct (LS T1 T1) as (q & T3 & _ & EA & _). clear LS. rewrite T3. subst adds.
  destruct (ops_add (scaled k) q) as (O1 & _ & O3). destruct (weights_add (scaled k) flt) with (x := 0%Z) (y := 0%Z) (q := q) as [_ _].
  assert (F1 : forall a, In a (map add1 q) -> exists v, snd a = vmap Fin v).
  { intros a Ha. apply in_map_iff in Ha. destruct Ha as (b & <- & _). eexists; reflexivity. }
  assert (F3 : forall a, In a (map (add3 (scaled k)) q) -> exists v, snd a = vmap Fin v).
  { intros a Ha. apply in_map_iff in Ha. destruct Ha as (b & <- & _). eexists; reflexivity. }
  pose proof (wf_make xr yr flt c0 c1 c2 c3) as WF. fold f in WF.
  destruct (run_ops_ok (map op1 q) f WF FX FY) as (g1 & G1 & WG1 & SG1 & P1).
  destruct (run_ops_ok (map (op3 (scaled k)) q) f WF FX FY) as (g3 & G3 & WG3 & SG3 & P3).
  rewrite (deposit_run (map add1 q) F1 f g1) by (rewrite O1; exact G1). rewrite (deposit_run _ F3 f g3) by (rewrite O3; exact G3).
  intros [= <-]. exists (film_rgb g3 sc). split; [reflexivity|]. intros x y IN. unfold pixel_at.
  assert (E1 : xstart f = xstart g1 /\ ystart f = ystart g1) by (split; symmetry; apply SG1).
  assert (E3 : xstart f = xstart g3 /\ ystart f = ystart g3) by (split; symmetry; apply SG3).
  replace (nth (Z.to_nat (x - xstart f)) (nth (Z.to_nat (y - ystart f)) (film_rgb g1 sc) []) vzero) with (pixel_rgb sc (pix g1 x y)).
  2:{ destruct E1 as [-> ->]. symmetry. apply film_rgb_nth; [exact WG1|]. now apply (same_in f). }
  replace (nth (Z.to_nat (x - xstart f)) (nth (Z.to_nat (y - ystart f)) (film_rgb g3 sc) []) vzero) with (pixel_rgb sc (pix g3 x y)).
  2:{ destruct E3 as [-> ->]. symmetry. apply film_rgb_nth; [exact WG3|]. now apply (same_in f). }
  assert (PX : pix f x y = pixel0) by (apply make_pix; exact IN).
  destruct (P1 x y IN) as (A1 & B1 & D1). destruct (P3 x y IN) as (A3 & B3 & D3). rewrite PX in A1, B1, D1, A3, B3, D3. cbn [pL pS pW pixel0] in A1, B1, D1, A3, B3, D3.
  rewrite vadd_0_l in A1, B1, A3, B3. change (ffilt f) with flt in A1, B1, D1, A3, B3, D3.
  rewrite splat_add in B1, B3 by reflexivity. rewrite rgb2xyz_0 in B1, B3. rewrite sums_scale, rgb2xyz_scale, <- A1 in A3.
  rewrite <- (proj1 (weights_add (scaled k) flt x y q)), <- D1 in D3.
  destruct (pix g1 x y) as [l1 s1 u1], (pix g3 x y) as [l3 s3 u3]. cbn [pL pS pW] in *. subst s1 l3 s3 u3. now apply pixel_scale.
Qed.
Print Assumptions C303_scaled.

(** ** Scenes lit by point lights *)
Definition lamp_times (c : R) (l : lamp) : lamp := mkLamp (lp_pos l) (vscale c (lp_i l)).
Lemma lamp_times_sample c l p eps a t : lt_sample (lamp_light (lamp_times c l)) p eps a t = lt_sample (stronger_light c (lamp_light l)) p eps a t.
Proof.
  unfold lamp_light, lamp_times, stronger_light, point_light, point_sample_l. cbn [lt_sample lp_pos lp_i ls_L ls_wi ls_pdf ls_vis bind].
  f_equal. f_equal. f_equal. f_equal. unfold vscale, sdiv, vmap; cbn. apply V3_eq; cbn; unfold Rdiv; ring.
Qed.
Lemma ones_times c {V} (e : env V) p n wo eps tm b ls : ones e p n wo eps tm b (map (stronger_light c) (map lamp_light ls)) = ones e p n wo eps tm b (map lamp_light (map (lamp_times c) ls)).
Proof.
  induction ls as [|l ls IH]; cbn [map ones]; [reflexivity|]. rewrite IH. unfold one. rewrite lamp_times_sample. reflexivity.
Qed.
Lemma le_times c r ls : fold_right (fun l acc => vadd (lt_le l r) acc) vzero (map (stronger_light c) (map lamp_light ls)) =
  fold_right (fun l acc => vadd (lt_le l r) acc) vzero (map lamp_light (map (lamp_times c) ls)).
Proof.
  induction ls as [|l ls IH]; cbn [map fold_right]; [reflexivity|]. rewrite IH. f_equal.
  unfold stronger_light, lamp_light, point_light; cbn [lt_le]. unfold base_le, vscale, spec, vmap. apply V3_eq; cbn; ring.
Qed.
Lemma world_times mp items ns np sc mats fuel diffs (c : R) (A : list lamp) (u1 u : nat -> R) md time depth r k1 k L T i k' n :
  (forall it, In it items -> it_light it = None) -> scene_make mp (full_refine_items items ns np) = Ok sc ->
  (forall j, one_transmission (mats j)) -> steady_stream u1 -> steady_stream u ->
  let w lamps := mkW sc mats (map lamp_light lamps) fuel diffs in
  (forall p l, shows (env_of (w A)) p -> In l A -> lp_pos l <> p /\
     (bright (vscale c (vscale (/ dist p (lp_pos l) ^ 2) (lp_i l))) <-> bright (vscale (/ dist p (lp_pos l) ^ 2) (lp_i l)))) ->
  whitted (w A) u1 md time depth r k1 = Some (Ok (L, T, i, k', n)) ->
  exists k2, whitted (w (map (lamp_times c) A)) u md time depth r k = Some (Ok (vscale c L, T, i, k2, n)).
Proof.
  intros HN HS HM U1 U w HB H. set (e := env_of (w A)).
  assert (SE : renderer_li (stronger c e) u1 md time (whitted_local (stronger c e) u1) depth r isect_new k1 = Some (Ok (vscale c L, T, i, k', n))).
  { apply C272_stronger_partial; [reflexivity| |exact H].
    intros p SP l eps a t Li wi pdf vis Hl. apply in_map_iff in Hl. destruct Hl as (x & <- & Hx). destruct (HB p x SP Hx) as (NE & BB).
    destruct (lamp_sample x p eps a t NE) as (vis0 & -> & _). intros Q. injection Q as <- _ _ _. exact BB. }
  assert (SB : steady_surfaces e).
  { intros v r0 p b. unfold e. cbn [env_of v_bsdf]. unfold world_bsdf, isect_bsdf. cbn [w w_mats].
    destruct (is_prim v) as [q|]; [|discriminate]. destruct (is_dg v) as [g|]; [|discriminate].
    destruct (shape_shading _ _) as [g'|]; cbn [bind]; [|discriminate].
    destruct (get_bsdf _ _ _ _) as [b'|] eqn:EB; cbn [bind]; [|discriminate]. intros [= _ <-].
    apply (C279_materials _ _ _ _ _ (HM _) EB). }
  assert (SL1 : forall l, In l (map (stronger_light c) (map lamp_light A)) -> steady_light l).
  { intros l Hl. rewrite map_map in Hl. apply in_map_iff in Hl. destruct Hl as (x & <- & _). intros p eps a a' t. reflexivity. }
  assert (SL2 : forall l, In l (map lamp_light (map (lamp_times c) A)) -> steady_light l).
  { intros l Hl. apply in_map_iff in Hl. destruct Hl as (x & <- & _). intros p eps a a' t. reflexivity. }
  assert (W : related e (fun a b c => c = a) (map (stronger_light c) (map lamp_light A)) (map (stronger_light c) (map lamp_light A)) (map lamp_light (map (lamp_times c) A))
    (fun v w => vscale c (v_le e v w)) (fun v w => vscale c (v_le e v w)) (v_le e) u1 u1 u md time depth).
  { apply whole_related; try assumption.
    - reflexivity.
    - intros; congruence.
    - intros; congruence.
    - reflexivity.
    - intros r0 r' v w0 Hh. pose proof (proj2 (proj2 (world_unlit mp items ns np sc mats fuel diffs HN HS)) r0 r' v w0 Hh) as E0.
      change (v_le (env_of (mkW sc mats [] fuel diffs)) v w0) with (v_le e v w0) in E0. rewrite E0. now rewrite v_scale0.
    - intros r0. rewrite !sum_app. symmetry. apply le_times.
    - intros v r0 p n0 wo b j1 j2 j x y j1' j2'. rewrite !local_ones by (reflexivity || assumption). rewrite ones_times.
      destruct (ones e _ _ _ _ _ _ _) as [x'|] eqn:O1; cbn [bind]; [|discriminate]. intros [= <- _] _. eauto. }
  destruct (W _ _ _ _ k _ _ _ _ _ _ _ _ _ _ SE SE) as (-> & _ & _ & _ & L' & k2 & E & ->).
  exists k2. exact E.
Qed.

(** A scene of matte, mirror and glass shapes without area lights: the picture in the light of lamps [c] times as strong is, pixel by pixel, exactly [c] times
    the picture in the light of the lamps; whatever random numbers the integrator draws in the two runs.  Partial: provided that no lamp's light crosses the
    10^-5 below which integrators treat it as black, at any point of a surface which some ray meets, and that no lamp touches such a point. *)
Theorem C303_world_partial (mp : nat) (items : list item) (ns np : Z) scn mats steps diffs (lamps : list lamp) (k : R) (cam : sample -> res raydiff) (u1 u : nat -> R)
    (md : Z) (depth : nat) (xr yr : Z) (flt : filt) (c0 c1 c2 c3 : R) (x0 x1 y0 y1 xst yst : Z) (jitter : bool) (o c : R) (orig : sample) (rn : nat -> rnd)
    (j1 j : nat) (sc : R) (fuel : nat) img :
  (forall it, In it items -> it_light it = None) -> scene_make mp (full_refine_items items ns np) = Ok scn ->
  (forall j, simple_material (mats j)) -> (forall l, In l lamps -> spec_ge0 (lp_i l)) ->
  steady_stream u1 -> steady_stream u -> 0 <= k ->
  let w lamps := mkW scn mats (map lamp_light lamps) steps diffs in
  (forall p l, shows (env_of (w lamps)) p -> In l lamps -> lp_pos l <> p /\
     (bright (vscale k (vscale (/ dist p (lp_pos l) ^ 2) (lp_i l))) <-> bright (vscale (/ dist p (lp_pos l) ^ 2) (lp_i l)))) ->
  0 < f_xw flt -> 0 < f_yw flt -> (x0 < x1)%Z -> (y0 < y1)%Z ->
  let f := film_make xr yr flt c0 c1 c2 c3 in
  let s := stratified_make (IZR x0) (IZR x1) (IZR y0) (IZR y1) xst yst jitter o c in
  (forall i, rnd_ok s (duplicate orig (xSamples s * ySamples s)) (rn i)) ->
  (Z.to_nat (x1 - x0) * Z.to_nat (y1 - y0) < fuel)%nat ->
  world_render (w lamps) cam u1 md depth s orig rn j1 fuel f sc = Some (Ok img) ->
  exists img', world_render (w (map (fun l => mkLamp (lp_pos l) (vscale k (lp_i l))) lamps)) cam u md depth s orig rn j fuel f sc = Some (Ok img') /\
    forall x y, in_film f x y -> pixel_at f img' x y = vscale k (pixel_at f img x y).
Proof.
  intros HN HS HM HA U1 U K0 w HB FX FY HX HY f s RN Hfu. unfold world_render.
  apply (C303_scaled nat nat); [exact K0|exact FX|exact FY|exact HX|exact HY|exact RN| |exact Hfu].
  intros a q1 q3 L1 q1' SS. unfold shade, world_cam. destruct (cam a) as [r|]; cbn [bind]; [|discriminate].
  unfold world_seen. cbn [w w_fuel w_scene]. destruct (scene_intersect_p _ _ _) as [[h|]|]; cbn [bind]; try discriminate.
  destruct (h && Rltb 0 1)%bool.
  2:{ intros [= <- _]. exists vzero, q3. assert (Z0 : spec_ge0 vzero) by (unfold spec_ge0, vzero; cbn; lra).
      rewrite v_scale0. rewrite !sanitise_idem_black. auto. }
  unfold world_li. set (r1 := scale_differential r _).
  destruct (whitted (w lamps) u1 md (stime a) depth r1 q1) as [[[[[[La Ta] ia] ka] na]|]|] eqn:WA; cbn [bind]; try discriminate. intros [= <- _].
  assert (OT : forall j, one_transmission (mats j)) by (intros i; specialize (HM i); destruct (mats i); try contradiction; exact Logic.I).
  destruct (world_times mp items ns np scn mats steps diffs k lamps u1 u md (stime a) depth r1 q1 q3 _ _ _ _ _ HN HS OT U1 U HB WA) as (k2 & WC).
  pose proof (world_ge0 mp items ns np scn mats steps diffs lamps u1 md (stime a) depth r1 q1 _ _ _ _ _ HN HS HM HA U1 WA) as GA.
  fold (w (map (lamp_times k) lamps)) in WC.
  change (fun l => mkLamp (lp_pos l) (vscale k (lp_i l))) with (lamp_times k). rewrite WC. cbn [bind].
  assert (K : forall v, spec_ge0 v -> sanitise (vmap (fun x => emul x (Fin 1)) (vmap Fin v)) = vmap Fin v).
  { intros v V0. replace (vmap (fun x => emul x (Fin 1)) (vmap Fin v)) with (vmap Fin v); [apply sanitise_keeps; exact V0|].
    unfold vmap; cbn. now rewrite !Rmult_1_r. }
  exists La, k2. rewrite (K La GA). rewrite K by (now apply scale_ge0). auto.
Qed.
Print Assumptions C303_world_partial.

(** ** The hypotheses are met *)
(** What a query that found something leaves behind is the record of a hit with one of the scene's primitives. *)
Definition rec_hit (arr : list gprim) (st : bool * ray * isect) : Prop :=
  let '(b, _, i) := st in b = true -> exists p h r, In p arr /\ shape_intersect (gp_shape p) r = Ok (Some h) /\ i = record_hit p h.
Lemma leaf_hit arr l : forall st st', rec_hit arr st -> sc_leaf (prim_at arr) l st = Ok st' -> rec_hit arr st'.
Proof.
  induction l as [|k l IH]; intros [[b r] i] st' HR; cbn [sc_leaf]; [now intros [= <-]|].
  unfold prim_at at 1. destruct (nth_error arr k) as [p|] eqn:EP; cbn [bind]; [|discriminate].
  unfold gp_intersect. destruct (shape_intersect (gp_shape p) r) as [[h|]|] eqn:SI; cbn [bind]; [| |discriminate].
  - apply IH. intros _. exists p, h, r. split; [now apply nth_error_In in EP|]. split; [exact SI|reflexivity].
  - apply IH. destruct b; exact HR.
Qed.
Lemma trav_hit arr fuel nodes : forall idx todo st st', rec_hit arr st -> sc_traverse fuel (prim_at arr) nodes idx todo st = Ok (Some st') -> rec_hit arr st'.
Proof.
  induction fuel as [|fuel IH]; intros idx todo [[b r] i] st' HR; cbn [sc_traverse]; [discriminate|].
  destruct (nth_error nodes idx) as [nd|]; [|discriminate].
  destruct (box_test _ r).
  - destruct (0 <? l_nprim nd)%nat.
    + destruct (sc_leaf _ _ _) as [st1|] eqn:E; cbn [bind]; [|discriminate]. apply leaf_hit in E; [|exact HR].
      destruct todo; [now intros [= <-]|now apply IH].
    + destruct (64 <=? length todo)%nat; [discriminate|]. destruct (Rltb _ 0); now apply IH.
  - destruct todo; [now intros [= <-]|now apply IH].
Qed.
Lemma shows_hit mp items ns np sc mats ls fuel diffs p : scene_make mp (full_refine_items items ns np) = Ok sc ->
  shows (env_of (mkW sc mats ls fuel diffs)) p ->
  exists q h r, In q (full_refine_items items ns np) /\ shape_intersect (gp_shape q) r = Ok (Some h) /\ p = dg_p (h_dg h).
Proof.
  intros SM (r & r1 & v & b & H & B). cbn [env_of hit w_scene w_fuel v_bsdf] in H, B. unfold world_hit in H. cbn [w_fuel w_scene] in H.
  destruct (scene_intersect fuel sc (rd_ray r) isect_new) as [[[[[|] q0] j]|]|] eqn:EI; try discriminate H. injection H as _ <-.
  destruct (world_bsdf _ j r1) as [bb|]; cbn [bind] in B; [|discriminate]. injection B as <- _.
  unfold scene_intersect in EI. destruct sc as [[nodes arr]|]; [|discriminate].
  assert (R0 : rec_hit arr (false, rd_ray r, isect_new)) by discriminate.
  destruct (trav_hit _ _ _ _ _ _ _ R0 EI eq_refl) as (p & h & r2 & Hp & HI & ->).
  exists p, h, r2. split; [apply (scene_arr _ _ _ _ _ SM Hp)|]. split; [exact HI|reflexivity].
Qed.
Lemma v_hit q h r : In q (full_refine_items v_items 3 3) -> shape_intersect (gp_shape q) r = Ok (Some h) ->
  -3 <= vx (dg_p (h_dg h)) <= 3 /\ -3 <= vy (dg_p (h_dg h)) <= 5 /\ vz (dg_p (h_dg h)) = 5.
Proof.
  intros [<-|[]]. cbn [gp_shape shape_intersect]. change (3 * Z.of_nat 0)%Z with 0%Z. intros HI.
  destruct (tri_hit_fields _ _ _ _ HI) as (_ & EP & _). rewrite EP. revert HI. clear EP.
  match goal with |- tri_intersect ?m _ _ = _ -> _ => change (tri_intersect m (3 * Z.of_nat 0) r = Ok (Some h) -> -3 <= vx (ray_at r (h_t h)) <= 3 /\ -3 <= vy (ray_at r (h_t h)) <= 5 /\ vz (ray_at r (h_t h)) = 5) end.
  rewrite P_Triangle.tri_intersect_unfold; [|unfold faces_ok; repeat (constructor; [cbn; lia|]); constructor|cbn; lia].
  unfold S_Shapes.corner. cbn [id_base b_o2w]. rewrite !t_point_I.
  change (Z.to_nat (nth (3 * 0 + 0) [0; 1; 2]%Z 0%Z)) with 0%nat.
  change (Z.to_nat (nth (3 * 0 + 1) [0; 1; 2]%Z 0%Z)) with 1%nat.
  change (Z.to_nat (nth (3 * 0 + 2) [0; 1; 2]%Z 0%Z)) with 2%nat. cbn [nth].
  destruct (Reqb _ _) eqn:E0; [discriminate|]. apply Reqb_false in E0.
  match goal with |- (if ?c then _ else _) = _ -> _ => destruct c eqn:K1; [discriminate|] end.
  match goal with |- (if ?c then _ else _) = _ -> _ => destruct c eqn:K2; [discriminate|] end. cbv zeta.
  match goal with |- (if ?c then _ else _) = _ -> _ => destruct c eqn:K3; [discriminate|] end.
  destruct (tri_uvs _ _) as [uvs|]; cbn [bind]; [|discriminate]. cbv iota.
  intros H; injection H as <-. cbn [h_t h_dg]. rewrite P_Triangle.mt_sound by exact E0.
  apply orb_false_iff in K1, K2. destruct K1 as [A1 A2], K2 as [A3 A4]. apply Rltb_false in A1, A2, A3, A4.
  set (b1 := P_Triangle.mt_b1 _ _ _ _) in *. set (b2 := P_Triangle.mt_b2 _ _ _ _) in *. clearbody b1 b2.
  unfold vadd, vscale, vmap2, vmap; cbn. lra.
Qed.
Lemma v_bright p m : -3 <= vx p <= 3 -> -3 <= vy p <= 5 -> vz p = 5 -> 1 <= m -> bright (vscale m (vscale (/ dist p vzero ^ 2) (spec 100))).
Proof.
  intros X Y W M. unfold dist, vlength. assert (Q : 25 <= sq_length (vsub vzero p) <= 59).
  { unfold sq_length, vsub, vmap2; cbn [vx vy vz vzero]. rewrite W. assert (vx p * vx p <= 9) by nra. assert (vy p * vy p <= 25) by nra. pose proof (Rle_0_sqr (vx p)). pose proof (Rle_0_sqr (vy p)). unfold Rsqr in *. split; lra. }
  rewrite pow2_sqrt by lra. set (d := sq_length _) in *. assert (D0 : 0 < d) by lra. assert (1 <= / d * 100).
  { apply (Rmult_le_reg_l d); [lra|]. rewrite <- Rmult_assoc, Rinv_r, Rmult_1_l by lra. lra. }
  left. unfold vscale, spec, vmap; cbn. nra.
Qed.
(** The picture of C275_ex with its lamp three times as strong. *)
Example C303_ex : exists c scn img img3,
  let w lamps := mkW scn (fun k => Matte (fun _ => w_colour k) (fun _ => 0) None) (map lamp_light lamps) (scene_size scn) (fun _ _ _ _ _ => (false, vzero, vzero, vzero, vzero)) in
  let s := stratified_make (IZR 0) (IZR 2) (IZR 0) (IZR 3) 1 1 true 0 1 in let f := film_make 1 2 (box_filter (/2) (/2)) 0 1 0 1 in
  persp_make v_still (-1) 1 (-1) 1 0 1 0 1 90 1 2 = Ok c /\ scene_make 4 (full_refine_items v_items 3 3) = Ok scn /\
  world_render (w [v_lamp]) (persp_raydiff c) (fun _ => 0) 5 1 s (mkS 0 0 0 0 0 [] [] [] []) (fun _ => ex_rnd) 0 100 f 1 = Some (Ok img) /\
  world_render (w [mkLamp vzero (vscale 3 (spec 100))]) (persp_raydiff c) (fun _ => /2) 5 1 s (mkS 0 0 0 0 0 [] [] [] []) (fun _ => ex_rnd) 7 100 f 1 = Some (Ok img3) /\
  in_film f 0 1 /\ pixel_at f img3 0 1 = vscale 3 (pixel_at f img 0 1).
Proof.
  destruct C275_ex as (c & PM & _ & _ & scn & img & l & SM & R1 & _).
  assert (EX : xstart (film_make 1 2 (box_filter (/2) (/2)) 0 1 0 1) = 0%Z) by (cbn; rewrite Rmult_0_r; apply (Zceil_IZR 0)).
  assert (EY : ystart (film_make 1 2 (box_filter (/2) (/2)) 0 1 0 1) = 0%Z) by (cbn; rewrite Rmult_0_r; apply (Zceil_IZR 0)).
  assert (CX : xcnt (film_make 1 2 (box_filter (/2) (/2)) 0 1 0 1) = 1%Z).
  { cbn. rewrite Rmult_0_r, Rmult_1_r, (Zceil_IZR 0), (Zceil_IZR 1). reflexivity. }
  assert (CY : ycnt (film_make 1 2 (box_filter (/2) (/2)) 0 1 0 1) = 2%Z).
  { cbn. rewrite Rmult_0_r, Rmult_1_r, (Zceil_IZR 0), (Zceil_IZR 2). reflexivity. }
  destruct (C303_world_partial 4 v_items 3 3 scn (fun k => Matte (fun _ => w_colour k) (fun _ => 0) None) (scene_size scn) (fun _ _ _ _ _ => (false, vzero, vzero, vzero, vzero))
    [v_lamp] 3 (persp_raydiff c) (fun _ => 0) (fun _ => /2) 5 1
    1 2 (box_filter (/2) (/2)) 0 1 0 1 0 2 0 3 1 1 true 0 1 (mkS 0 0 0 0 0 [] [] [] []) (fun _ => ex_rnd) 0 7 1 100 img) as (img3 & R2 & G).
  - intros it [<-|[]]. reflexivity.
  - exact SM.
  - intros j. cbn. intros. lra.
  - intros q [<-|[]]; unfold spec_ge0, v_lamp, spec; cbn; lra.
  - intros j. unfold in_unit. lra.
  - intros j. unfold in_unit. lra.
  - lra.
  - intros p q SP [<-|[]]. destruct (shows_hit _ _ _ _ _ _ _ _ _ _ SM SP) as (a & h & r & Ha & HI & ->).
    destruct (v_hit a h r Ha HI) as (X & Y & W). cbn [v_lamp lp_pos lp_i]. split; [intros Q; rewrite <- Q in W; cbn in W; lra|].
    split; intros _; [|now apply v_bright; try lra].
    pose proof (v_bright _ 1 X Y W (Rle_refl 1)) as V. unfold vscale at 1, vmap in V. cbn [vx vy vz] in V. rewrite !Rmult_1_l in V. exact V.
  - cbn. lra.
  - cbn. lra.
  - lia.
  - lia.
  - intros k. assert (HF : in01 (/2)) by (unfold in01; lra). unfold rnd_ok. cbn -[Pos.to_nat]. change (Pos.to_nat 1) with 1%nat. cbn. split; [auto|].
    split; [apply Permutation_refl|]. split; [apply Permutation_refl|]. split; [auto|].
    intros i j Hi. destruct i; [|lia]. destruct j; split; apply Permutation_refl.
  - cbn. lia.
  - exact R1.
  - assert (IN : in_film (film_make 1 2 (box_filter (/2) (/2)) 0 1 0 1) 0 1) by (unfold in_film; rewrite EX, EY, CX, CY; lia).
    exists c, scn, img, img3. split; [exact PM|]. split; [exact SM|]. split; [exact R1|]. split; [exact R2|]. split; [exact IN|]. exact (G 0%Z 1%Z IN).
Qed.
