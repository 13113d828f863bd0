(** Property theorems C307: without a light every integrator makes a black picture.  Vocabulary: S_Picture.v, S_Film.v, S_World.v. *)
From Coq Require Import Reals Lra Lia List ZArith Bool Permutation.
From Flocq Require Import Core.Raux.
From Verif Require Import Base M_MonteCarlo M_Aggregate M_Utility M_Spectrum M_Sampler S_Sampler M_Film S_Film P_Sampler P_Film P_Film2 P_Film3 P_Renderer.
From Verif Require Import P_Reflection P_Material2.
From Verif Require Import M_Geometry S_Geometry P_Geometry P_LobeSampling M_Transform S_Transform P_Transform P_Transform2 M_Shapes S_Shapes P_ShapesMore M_BVH S_BVH
  M_Reflection S_Reflection M_Light M_Primitive S_Scene P_Scene P_Scene2 M_Material S_Material M_Integrator S_Integrator S_Integrator2 M_World S_World P_World
  P_World2 Props_Scene Props_World M_Renderer M_Render P_Render Props_Render S_Picture P_Picture M_World2 M_World3 M_Camera S_Camera P_Camera Props_Picture
  S_Order P_Order Props_Order S_Superpose S_Brighter P_Superpose Props_Superpose P_Reflection2 P_Brighter Props_Brighter Props_SumPicture
  Props_MoreLightPicture Props_Picture2 Props_PictureRange Props_Integrator.
Import ListNotations.
Local Open Scope R_scope.

(** a render whose integrator never returns anything but black *)
Lemma dark_picture (W : Type) (cam : sample -> W -> res (R * raydiff * W)) hitp li
    (xr yr : Z) (flt : filt) (c0 c1 c2 c3 : R) (x0 x1 y0 y1 xst yst : Z) (jitter : bool) (o c : R) (orig : sample) (rn : nat -> rnd)
    (w : W) (sc : R) (fuel : nat) img :
  proper_filter flt ->
  let f := film_make xr yr flt c0 c1 c2 c3 in
  get_sample_extent f = (x0, x1, y0, y1) ->
  let s := stratified_make (IZR x0) (IZR x1) (IZR y0) (IZR y1) xst yst jitter o c in
  (forall k, rnd_ok s (duplicate orig (xSamples s * ySamples s)) (rn k)) ->
  (forall smp w0 wt r w1, cam smp w0 = Ok (wt, r, w1) -> wt = 1) ->
  (forall r smp w0 L w', li r smp w0 = Ok (L, w') -> L = vmap Fin vzero) ->
  (Z.to_nat (x1 - x0) * Z.to_nat (y1 - y0) < fuel)%nat ->
  render cam hitp li s orig rn w fuel f sc = Some (Ok img) ->
  forall x y, in_film f x y -> pixel_at f img x y = vzero.
Proof.
  intros PF f GE s RN CW LD Hfu HR x y IN.
  pose proof (C306_range W cam hitp li xr yr flt c0 c1 c2 c3 x0 x1 y0 y1 xst yst jitter o c orig rn w sc fuel vzero vzero img PF GE RN zero_ge0) as G.
  cbv zeta in G. fold f in G. fold s in G.
  destruct (fun H => G H Hfu HR x y IN) as (G0 & G1 & G2).
  2:{ destruct (pixel_at f img x y) as [p1 p2 p3]. unfold S_Film.vle, vadd, vsub, spec, vmap2, vzero in *. cbn [vx vy vz] in *. apply V3_eq; cbn; lra. }
  intros a w1 L w' SS. unfold shade. destruct (cam a w1) as [[[wt r] w2]|] eqn:EC; cbn [bind]; [|discriminate]. apply CW in EC. subst wt.
  destruct (hitp _ w2) as [[h w3]|]; cbn [bind]; [|discriminate].
  assert (V0 : S_Film.vle vzero vzero) by (unfold S_Film.vle; lra).
  destruct (h && Rltb 0 1)%bool.
  2:{ intros [= <- _]. exists vzero. now rewrite sanitise_idem_black. }
  destruct (li _ a w3) as [[L0 w4]|] eqn:EL; cbn [bind]; [|discriminate]. apply LD in EL. subst L0. intros [= <- _]. exists vzero.
  replace (vmap (fun x => emul x (Fin 1)) (vmap Fin vzero)) with (vmap Fin vzero); [|unfold vmap; cbn; now rewrite !Rmult_1_r].
  rewrite sanitise_keeps by apply zero_ge0. auto.
Qed.
Lemma cam_weight cam smp (k : nat) wt r k' : world_cam cam smp k = Ok (wt, r, k') -> wt = 1.
Proof. unfold world_cam. destruct (cam smp); cbn [bind]; [intros [= <- _ _]; reflexivity|discriminate]. Qed.

Lemma dark_path_lighting w u s po md time fuel r k L k' : unlit (env_of w) -> path_lighting w u s po md time fuel r k = Some (Ok (L, k')) -> L = vzero.
Proof.
  unfold path_lighting. generalize (env_of w). intros e HU. destruct (negb _); [discriminate|]. destruct (hit e r) as [r1 [v|]] eqn:EH.
  - destruct (path_li e u md s po fuel r1 v k) as [[[[La ka] ca]|]|] eqn:WA; [|discriminate|discriminate]. intros [= <- _].
    exact (C271_dark_path _ e u md s po fuel r1 v k La ka ca HU (fun z => proj2 (proj2 HU) r r1 v z EH) WA).
  - intros [= <- _]. exact (dark_sum_le e HU r1).
Qed.

Lemma dark_world_path_li w u po md steps r smp k L k' : unlit (env_of w) -> world_path_li w u po md steps r smp k = Ok (L, k') -> L = vmap Fin vzero.
Proof.
  intros HU. unfold world_path_li.
  destruct (path_lighting w u smp po md (stime smp) steps r k) as [[[La ka]|]|] eqn:WA; [|discriminate|discriminate]. intros EQ. injection EQ as <- _.
  now rewrite (dark_path_lighting _ _ _ _ _ _ _ _ _ _ _ HU WA).
Qed.
Lemma path_render_of orig po w cam u md steps s rn k fuel f sc : path_request SAMPLE_DEPTH (mkS 0 0 0 0 0 [] [] [] []) = (orig, po) ->
  world_path_render w cam u md steps s rn k fuel f sc = render (world_cam cam) (world_seen w) (world_path_li w u po md steps) s orig rn k fuel f sc.
Proof. unfold world_path_render. intros ->. reflexivity. Qed.

(** a matte surface can always be sampled *)
Lemma matte_sample kd sg flip g s b wo u0 u1 uc : (forall q, sg q <= 0) -> 0 <= uc -> get_bsdf (Matte kd sg None) flip g s = Ok b ->
  exists sm, bsdf_sample b wo u0 u1 uc ALL = Ok sm /\ (sm_pdf sm = 0 \/ exists wi, sm_wi sm = Some wi).
Proof.
  intros SG UC. cbn [get_bsdf shading bind]. rewrite (clip_le0 _ (SG _)).
  replace (Reqb 0 0) with true by (symmetry; now apply Reqb_true).
  intros [= <-]. set (R0 := sclip _). clearbody R0. set (bd := push_back _ _).
  assert (NC : n_components bd ALL = 1%nat) by reflexivity.
  unfold bsdf_sample. rewrite NC. cbn [Nat.eqb].
  destruct (pick_index_range uc 1 UC ltac:(lia)) as [PI0 _]. replace (pick_index uc 1) with 0%Z by lia.
  change (pick (bs_bdfs bd) ALL 0) with (Some (Lambertian R0)). cbv iota.
  cbn [bdf_sample]. unfold base_sample. cbn [bdf_f bind]. set (pdf := bdf_pdf _ _ _).
  destruct (Reqb pdf 0) eqn:Q; (eexists; split; [reflexivity|]); [left; now apply Reqb_true in Q|right; eexists; reflexivity].
Qed.

Lemma unlit_path_ok (w : world) u0 time r k0 x : w_lights w = [] ->
  (forall k, exists kd sg, w_mats w k = Matte kd sg None /\ forall q, sg q <= 0) ->
  whitted w u0 0 time 1 r k0 = Some (Ok x) -> forall o po u smp k,
  readable smp (po_path o) 0 ->
  (forall l c, nth_error (oneD smp) (of_com (po_path o)) = Some l -> nth_error l 0 = Some c -> 0 <= c) ->
  exists L k', path_lighting w u smp (o :: po) 0 time 1 r k = Some (Ok (L, k')).
Proof.
  intros NL MT HW o po u smp k (((ua & ub) & uc) & RE) NNU.
  unfold whitted in HW. unfold path_lighting. cbn [renderer_li] in HW. destruct (negb _); [discriminate|].
  destruct (hit (env_of w) r) as [r1 [v|]] eqn:EH; [|eexists _, _; reflexivity].
  unfold surf_li in HW. destruct (v_bsdf (env_of w) v r1) as [[p b]|] eqn:EB; [|discriminate]. clear HW.
  unfold path_li, path_run. cbn [path_loop]. unfold path_step. cbn [p_v p_r p_beta p_bounce p_k p_L p_spb p_calls]. rewrite EB.
  cbn [Nat.eqb orb]. 
  assert (PD : path_direct (env_of w) u smp (o :: po) 0 v r1 p (b_dgs_nn (env_of w) v r1) (vneg (rdir r1)) b k = Ok (spec 0, k)).
  { unfold path_direct, SAMPLE_DEPTH. change (0 <? 3)%nat with true. cbv iota. cbn [idx nth_error bind].
    unfold uniform_sample_one_light. cbn [env_of lights]. rewrite NL. reflexivity. }
  rewrite PD. change (0 <? SAMPLE_DEPTH)%nat with true. cbv iota.
  unfold path_smp_of. cbn [idx nth_error bind]. rewrite RE. cbn [bind].
  assert (UC : 0 <= uc).
  { unfold smp_from_sample in RE. destruct (idx (twoD smp) _) as [l2|]; cbn [bind] in RE; [|discriminate]. destruct (idx l2 0) as [q|]; cbn [bind] in RE; [|discriminate].
    destruct (idx (oneD smp) _) as [l1|] eqn:E1; cbn [bind] in RE; [|discriminate]. destruct (idx l1 0) as [c|] eqn:E2; cbn [bind] in RE; [|discriminate]. injection RE as _ _ ->.
    unfold idx in E1, E2. destruct (nth_error (oneD smp) _) eqn:N1; [|discriminate]. injection E1 as ->. destruct (nth_error l1 0) eqn:N2; [|discriminate]. injection E2 as ->.
    exact (NNU _ _ eq_refl N2). }
  assert (SM : exists sm, bsdf_sample b (vneg (rdir r1)) ua ub uc ALL = Ok sm /\ (sm_pdf sm = 0 \/ exists wi, sm_wi sm = Some wi)).
  { revert EB. cbn [env_of v_bsdf]. unfold world_bsdf, isect_bsdf. destruct (is_prim v) as [q0|]; [|discriminate]. destruct (is_dg v) as [g|]; [|discriminate].
    destruct (shape_shading _ _) as [g'|]; cbn [bind]; [|discriminate]. destruct (MT (gp_material q0)) as (kd & sg & -> & SG).
    destruct (get_bsdf _ _ _ _) as [b'|] eqn:GB; cbn [bind]; [|discriminate]. intros [= _ <-]. eapply matte_sample; eassumption. }
  destruct SM as (sm & -> & PW). destruct (spec_is_black _ || Reqb _ 0) eqn:BB; [eexists _, _; reflexivity|].
  destruct PW as [PW|(wi & ->)]; [rewrite PW in BB; replace (Reqb 0 0) with true in BB by (symmetry; now apply Reqb_true); rewrite orb_true_r in BB; discriminate|].
  change (SAMPLE_DEPTH <? 0)%nat with false. cbn [orb]. eexists _, _. reflexivity.
Qed.

(** ** Statements *)
(** A scene of shapes without area lights, and no other light: every pixel of the picture made by the direct-lighting integrator is exactly black. *)
Theorem C307_dark_direct (mp : nat) (items : list item) (nu nv : Z) scn mats steps diffs (cam : sample -> res raydiff) (u : nat -> R)
    (md : Z) (depth : nat) (ns : list nat) orig lo bo (xr yr : Z) (flt : filt) (c0 c1 c2 c3 : R) (x0 x1 y0 y1 xst yst : Z) (jitter : bool) (o c : R) (rn : nat -> rnd)
    (k : nat) (sc : R) (fuel : nat) img :
  (forall it, In it items -> it_light it = None) -> scene_make mp (full_refine_items items nu nv) = Ok scn ->
  direct_request ns (mkS 0 0 0 0 0 [] [] [] []) = (orig, lo, bo) ->
  proper_filter flt ->
  let f := film_make xr yr flt c0 c1 c2 c3 in
  get_sample_extent f = (x0, x1, y0, y1) ->
  let s := stratified_make (IZR x0) (IZR x1) (IZR y0) (IZR y1) xst yst jitter o c in
  (forall i, rnd_ok s (duplicate orig (xSamples s * ySamples s)) (rn i)) ->
  (Z.to_nat (x1 - x0) * Z.to_nat (y1 - y0) < fuel)%nat ->
  world_direct_render (mkW scn mats [] steps diffs) cam u md depth ns s rn k fuel f sc = Some (Ok img) ->
  forall x y, in_film f x y -> pixel_at f img x y = vzero.
Proof.
  intros HN HS DR PF f GE s RN Hfu HR. unfold world_direct_render in HR. rewrite DR in HR.
  refine (dark_picture nat (world_cam cam) _ _ xr yr flt c0 c1 c2 c3 x0 x1 y0 y1 xst yst jitter o c orig rn k sc fuel img PF GE RN (cam_weight cam) _ Hfu HR).
  intros r smp k0 L k'. unfold world_direct_li, direct_lighting.
  destruct (renderer_li _ u md _ _ _ _ _ _) as [[[[[[La Ta] ia] ka] na]|]|] eqn:WA; try discriminate. intros [= <- _].
  rewrite (C271_dark_direct _ _ _ _ _ _ _ _ _ _ _ _ _ _ _ _ _ (world_unlit mp items nu nv scn mats steps diffs HN HS) WA). reflexivity.
Qed.
Print Assumptions C307_dark_direct.

(** The same for path tracing, whatever the number of bounces. *)
Theorem C307_dark_path (mp : nat) (items : list item) (nu nv : Z) scn mats steps diffs (cam : sample -> res raydiff) (u : nat -> R)
    (md : Z) (bounces : nat) orig po (xr yr : Z) (flt : filt) (c0 c1 c2 c3 : R) (x0 x1 y0 y1 xst yst : Z) (jitter : bool) (o c : R) (rn : nat -> rnd)
    (k : nat) (sc : R) (fuel : nat) img :
  (forall it, In it items -> it_light it = None) -> scene_make mp (full_refine_items items nu nv) = Ok scn ->
  path_request SAMPLE_DEPTH (mkS 0 0 0 0 0 [] [] [] []) = (orig, po) ->
  proper_filter flt ->
  let f := film_make xr yr flt c0 c1 c2 c3 in
  get_sample_extent f = (x0, x1, y0, y1) ->
  let s := stratified_make (IZR x0) (IZR x1) (IZR y0) (IZR y1) xst yst jitter o c in
  (forall i, rnd_ok s (duplicate orig (xSamples s * ySamples s)) (rn i)) ->
  (Z.to_nat (x1 - x0) * Z.to_nat (y1 - y0) < fuel)%nat ->
  world_path_render (mkW scn mats [] steps diffs) cam u md bounces s rn k fuel f sc = Some (Ok img) ->
  forall x y, in_film f x y -> pixel_at f img x y = vzero.
Proof.
  intros HN HS DR PF f GE s RN Hfu HR. rewrite (path_render_of orig po _ _ _ _ _ _ _ _ _ _ _ DR) in HR. clear DR.
  refine (dark_picture nat (world_cam cam) _ _ xr yr flt c0 c1 c2 c3 x0 x1 y0 y1 xst yst jitter o c orig rn k sc fuel img PF GE RN (cam_weight cam) _ Hfu HR).
  intros r smp k0 L k'. apply dark_world_path_li. exact (world_unlit mp items nu nv scn mats steps diffs HN HS).
Qed.
Print Assumptions C307_dark_path.

(** The triangle of C275_ex without its lamp: the hypotheses hold and the direct-lighting picture exists. *)
Example C307_ex_direct : let s := stratified_make (IZR 0) (IZR 2) (IZR 0) (IZR 3) 1 1 true 0 1 in let f := film_make 1 2 (box_filter (/2) (/2)) 0 1 0 1 in
  exists c scn img,
  let w := mkW scn (fun k => Matte (fun _ => w_colour k) (fun _ => 0) None) [] (scene_size scn) (fun _ _ _ _ _ => (false, vzero, vzero, vzero, vzero)) in
  persp_make v_still (-1) 1 (-1) 1 0 1 0 1 90 1 2 = Ok c /\
  world_direct_render w (persp_raydiff c) (fun _ => /2) 5 1 [] s (fun _ => ex_rnd) 0 100 f 1 = Some (Ok img) /\ in_film f 0 1 /\
  pixel_at f img 0 1 = vzero.
Proof.
  intros s f. destruct C275_ex as (c & PM & HC & _).
  assert (EX : xstart f = 0%Z) by (unfold f; cbn; rewrite Rmult_0_r; apply (Zceil_IZR 0)).
  assert (EY : ystart f = 0%Z) by (unfold f; cbn; rewrite Rmult_0_r; apply (Zceil_IZR 0)).
  assert (CX : xcnt f = 1%Z).
  { unfold f; cbn. rewrite Rmult_0_r, Rmult_1_r, (Zceil_IZR 0), (Zceil_IZR 1). reflexivity. }
  assert (CY : ycnt f = 2%Z).
  { unfold f; cbn. rewrite Rmult_0_r, Rmult_1_r, (Zceil_IZR 0), (Zceil_IZR 2). reflexivity. }
  assert (PF : proper_filter (box_filter (/2) (/2))) by (unfold proper_filter; cbn; repeat split; intros; lra).
  assert (GE : get_sample_extent f = (0, 2, 0, 3)%Z).
  { unfold get_sample_extent. rewrite EX, EY, CX, CY. cbn [f ffilt film_make f_xw f_yw box_filter].
    replace (0 + /2 - /2) with (IZR 0) by lra. replace (0 + /2 + 1 + /2) with (IZR 2) by lra. replace (0 + /2 + 2 + /2) with (IZR 3) by lra.
    now rewrite !Zfloor_IZR. }
  assert (RN : forall k : nat, rnd_ok s (duplicate (mkS 0 0 0 0 0 [] [] [] []) (xSamples s * ySamples s)) ((fun _ => ex_rnd) k)).
  { intros k. assert (HF : in01 (/2)) by (unfold in01; lra). unfold rnd_ok. cbn -[Pos.to_nat]. change (Pos.to_nat 1) with 1%nat. cbn. split; [auto|].
    split; [apply Permutation_refl|]. split; [apply Permutation_refl|]. split; [auto|].
    intros i j Hi. destruct i; [|lia]. destruct j; split; apply Permutation_refl. }
  assert (OKI : List.Forall (fun it => geom_ok (it_geom it)) v_items).
  { constructor; [|constructor]; cbn [it_geom geom_ok]; split; [reflexivity|]; split; [unfold faces_ok; repeat (constructor; [cbn; lia|]); constructor|intros l [=]]. }
  destruct (C292_direct_picture 4 v_items 3 3 w_colour (fun k => Matte (fun _ => w_colour k) (fun _ => 0) None)
    (fun _ _ _ _ _ => (false, vzero, vzero, vzero, vzero)) [] (persp_raydiff c) (fun _ => /2) 5 []
    1 2 (box_filter (/2) (/2)) 0 1 0 1 0 2 0 3 1 1 true 0 1 (mkS 0 0 0 0 0 [] [] [] []) [] [] (fun _ => ex_rnd) 0 1 100) as (scn & SM & G).
  - lia.
  - exact OKI.
  - intros it [<-|[]]; split; [reflexivity|now left].
  - left. cbn. lia.
  - intros k; eexists _, _; split; [reflexivity|]; split; [reflexivity|intros; lra].
  - intros l [].
  - reflexivity.
  - constructor.
  - intros j. unfold in_unit. lra.
  - reflexivity.
  - exact PF.
  - exact GE.
  - exact RN.
  - intros smp _. destruct (HC smp) as (r & K1 & K2 & K3 & K4 & _). exists r. repeat (split; [assumption|]). intros it t l _ _ [].
  - cbn. lia.
  - destruct (G (scene_size scn) 1%nat (le_n _) (le_n _)) as (img & l & R1 & _).
    assert (IN : in_film f 0 1) by (unfold in_film; rewrite EX, EY, CX, CY; lia).
    exists c, scn, img. intros w. split; [exact PM|]. split; [exact R1|]. split; [exact IN|].
    refine (C307_dark_direct 4 v_items 3 3 scn (fun k => Matte (fun _ => w_colour k) (fun _ => 0) None) (scene_size scn) (fun _ _ _ _ _ => (false, vzero, vzero, vzero, vzero))
      (persp_raydiff c) (fun _ => /2) 5 1 [] (mkS 0 0 0 0 0 [] [] [] []) [] [] 1 2 (box_filter (/2) (/2)) 0 1 0 1 0 2 0 3 1 1 true 0 1 (fun _ => ex_rnd) 0 1 100 img _ SM eq_refl PF GE RN _ R1 0%Z 1%Z IN).
    + intros it [<-|[]]. reflexivity.
    + cbn. lia.
Qed.

(** The same triangle by path tracing with one bounce: the picture exists. *)
Lemma one_strat l : one_per_stratum l 1 -> forall c, nth_error l 0 = Some c -> 0 <= c.
Proof.
  intros (L1 & H) c HC. destruct (H 0%nat ltac:(lia)) as (k & K1 & K2 & _). replace k with 0%nat in K2 by lia.
  destruct l as [|a l]; [discriminate|]. cbn in HC. injection HC as ->. cbn [nth INR] in K2. lra.
Qed.
Definition one_rnd : rnd := mkRnd (fun _ => /2) (fun _ => /2) (fun _ => /2) (fun _ => /2) (fun _ => /2) [0]%nat [0]%nat
  (fun _ _ _ => /2) (fun _ j => seq 0 (nth j (repeat 1%nat 12) 0%nat)) (fun _ _ _ => /2) (fun _ _ _ => /2) (fun _ j => seq 0 (nth j (repeat 1%nat 9) 0%nat)).
Example C307_ex_path : let s := stratified_make (IZR 0) (IZR 2) (IZR 0) (IZR 3) 1 1 true 0 1 in let f := film_make 1 2 (box_filter (/2) (/2)) 0 1 0 1 in
  exists c scn img,
  let w := mkW scn (fun k => Matte (fun _ => w_colour k) (fun _ => 0) None) [] (scene_size scn) (fun _ _ _ _ _ => (false, vzero, vzero, vzero, vzero)) in
  persp_make v_still (-1) 1 (-1) 1 0 1 0 1 90 1 2 = Ok c /\
  world_path_render w (persp_raydiff c) (fun _ => /2) 0 1 s (fun _ => one_rnd) 0 100 f 1 = Some (Ok img) /\ in_film f 0 1 /\
  pixel_at f img 0 1 = vzero.
Proof.
  intros s f. destruct C275_ex as (c & PM & HC & _).
  assert (EX : xstart f = 0%Z) by (unfold f; cbn; rewrite Rmult_0_r; apply (Zceil_IZR 0)).
  assert (EY : ystart f = 0%Z) by (unfold f; cbn; rewrite Rmult_0_r; apply (Zceil_IZR 0)).
  assert (CX : xcnt f = 1%Z).
  { unfold f; cbn. rewrite Rmult_0_r, Rmult_1_r, (Zceil_IZR 0), (Zceil_IZR 1). reflexivity. }
  assert (CY : ycnt f = 2%Z).
  { unfold f; cbn. rewrite Rmult_0_r, Rmult_1_r, (Zceil_IZR 0), (Zceil_IZR 2). reflexivity. }
  assert (PF : proper_filter (box_filter (/2) (/2))) by (unfold proper_filter; cbn; repeat split; intros; lra).
  assert (GE : get_sample_extent f = (0, 2, 0, 3)%Z).
  { unfold get_sample_extent. rewrite EX, EY, CX, CY. cbn [f ffilt film_make f_xw f_yw box_filter].
    replace (0 + /2 - /2) with (IZR 0) by lra. replace (0 + /2 + 1 + /2) with (IZR 2) by lra. replace (0 + /2 + 2 + /2) with (IZR 3) by lra.
    now rewrite !Zfloor_IZR. }
  destruct (path_request SAMPLE_DEPTH (mkS 0 0 0 0 0 [] [] [] [])) as [orig po] eqn:DR.
  assert (N4 : n1D orig = repeat 1%nat 12 /\ n2D orig = repeat 1%nat 9 /\ exists o po', po = o :: po' /\ (of_com (po_path o) < 12)%nat).
  { clear -DR. set (z := 0) in DR. clearbody z. vm_compute in DR. injection DR as <- <-. split; [reflexivity|]. split; [reflexivity|].
    eexists _, _. split; [reflexivity|]. cbn. lia. }
  destruct N4 as (N1 & N2 & o & po' & -> & LO).
  assert (RDO : forall smp, filled smp (n1D orig) (n2D orig) -> readable smp (po_path o) 0).
  { intros smp FI. destruct (C108_path_requests _ _ smp _ DR FI) as (_ & RD). apply Forall_inv in RD. tauto. }
  assert (PRO : forall w cam u md steps s rn k fuel f sc,
    world_path_render w cam u md steps s rn k fuel f sc = render (world_cam cam) (world_seen w) (world_path_li w u (o :: po') md steps) s orig rn k fuel f sc)
    by (intros; now apply path_render_of).
  assert (DK : forall scn mats steps diffs u md bounces rn k fuel img, scene_make 4 (full_refine_items v_items 3 3) = Ok scn ->
     (forall i, rnd_ok s (duplicate orig (xSamples s * ySamples s)) (rn i)) -> (Z.to_nat (2 - 0) * Z.to_nat (3 - 0) < fuel)%nat ->
     world_path_render (mkW scn mats [] steps diffs) (persp_raydiff c) u md bounces s rn k fuel f 1 = Some (Ok img) -> forall x y, in_film f x y -> pixel_at f img x y = vzero).
  { intros scn mats steps diffs u md bounces rn k fuel img SM RN Hf. apply (C307_dark_path 4 v_items 3 3 scn mats steps diffs (persp_raydiff c) u md bounces orig (o :: po')
      1 2 (box_filter (/2) (/2)) 0 1 0 1 0 2 0 3 1 1 true 0 1 rn k 1 fuel img); try assumption. intros it [<-|[]]. reflexivity. }
  clear DR.
  assert (RN : forall k : nat, rnd_ok s (duplicate orig (xSamples s * ySamples s)) ((fun _ => one_rnd) k)).
  { intros k. assert (HF : in01 (/2)) by (unfold in01; lra). unfold rnd_ok. cbn -[Pos.to_nat seq]. change (Pos.to_nat 1) with 1%nat. cbn -[seq]. split; [auto|].
    split; [apply Permutation_refl|]. split; [apply Permutation_refl|]. split; [auto|].
    intros i j Hi. destruct i; [|lia]. cbn -[seq repeat]. rewrite N1, N2. split; apply Permutation_refl. }
  set (mats := fun k => Matte (fun _ => w_colour k) (fun _ => 0) None).
  set (diffs := fun (_ : bool) (_ : raydiff) (_ : isect) (_ : bsdf) (_ : vec) => (false, vzero, vzero, vzero, vzero)).
  assert (OKI : List.Forall (fun it => geom_ok (it_geom it)) v_items).
  { constructor; [|constructor]; cbn [it_geom geom_ok]; split; [reflexivity|]; split; [unfold faces_ok; repeat (constructor; [cbn; lia|]); constructor|intros l [=]]. }
  destruct (scene_exists 4 v_items 3 3 (le_n 4) OKI) as (scn & SM).
  set (w := mkW scn mats [] (scene_size scn) diffs).
  assert (IN : in_film f 0 1) by (unfold in_film; rewrite EX, EY, CX, CY; lia).
  destruct (C274_picture nat (world_cam (persp_raydiff c)) (world_seen w) (world_path_li w (fun _ => /2) (o :: po') 0 1) (fun _ _ => True)
    1 2 (box_filter (/2) (/2)) 0 1 0 1 0 2 0 3 1 1 true 0 1 orig (fun _ => one_rnd) 0%nat 1 100%nat PF GE RN) as (img & l & R1 & _).
  2: { cbn. lia. }
  2: { exists c, scn, img. intros w0. split; [exact PM|]. split; [rewrite PRO; exact R1|]. split; [exact IN|].
    refine (DK scn mats (scene_size scn) diffs (fun _ => /2) 0%Z 1%nat (fun _ => one_rnd) 0%nat 100%nat img SM RN _ _ 0%Z 1%Z IN); [cbn; lia|rewrite PRO; exact R1]. }
  intros smp k0 SS. destruct (HC smp) as (r & CR & TM & PR & PO & _). fold s. set (r1 := scale_differential r (1 / sqrt (INR (xSamples s * ySamples s)))).
  pose proof PR as ((A1 & A2 & A3 & A4) & AV).
  destruct (scene_nearest_sized 4 v_items 3 3 (rd_ray r) (le_n 4) OKI AV A1 A2 A3 A4) as (scn' & SM' & K); [left; cbn; lia|].
  rewrite SM in SM'. injection SM' as <-. destruct (K isect_new (scene_size scn) (le_n _)) as (found & r' & i' & HI & _).
  destruct (Props_Scene.C208_shadow_consistent _ _ _ _ _ _ _ HI) as (HP & _).
  destruct (C270_lit 4 v_items 3 3 w_colour mats diffs [] r1 (fun _ => /2) 0 0 (le_n 4) OKI) as (scn' & SM' & LM).
  { intros it [<-|[]]; split; [reflexivity|now left]. }
  { left. cbn. lia. }
  { intros k; eexists _, _; split; [reflexivity|]; split; [reflexivity|intros; lra]. }
  { exact PR. } { exact PO. } { intros it t q _ _ []. }
  rewrite SM in SM'. injection SM' as <-. destruct (LM (scene_size scn) 1%nat (le_n _) (le_n _)) as (L & T & i & k' & cnt & WL & _).
  change (rtime (rd_ray r1)) with (rtime (rd_ray r)) in WL. rewrite TM in WL.
  pose proof (sent_filled _ _ _ _ _ _ _ SS) as FI.
  assert (NOL : forall it, In it v_items -> it_light it = None) by (intros it [<-|[]]; reflexivity).
  assert (MT : forall k, exists kd sg, w_mats w k = Matte kd sg None /\ forall q, sg q <= 0) by (intros k1; exists (fun _ => w_colour k1), (fun _ => 0); split; [reflexivity|intros; lra]).
  destruct (unlit_path_ok w _ _ _ _ _ eq_refl MT WL o po' (fun _ => /2) smp k0 (RDO smp FI)) as (L1 & k1 & E1).
  { intros ll cc H1 H2. destruct SS as (px & py & _ & _ & _ & _ & _ & _ & _ & L1' & _ & S1 & _). cbn [sample_dup n1D] in L1', S1. rewrite N1 in L1', S1.
    specialize (S1 _ LO). rewrite (nth_error_nth _ _ _ H1) in S1.
    assert (N0 : nth (of_com (po_path o)) (repeat 1%nat 12) 0%nat = 1%nat).
    { destruct (nth_in_or_default (of_com (po_path o)) (repeat 1%nat 12) 0%nat) as [Q|Q]; [now apply repeat_spec in Q|]. rewrite (nth_indep _ _ 1%nat) by exact LO. apply nth_repeat. }
    rewrite N0 in S1. exact (one_strat _ S1 _ H2). }
  exists r, k0, found, k0. unfold world_cam. rewrite CR. cbn [bind]. split; [reflexivity|].
  match goal with |- context [scale_differential r ?a] => change (scale_differential r a) with r1 end.
  unfold world_seen. change (rd_ray r1) with (rd_ray r). cbn [w w_fuel w_scene]. rewrite HP. split; [reflexivity|]. split; [auto|].
  intros _. exists L1, k1. unfold world_path_li. fold w. rewrite E1. split; [reflexivity|]. split; [|exact Logic.I].
  rewrite (dark_path_lighting _ _ _ _ _ _ _ _ _ _ _ (world_unlit 4 v_items 3 3 scn mats (scene_size scn) diffs NOL SM) E1).
  repeat split; cbn; apply Rle_refl.
Qed.
