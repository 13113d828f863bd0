(** Property theorems C301: direct lighting and Whitted's integrator give pixel-identical pictures.  Vocabulary: S_SamePicture.v, S_World.v, S_Superpose.v,
    S_Brighter.v. *)
From Coq Require Import Reals Lra Lia List ZArith Bool Permutation.
From Flocq Require Import Core.Raux.
From Verif Require Import Base M_MonteCarlo M_Aggregate M_Utility M_Spectrum M_Sampler S_Sampler M_Film S_Film P_Sampler P_Film P_Film3 P_Renderer.
From Verif Require Import M_Geometry S_Geometry P_Geometry P_LobeSampling M_Transform S_Transform P_Transform P_Transform2 M_Shapes S_Shapes P_ShapesMore M_BVH S_BVH
  M_Reflection S_Reflection M_Light M_Primitive S_Scene P_Scene P_Scene2 M_Material S_Material M_Integrator S_Integrator S_Integrator2 M_World S_World P_World
  P_World2 Props_Scene Props_World M_Renderer M_Render P_Render Props_Render S_Picture P_Picture M_World2 M_Camera S_Camera P_Camera Props_Picture
  S_Order P_Order Props_Order S_Superpose S_Brighter Props_Agree Props_Picture2 S_SamePicture.
Import ListNotations.
Local Open Scope R_scope.

(** ** The sampler *)
Lemma jittered_ext a r r' d : (forall i, r i = r' i) -> jittered a r d = jittered a r' d.
Proof. intros H. unfold jittered. apply map_ext. intros [i x]. now rewrite H. Qed.
Lemma fill_same s rn rn' img lens time : forall a b m, length a = length b ->
  Forall2 same_camera (map (fun '(i, smp) => fill_sample s rn img lens time i smp) (combine (seq m (length a)) a))
    (map (fun '(i, smp) => fill_sample s rn' img lens time i smp) (combine (seq m (length b)) b)).
Proof.
  induction a as [|x a IH]; intros [|y b] m L; try discriminate L; [constructor|]. cbn [length seq combine map]. constructor.
  - repeat split.
  - apply IH. now injection L.
Qed.
Lemma gen_same s a b rn rn' t a' s' : same_draws rn rn' -> length a = length b -> generate s a rn = Ok (t, a', s') ->
  exists b', generate s b rn' = Ok (t, b', s') /\ (t = true -> Forall2 same_camera a' b').
Proof.
  intros (DR & DL & DT) L. unfold generate. destruct (Reqb (yPos s) (ye s)); [intros [= <- <- <-]; eexists; split; [reflexivity|discriminate]|].
  rewrite <- L. destruct (negb _); [discriminate|]. intros H.
  match type of H with (let '(_, _) := ?x in _) = _ => destruct x as [xp yp] end. injection H as <- <- <-.
  eexists. split; [reflexivity|]. intros _. unfold enumerate. rewrite <- DL, <- DT.
  assert (E1 : forall nx ny, stratified_sample_2d nx ny (jit s) (r_ix rn) (r_iy rn) = stratified_sample_2d nx ny (jit s) (r_ix rn') (r_iy rn')).
  { intros. unfold stratified_sample_2d. destruct (jit s); [|reflexivity]. f_equal; apply jittered_ext; intros i; apply DR. }
  assert (E2 : forall nx ny, stratified_sample_2d nx ny (jit s) (r_lx rn) (r_ly rn) = stratified_sample_2d nx ny (jit s) (r_lx rn') (r_ly rn')).
  { intros. unfold stratified_sample_2d. destruct (jit s); [|reflexivity]. f_equal; apply jittered_ext; intros i; apply DR. }
  assert (E3 : forall n, stratified_sample_1d n (jit s) (r_t rn) = stratified_sample_1d n (jit s) (r_t rn')).
  { intros. unfold stratified_sample_1d. apply jittered_ext. intros i. destruct (jit s); [apply DR|reflexivity]. }
  rewrite E1, E2, E3. apply fill_same. exact L.
Qed.

(** ** The loop over the pixels *)
Section Same.
Context {W W' : Type} (cam : sample -> W -> res (R * raydiff * W)) (hitp : raydiff -> W -> res (bool * W)) (li : raydiff -> sample -> W -> res (V3 E * W))
  (cam' : sample -> W' -> res (R * raydiff * W')) (hitp' : raydiff -> W' -> res (bool * W')) (li' : raydiff -> sample -> W' -> res (V3 E * W')).
Variables (wx0 wx1 wy0 wy1 : Z) (xst yst : Z) (jitter : bool) (o c : R).
Hypotheses (HX : (wx0 < wx1)%Z) (HY : (wy0 < wy1)%Z).
Let s0 := stratified_make (IZR wx0) (IZR wx1) (IZR wy0) (IZR wy1) xst yst jitter o c.
Let n := (xSamples s0 * ySamples s0)%nat.
Variables (orig : sample) (rn rn' : nat -> rnd).
Hypothesis RN : forall k, rnd_ok s0 (duplicate orig n) (rn' k).
Hypothesis SD : forall k, same_draws (rn k) (rn' k).
Hypothesis HS : forall a b w w' L w1, same_camera a b -> sent s0 orig wx0 wx1 wy0 wy1 b -> shade cam hitp li false n a w = Ok (L, w1) ->
  exists w1', shade cam' hitp' li' false n b w' = Ok (L, w1').
Definition same_add (x y : sample * V3 E) : Prop := same_camera (fst x) (fst y) /\ snd x = snd y.
Lemma shade_all_sim a b : Forall2 same_camera a b -> List.Forall (sent s0 orig wx0 wx1 wy0 wy1) b -> forall w w' Ls w1,
  shade_all cam hitp li false n a w = Ok (Ls, w1) ->
  (exists w1', shade_all cam' hitp' li' false n b w' = Ok (Ls, w1')) /\ Forall2 same_add (combine a Ls) (combine b Ls).
Proof.
  induction 1 as [|x y a b Hxy _ IH]; intros HB w w' Ls w1; cbn [shade_all].
  - intros [= <- <-]. split; [eexists; reflexivity|constructor].
  - inversion HB as [|? ? H1 H2]; subst. destruct (shade cam hitp li false n x w) as [[L w2]|] eqn:SH; cbn [bind]; [|discriminate].
    destruct (shade_all cam hitp li false n a w2) as [[Ls2 w3]|] eqn:SA; cbn [bind]; [|discriminate]. intros [= <- <-].
    destruct (HS x y w w' L w2 Hxy H1 SH) as (w2' & ->). cbn [bind]. destruct (IH H2 w2 w2' Ls2 w3 SA) as ((w3' & ->) & F). cbn [bind].
    split; [eexists; reflexivity|]. cbn [combine]. constructor; [split; [exact Hxy|reflexivity]|exact F].
Qed.
Lemma loop_sim : forall m k a b w w' fuel adds, (k + m = Z.to_nat (wx1 - wx0) * Z.to_nat (wy1 - wy0))%nat -> (m < fuel)%nat ->
  length a = length b -> length b = n ->
  (forall i, n1D (nth i b dsmp) = n1D (nth i (duplicate orig n) dsmp) /\ n2D (nth i b dsmp) = n2D (nth i (duplicate orig n) dsmp)) ->
  task_loop cam hitp li false n fuel (st wx0 wx1 wy0 wy1 xst yst jitter o c k) a rn k w = Some (Ok adds) ->
  exists adds', task_loop cam' hitp' li' false n fuel (st wx0 wx1 wy0 wy1 xst yst jitter o c k) b rn' k w' = Some (Ok adds') /\ Forall2 same_add adds adds'.
Proof.
  induction m as [|m IH]; intros k a b w w' fuel adds HK HF HL HN HD; (destruct fuel as [|fuel]; [lia|]); cbn [task_loop].
  - replace k with (Z.to_nat (wx1 - wx0) * Z.to_nat (wy1 - wy0))%nat by lia.
    rewrite !(st_end wx0 wx1 wy0 wy1 xst yst jitter o c HX HY). intros [= <-]. eexists. split; [reflexivity|constructor].
  - assert (RO : rnd_ok s0 b (rn' k)).
    { eapply rnd_ok_ext; [| |apply RN]; [unfold duplicate; rewrite repeat_length; exact HN|exact HD]. }
    destruct (st_step wx0 wx1 wy0 wy1 xst yst jitter o c HX HY k b (rn' k)) as (smp' & G & CG); [lia|exact HN|exact RO|].
    destruct (generate (st wx0 wx1 wy0 wy1 xst yst jitter o c k) a (rn k)) as [[[t a'] s1]|] eqn:GA; [|discriminate].
    destruct (gen_same _ a b (rn k) (rn' k) t a' s1 (SD k) HL GA) as (b' & GB & F). rewrite G in GB. injection GB as <- <- <-. specialize (F eq_refl).
    rewrite G. destruct (gen_keeps _ _ _ _ _ _ G) as [KL KN]. destruct (gen_keeps _ _ _ _ _ _ GA) as [KA _].
    assert (SF : List.Forall (sent s0 orig wx0 wx1 wy0 wy1) smp').
    { apply List.Forall_forall. intros q Ha. destruct (In_nth _ _ dsmp Ha) as (i & Hi & <-). rewrite KL, HN in Hi.
      destruct CG as (_ & CG & _). rewrite HN in CG. specialize (CG i Hi).
      exists (pxk wx0 wx1 k), (pyk wx0 wx1 wy0 k).
      assert (D0 : (0 < Z.to_nat (wx1 - wx0))%nat) by lia.
      split; [|split].
      - unfold pxk. pose proof (Nat.mod_upper_bound k (Z.to_nat (wx1 - wx0)) ltac:(lia)). lia.
      - unfold pyk. assert (k / Z.to_nat (wx1 - wx0) < Z.to_nat (wy1 - wy0))%nat by (apply Nat.div_lt_upper_bound; lia). lia.
      - eapply sample_good_old; [| |exact CG].
        + destruct (HD i) as [-> _]. now rewrite (dup_nth wx0 wx1 wy0 wy1 xst yst jitter o c orig).
        + destruct (HD i) as [_ ->]. now rewrite (dup_nth wx0 wx1 wy0 wy1 xst yst jitter o c orig). }
    destruct (shade_all cam hitp li false n a' w) as [[Ls w1]|] eqn:SA; [|discriminate].
    destruct (shade_all_sim a' smp' F SF w w' Ls w1 SA) as ((w1' & ->) & FA).
    destruct (task_loop cam hitp li false n fuel _ a' rn (Datatypes.S k) w1) as [[rest|]|] eqn:TL; try discriminate. intros [= <-].
    destruct (IH (Datatypes.S k) a' smp' w1 w1' fuel rest) as (rest' & T & FR); try lia; try exact TL.
    { intros i. destruct (KN i) as [-> ->]. apply HD. }
    rewrite T. eexists. split; [reflexivity|]. now apply Forall2_app.
Qed.
Lemma deposit_sim a b : Forall2 same_add a b -> forall f, deposit_all f a = deposit_all f b.
Proof.
  induction 1 as [|[x L] [y L'] a b ((E1 & E2 & _) & E3) _ IH]; intros f; cbn [deposit_all]; [reflexivity|]. cbn [fst snd] in *. subst L'. rewrite E1, E2.
  destruct (finite3 L); [|reflexivity]. destruct (add_sample _ _ _ _); [apply IH|reflexivity].
Qed.
Lemma render_sim orig0 w w' f sc fuel img : (Z.to_nat (wx1 - wx0) * Z.to_nat (wy1 - wy0) < fuel)%nat ->
  render cam hitp li s0 orig0 rn w fuel f sc = Some (Ok img) -> render cam' hitp' li' s0 orig rn' w' fuel f sc = Some (Ok img).
Proof.
  intros Hfu. unfold render, task. change (maximum_sample_cnt s0) with n. fold n.
  destruct (task_loop cam hitp li false n fuel s0 (duplicate orig0 n) rn 0 w) as [[adds|]|] eqn:T; try discriminate.
  pose proof (fun H => loop_sim (Z.to_nat (wx1 - wx0) * Z.to_nat (wy1 - wy0)) 0 (duplicate orig0 n) (duplicate orig n) w w' fuel adds eq_refl Hfu H) as LS.
  rewrite (st_0 wx0 wx1 wy0 wy1 xst yst jitter o c HX HY) in LS. fold s0 in LS.
  destruct LS as (adds' & T' & F); [unfold duplicate; now rewrite !repeat_length|apply repeat_length|auto|exact T|].
  rewrite T'. rewrite (deposit_sim _ _ F). auto.
Qed.
End Same.

(** ** Statements *)
(** Two renders whose samplers draw the same camera samples (the numbers requested by the integrators may differ) and such that the second
    deposits for every sample what the first deposits (when it does not fail): the second makes the picture which the first makes. *)
Theorem C301_same_samples (W W' : Type) (cam : sample -> W -> res (R * raydiff * W)) hitp li (cam' : sample -> W' -> res (R * raydiff * W')) hitp' li'
    (x0 x1 y0 y1 xst yst : Z) (jitter : bool) (o c : R) (orig orig' : sample) (rn rn' : nat -> rnd) (w : W) (w' : W') (sc : R) (fuel : nat) (f : film) img :
  (x0 < x1)%Z -> (y0 < y1)%Z ->
  let s := stratified_make (IZR x0) (IZR x1) (IZR y0) (IZR y1) xst yst jitter o c in
  let n := (xSamples s * ySamples s)%nat in
  (forall k, rnd_ok s (duplicate orig' n) (rn' k)) -> (forall k, same_draws (rn k) (rn' k)) ->
  (forall a b w w' L w1, same_camera a b -> sent s orig' x0 x1 y0 y1 b -> shade cam hitp li false n a w = Ok (L, w1) ->
     exists w1', shade cam' hitp' li' false n b w' = Ok (L, w1')) ->
  (Z.to_nat (x1 - x0) * Z.to_nat (y1 - y0) < fuel)%nat ->
  render cam hitp li s orig rn w fuel f sc = Some (Ok img) -> render cam' hitp' li' s orig' rn' w' fuel f sc = Some (Ok img).
Proof.
  intros HX HY s n RN SD HS Hfu. exact (render_sim cam hitp li cam' hitp' li' x0 x1 y0 y1 xst yst jitter o c HX HY orig' rn rn' RN SD HS orig w w' f sc fuel img Hfu).
Qed.
Print Assumptions C301_same_samples.
(** A scene of shapes of matte, mirror and glass, which may emit light, lit by point lights: the picture which SamplerRenderer makes with WhittedIntegrator
    is also the picture which it makes with DirectLightingIntegrator, for any positive numbers of samples per light and any random numbers of the integrators,
    if the sampler draws the same camera samples. *)
Theorem C301_same_picture scn (mats : nat -> material) (steps : nat) diffs (lamps : list lamp) (cam : sample -> res raydiff) (u1 u2 : nat -> R)
    (md : Z) (depth : nat) (ns : list nat) (x0 x1 y0 y1 xst yst : Z) (jitter : bool) (o c : R) (orig : sample) (rn rn' : nat -> rnd) (k k' : nat)
    (f : film) (sc : R) (fuel : nat) img :
  (forall j, simple_material (mats j)) -> (forall l, In l lamps -> spec_ge0 (lp_i l)) -> steady_stream u1 -> steady_stream u2 ->
  length ns = length lamps -> List.Forall (fun m => 0 < m)%nat ns ->
  (forall a b, same_camera a b -> cam a = cam b) ->
  (x0 < x1)%Z -> (y0 < y1)%Z ->
  let s := stratified_make (IZR x0) (IZR x1) (IZR y0) (IZR y1) xst yst jitter o c in
  let asked := fst (fst (direct_request ns (mkS 0 0 0 0 0 [] [] [] []))) in
  (forall i, rnd_ok s (duplicate asked (xSamples s * ySamples s)) (rn' i)) -> (forall i, same_draws (rn i) (rn' i)) ->
  (Z.to_nat (x1 - x0) * Z.to_nat (y1 - y0) < fuel)%nat ->
  let w := mkW scn mats (map lamp_light lamps) steps diffs in
  world_render w cam u1 md depth s orig rn k fuel f sc = Some (Ok img) ->
  world_direct_render w cam u2 md depth ns s rn' k' fuel f sc = Some (Ok img).
Proof.
  intros HM NN U1 U2 LN PN HC HX HY s asked RN SD Hfu w. unfold world_direct_render, world_render.
  destruct (direct_request ns (mkS 0 0 0 0 0 [] [] [] [])) as [[orig' lo] bo] eqn:DR. unfold asked in RN. cbn [fst] in RN.
  apply (C301_same_samples nat nat); [exact HX|exact HY|exact RN|exact SD| |exact Hfu].
  intros a b q q' L q1 SC SS. unfold shade, world_cam. rewrite (HC a b SC). destruct (cam b) as [r|]; cbn [bind]; [|discriminate].
  unfold world_seen. destruct (scene_intersect_p _ _ _) as [[h|]|]; cbn [bind]; try discriminate.
  destruct (h && Rltb 0 1)%bool; [|intros [= <- _]; eexists; reflexivity].
  unfold world_li, world_direct_li. assert (TM : stime a = stime b) by apply SC. rewrite TM.
  set (r1 := scale_differential r _). destruct (whitted w u1 md (stime b) depth r1 q) as [[[[[[L1 T] i] k1] cnt]|]|] eqn:WH; cbn [bind]; try discriminate.
  intros [= <- _].
  destruct (C288_world scn mats steps diffs lamps ns _ orig' b lo bo u1 u2 md (stime b) depth r1 q q' L1 T i k1 cnt HM NN U1 U2 DR (sent_filled _ _ _ _ _ _ _ SS) LN PN WH)
    as (k2 & DL). fold w in DL. rewrite DL. cbn [bind]. eexists. reflexivity.
Qed.
Print Assumptions C301_same_picture.
(** the cameras of the package look at those five numbers only *)
Theorem C301_cameras (c : projcam) a b : same_camera a b -> persp_raydiff c a = persp_raydiff c b /\ ortho_raydiff c a = ortho_raydiff c b.
Proof.
  intros (A & B & C & D & E). unfold persp_raydiff, ortho_raydiff, ortho_ray. rewrite A, B, C, D, E. split; reflexivity.
Qed.
Print Assumptions C301_cameras.

(** The hypotheses hold for the picture of C275_ex with four samples for its lamp. *)
Example C301_ex : exists c scn img,
  let w := mkW scn (fun k => Matte (fun _ => w_colour k) (fun _ => 0) None) [lamp_light v_lamp] (scene_size scn) (fun _ _ _ _ _ => (false, vzero, vzero, vzero, vzero)) in
  let s := stratified_make (IZR 0) (IZR 2) (IZR 0) (IZR 3) 1 1 true 0 1 in let f := film_make 1 2 (box_filter (/2) (/2)) 0 1 0 1 in
  persp_make v_still (-1) 1 (-1) 1 0 1 0 1 90 1 2 = Ok c /\ scene_make 4 (full_refine_items v_items 3 3) = Ok scn /\
  world_render w (persp_raydiff c) (fun _ => 0) 5 1 s (mkS 0 0 0 0 0 [] [] [] []) (fun _ => ex_rnd) 0 100 f 1 = Some (Ok img) /\
  world_direct_render w (persp_raydiff c) (fun _ => /2) 5 1 [4]%nat s (fun _ => four_rnd) 0 100 f 1 = Some (Ok img).
Proof.
  destruct C275_ex as (c & PM & _ & _ & scn & img & l & SM & R1 & _). exists c, scn, img. intros w s f. split; [exact PM|]. split; [exact SM|]. split; [exact R1|].
  destruct (direct_request [4]%nat (mkS 0 0 0 0 0 [] [] [] [])) as [[orig lo] bo] eqn:DR.
  assert (N4 : n1D orig = [4; 4]%nat /\ n2D orig = [4; 4]%nat).
  { clear -DR. set (z := 0) in DR. clearbody z. vm_compute in DR. injection DR as <- _ _. split; reflexivity. }
  apply (C301_same_picture scn _ (scene_size scn) (fun _ _ _ _ _ => (false, vzero, vzero, vzero, vzero)) [v_lamp] (persp_raydiff c) (fun _ => 0) (fun _ => /2) 5 1 [4]%nat
    0 2 0 3 1 1 true 0 1 (mkS 0 0 0 0 0 [] [] [] []) (fun _ => ex_rnd) (fun _ => four_rnd) 0 0 f 1 100 img); try lia; try exact R1.
  - intros j. cbn. intros. lra.
  - intros q [<-|[]]. unfold spec_ge0, v_lamp, spec; cbn. lra.
  - intros j. unfold in_unit. lra.
  - intros j. unfold in_unit. lra.
  - reflexivity.
  - repeat constructor.
  - intros a b H. apply (C301_cameras c a b H).
  - rewrite DR. cbn [fst]. intros k. assert (HF : in01 (/2)) by (unfold in01; lra). unfold rnd_ok. cbn -[Pos.to_nat seq]. change (Pos.to_nat 1) with 1%nat. cbn -[seq]. split; [auto|].
    split; [apply Permutation_refl|]. split; [apply Permutation_refl|]. split; [auto|].
    intros i j Hi. destruct i; [|lia]. cbn -[seq]. destruct N4 as (-> & ->). split; apply Permutation_refl.
  - intros i. repeat split.
Qed.
