(** Property theorems C289: allowing longer light paths never makes a picture darker.  Vocabulary: S_Brighter.v, S_Superpose.v, S_Integrator.v, S_World.v. *)
From Coq Require Import Reals Lra Lia List ZArith Bool.
From Verif Require Import Base M_MonteCarlo M_Aggregate M_Utility M_Spectrum M_Sampler M_Film.
From Verif Require Import M_Geometry S_Geometry P_Geometry M_Transform S_Transform P_Transform P_Transform2 M_Shapes S_Shapes P_ShapesMore M_BVH S_BVH
  M_Reflection S_Reflection M_Light M_Primitive S_Scene P_Scene2 M_Material S_Material M_Integrator S_Integrator S_Integrator2 P_Integrator P_Integrator2 P_Integrator3 M_World S_World P_World P_World2
  S_Superpose P_Superpose S_Brighter P_Brighter P_Agree P_Deeper Props_Integrator Props_World Props_Superpose Props_Brighter Props_Agree.
Import ListNotations.
Open Scope R_scope.

(** C289: path tracing.  With the same samples and random numbers, a larger maximum depth gives at least as much light. *)
Theorem C289_path (V : Type) (e : env V) (u : nat -> R) (md1 md2 : Z) (s : sample) (po : list path_offs) (f1 f2 : nat)
    (r : raydiff) (v : V) (k : nat) (L1 : vec) k1 c1 (L2 : vec) k2 c2 :
  physical e -> (forall i, 0 < u i) -> (0 <= md1 <= md2)%Z ->
  path_li e u md1 s po f1 r v k = Some (Ok (L1, k1, c1)) -> path_li e u md2 s po f2 r v k = Some (Ok (L2, k2, c2)) ->
  no_darker L1 L2.
Proof.
  intros PH U [M0 LE] H1 H2. refine (loop_deeper e u (path_direct e u s po) (path_smp_of s po) PH U _ md1 md2 LE f1 _ _ _ f2 _ _ _ _ _ _ H1 H2).
  - intros bounce v0 r0 p n wo b k0 L0 k1' HB HD. exact (path_direct_nn e u PH s po bounce v0 r0 p n wo b k0 L0 k1' HB HD).
  - cbn. apply nn_spec. lra.
  - cbn. exact M0.
Qed.
Print Assumptions C289_path.

(** Recursive ray tracing (Whitted), through mirrors and panes, whatever the random numbers of the two runs. *)
Theorem C289_whitted (V : Type) (e : env V) (u1 u2 : nat -> R) (md1 md2 : Z) (time : R) (fuel : nat) (r : raydiff) (i : V)
    (k1 k2 : nat) L1 T1 i1 k1' n1 L2 T2 i2 k2' n2 :
  vol e = None -> steady_surfaces e -> (forall v q p b, v_bsdf e v q = Ok (p, b) -> reflects_light b) ->
  (forall l, In l (lights e) -> gives_light l) -> (forall q q1 v w, hit e q = (q1, Some v) -> spec_ge0 (v_le e v w)) ->
  steady_stream u1 -> steady_stream u2 -> (md1 <= md2)%Z ->
  renderer_li e u1 md1 time (whitted_local e u1) fuel r i k1 = Some (Ok (L1, T1, i1, k1', n1)) ->
  renderer_li e u2 md2 time (whitted_local e u2) fuel r i k2 = Some (Ok (L2, T2, i2, k2', n2)) ->
  no_darker L1 L2.
Proof. intros NV HB HR HL HE U1 U2 LE. exact (all_deeper e time u1 u2 md1 md2 NV HB HR HL HE U1 U2 LE fuel r i k1 k2 L1 T1 i1 k1' n1 L2 T2 i2 k2' n2). Qed.
Print Assumptions C289_whitted.

(** A scene of shapes of matte, mirror and glass, some of which may emit light, and point lights of non-negative intensity;
    for Whitted's integrator, and for direct lighting. *)
Theorem C289_world (mp : nat) (items : list item) (nu nv : Z) sc mats fuel diffs (lamps : list lamp) (u1 u2 : nat -> R) md1 md2 time depth r
    k1 k2 L1 T1 i1 k1' n1 L2 T2 i2 k2' n2 :
  (forall it em, In it items -> it_light it = Some em -> spec_ge0 em) -> scene_make mp (full_refine_items items nu nv) = Ok sc ->
  (forall j, simple_material (mats j)) -> (forall l, In l lamps -> spec_ge0 (lp_i l)) -> steady_stream u1 -> steady_stream u2 -> (md1 <= md2)%Z ->
  let w := mkW sc mats (map lamp_light lamps) fuel diffs in
  whitted w u1 md1 time depth r k1 = Some (Ok (L1, T1, i1, k1', n1)) ->
  whitted w u2 md2 time depth r k2 = Some (Ok (L2, T2, i2, k2', n2)) -> no_darker L1 L2.
Proof.
  intros HI HS HM HB U1 U2 LE w.
  assert (BS : forall v q p b, v_bsdf (env_of w) v q = Ok (p, b) -> steady_bsdf b /\ reflects_light b).
  { intros v r0 p b. unfold w. cbn [env_of v_bsdf]. unfold world_bsdf, isect_bsdf. cbn [w_mats].
    destruct (is_prim v) as [q|]; [|discriminate]. destruct (is_dg v) as [g|]; [|discriminate].
    destruct (shape_shading _ _) as [g'|]; cbn [bind]; [|discriminate].
    destruct (get_bsdf _ _ _ _) as [b'|] eqn:EB; cbn [bind]; [|discriminate]. intros [= _ <-]. split; [|apply (C286_materials _ _ _ _ _ (HM _) EB)].
    refine (C279_materials _ _ _ _ _ _ EB). specialize (HM (gp_material q)). destruct (mats (gp_material q)); try contradiction; exact Logic.I. }
  apply (C289_whitted _ (env_of w)); try assumption.
  - reflexivity.
  - intros v q p b Hv. apply (BS _ _ _ _ Hv).
  - intros v q p b Hv. apply (BS _ _ _ _ Hv).
  - intros l Hl. apply in_map_iff in Hl. destruct Hl as (x & <- & Hx). apply lamp_gives. now apply HB.
  - intros q q1 j wo. cbn [env_of hit v_le]. unfold world_hit. cbn [w_fuel w_scene w].
    destruct (scene_intersect fuel sc (rd_ray q) isect_new) as [[[[[|] q'] i]|]|] eqn:EI; try discriminate. intros [= _ <-].
    unfold world_le, isect_le. destruct (is_prim i) as [p|] eqn:EP; [|apply zero_ge0].
    assert (HG : forall em, gp_light p = Some em -> spec_ge0 em).
    { apply (made_rec (fun p => forall em, gp_light p = Some em -> spec_ge0 em) mp (full_refine_items items nu nv) sc fuel (rd_ray q) true q' i); [|discriminate|exact HS|exact EI|exact EP].
      intros p0 Hp em. destruct (refined_light items nu nv p0 Hp) as (it & Hit & ->). now apply HI. }
    destruct (gp_light p) as [em|]; [|apply zero_ge0]. destruct (is_dg i) as [g|]; [|apply zero_ge0].
    unfold diffuse_l. destruct (Rltb _ _); [now apply HG|apply zero_ge0].
Qed.
Print Assumptions C289_world.

(** A perfect mirror everywhere that also glows: the scene is physical, and one more reflection doubles the light. *)
Definition ex_glow : env Datatypes.unit := mkEnv Datatypes.unit [] (fun r => (r, Some tt)) (fun _ => false) (fun _ _ => spec 1)
  (fun _ => 0) (fun _ _ => Ok (mkV 0 0 0, ex_bsdf)) (fun _ _ => mkV 0 0 1) (fun _ _ _ _ _ => (false, vzero, vzero, vzero, vzero)) None.
Lemma glow_pick wo x y z s : bsdf_sample ex_bsdf wo x y z ALL = Ok s ->
  s = mkSmp 1 (Some (l2w ex_bsdf (mirror_dir (w2l ex_bsdf wo)))) (Some 17%Z) (sdiv (spec 1) (abs_cos_theta (mirror_dir (w2l ex_bsdf wo)))).
Proof.
  unfold bsdf_sample. change (n_components ex_bsdf ALL) with 1%nat. cbn [Nat.eqb].
  destruct (pick _ _ _) as [b|] eqn:EP; [|discriminate].
  assert (b = SpecularReflection (spec 1) FrFull).
  { unfold ex_bsdf in EP. cbn [bs_bdfs pick] in EP. repeat match goal with H : context [if ?b then _ else _] |- _ => destruct b end; try discriminate; now injection EP. }
  subst b. cbn [bdf_sample bind]. destruct (Reqb 1 0) eqn:Q; [exfalso; apply Reqb_true in Q; lra|]. cbn [Nat.ltb Nat.leb]. intros [= <-]. f_equal.
  unfold sdiv, smul, vmap, vmap2, spec; cbn. apply V3_eq; cbn; unfold Rdiv; ring.
Qed.
Lemma glow_sample wo : exists s, bsdf_sample ex_bsdf wo 0 0 0 ALL = Ok s.
Proof.
  unfold bsdf_sample. change (n_components ex_bsdf _) with 1%nat. cbn [Nat.eqb]. unfold pick_index. rewrite Rmult_0_l.
  replace (Zfloor 0) with 0%Z by (symmetry; apply Zfloor_unique; lra). cbn. destruct (Reqb 1 0); eexists; reflexivity.
Qed.
Example C289_ex_path : physical ex_glow /\ exists s po k1 c1 k2 c2,
  let r := mkRD (mkRay (mkV 0 0 1) (mkV 0 0 (-1)) (mkV false false false) (Fin 0) PInf 0%Z 0) false vzero vzero vzero vzero in
  path_li ex_glow (fun _ => /2) 0 s po 2 r tt 0 = Some (Ok (spec 1, k1, c1)) /\
  path_li ex_glow (fun _ => /2) 1 s po 2 r tt 0 = Some (Ok (spec 2, k2, c2)).
Proof.
  split.
  { split; [intros; apply nn_spec; lra|]. split; [intros l r []|]. split; [intros; apply nn_spec; cbn; lra|]. split; [|split].
    - intros v r p b wo u0 u1 uc s [= <- <-] H. apply glow_pick in H. subst s. cbn [sm_f sm_pdf]. split; [|lra].
      unfold nn, sdiv, spec, vmap; cbn [vx vy vz]. unfold abs_cos_theta. set (c := Rabs _). assert (0 <= c) by apply Rabs_pos.
      assert (0 <= 1 / c). { unfold Rdiv. rewrite Rmult_1_l. destruct (Req_dec c 0) as [->|]; [rewrite Rinv_0; lra|]. apply Rlt_le, Rinv_0_lt_compat. lra. } auto.
    - intros l p eps a t Li wi pdf vis [].
    - intros v r p b wo wi fl f [= <- <-] H. unfold bsdf_f in H.
      assert (G : forall y acc, nn acc -> forall g, sum_f (bs_bdfs ex_bsdf) y (w2l ex_bsdf wo) (w2l ex_bsdf wi) acc = Ok g -> nn g).
      { intros y acc N0 g. cbn [ex_bsdf bs_bdfs sum_f]. destruct (match_flag _ _); cbn [bdf_f bind sum_f].
        - intros [= <-]. apply nn_add; [exact N0|apply nn_spec; lra].
        - now intros [= <-]. }
      eapply G; [|exact H]. apply nn_spec. lra. }
  exists (mkS 0 0 0 0 0 [] [] [[0]] [[(0, 0)]]), [mkPO 0 (mkOff 1 0 0) (mkOff 1 0 0) (mkOff 1 0 0); mkPO 0 (mkOff 1 0 0) (mkOff 1 0 0) (mkOff 1 0 0)].
  set (s := mkS 0 0 0 0 0 _ _ _ _). set (po := [_; _]).
  set (r := mkRD _ _ _ _ _ _). cbv zeta.
  assert (ST : forall md s0 q, p_k s0 = 0%nat -> p_bounce s0 = q -> (q = 0 \/ q = 1)%nat -> p_spb s0 = negb (q =? 0)%nat -> rdir (p_r s0) = mkV 0 0 (if (q =? 0)%nat then -1 else 1) ->
    p_beta s0 = spec 1 ->
    path_step ex_glow (fun _ => /2) md (path_direct ex_glow (fun _ => /2) s po) (path_smp_of s po) s0 =
    if (Z.of_nat q =? md)%Z then inl (Ok (vadd (p_L s0) (spec 1), 0%nat, p_calls s0))
    else inr (mkP (S q) tt (child_ray (mkV 0 0 0) (mkV 0 0 (if (q =? 0)%nat then 1 else -1)) (p_r s0) 0) true (spec 1) (vadd (p_L s0) (spec 1)) 0 (S (p_calls s0)))).
  { intros md s0 q EK EB Q ESP ED EBT. unfold path_step. rewrite EK, EB, ESP, EBT, ED.
    replace ((q =? 0)%nat || negb (q =? 0)%nat) with true by (now destruct (q =? 0)%nat). cbn [ex_glow v_le v_bsdf b_dgs_nn].
    assert (E1 : path_direct ex_glow (fun _ => /2) s po q (p_v s0) (p_r s0) (mkV 0 0 0) (mkV 0 0 1) (vneg (mkV 0 0 (if (q =? 0)%nat then -1 else 1))) ex_bsdf 0 = Ok (spec 0, 0%nat)) by (now destruct Q as [-> | ->]).
    fold ex_glow. rewrite E1. replace (q <? SAMPLE_DEPTH)%nat with true by (now destruct Q as [-> | ->]).
    assert (E2 : path_smp_of s po q = Ok (0, 0, 0)) by (now destruct Q as [-> | ->]). rewrite E2. cbn [bind].
    destruct (glow_sample (vneg (mkV 0 0 (if (q =? 0)%nat then -1 else 1)))) as (sm & ES). rewrite ES. apply glow_pick in ES. subst sm. cbn [sm_f sm_pdf sm_wi].
    replace (SAMPLE_DEPTH <? q)%nat with false by (now destruct Q as [-> | ->]). replace (1 <? q)%nat with false by (now destruct Q as [-> | ->]). cbn [orb].
    assert (EC : abs_cos_theta (mirror_dir (w2l ex_bsdf (vneg (mkV 0 0 (if (q =? 0)%nat then -1 else 1))))) = 1).
    { unfold abs_cos_theta, cos_theta, mirror_dir, w2l, vdot, ex_bsdf, vneg, vmap; cbn. match goal with |- Rabs ?x = 1 => assert (H : x = 1 \/ x = -1) by (destruct Q as [-> | ->]; cbn; [left|right]; ring) end.
      destruct H as [-> | ->]; [apply Rabs_R1|]. rewrite Rabs_left by lra. lra. }
    assert (EW : l2w ex_bsdf (mirror_dir (w2l ex_bsdf (vneg (mkV 0 0 (if (q =? 0)%nat then -1 else 1))))) = mkV 0 0 (if (q =? 0)%nat then 1 else -1)).
    { unfold l2w, mirror_dir, w2l, vdot, ex_bsdf, vneg, vmap. destruct Q as [-> | ->]; cbn; apply V3_eq; cbn; ring. }
    rewrite EC, EW.
    assert (E3 : spec_is_black (sdiv (spec 1) 1) || Reqb 1 0 = false).
    { apply orb_false_iff. split; [|apply Reqb_false; lra]. unfold spec_is_black, sdiv, vmap, spec; cbn.
      replace (Rltb (1 / 1) EPS) with false; [reflexivity|]. symmetry. apply Rltb_false. unfold EPS. lra. }
    rewrite E3. cbn [ex_glow hit v_eps].
    assert (E4 : vadd (vadd (p_L s0) (smul (spec 1) (spec 1))) (smul (spec 1) (spec 0)) = vadd (p_L s0) (spec 1)).
    { unfold vadd, smul, vmap2, spec; cbn. apply V3_eq; cbn; ring. }
    rewrite E4.
    assert (E5 : smul (spec 1) (sdiv (vscale (abs_dot (mkV 0 0 (if (q =? 0)%nat then 1 else -1)) (mkV 0 0 1)) (sdiv (spec 1) 1)) 1) = spec 1).
    { assert (A : abs_dot (mkV 0 0 (if (q =? 0)%nat then 1 else -1)) (mkV 0 0 1) = 1).
      { unfold abs_dot, vdot; cbn. destruct Q as [-> | ->]; cbn; [rewrite Rabs_right|rewrite Rabs_left]; lra. }
      rewrite A. unfold smul, sdiv, vscale, vmap, vmap2, spec; cbn. apply V3_eq; cbn; field. }
    rewrite E5. reflexivity. }
  do 4 eexists. split.
  - unfold path_li, path_run. cbn [path_loop]. rewrite (ST 0%Z (mkP 0 tt r false (spec 1) (spec 0) 0 0) 0%nat eq_refl eq_refl (or_introl eq_refl) eq_refl eq_refl eq_refl). cbn [Z.of_nat Z.eqb p_L p_calls].
    do 2 f_equal. f_equal. f_equal. unfold vadd, vmap2, spec; cbn. apply V3_eq; cbn; ring.
  - unfold path_li, path_run. cbn [path_loop]. rewrite (ST 1%Z (mkP 0 tt r false (spec 1) (spec 0) 0 0) 0%nat eq_refl eq_refl (or_introl eq_refl) eq_refl eq_refl eq_refl). cbn [Z.of_nat Z.eqb p_L p_calls].
    match goal with |- context [path_step _ _ _ _ _ ?s1] => rewrite (ST 1%Z s1 1%nat eq_refl eq_refl (or_intror eq_refl) eq_refl eq_refl eq_refl) end. cbn [Z.of_nat Pos.of_succ_nat Z.eqb Pos.eqb p_L p_calls].
    do 2 f_equal. f_equal. f_equal. unfold vadd, vmap2, spec; cbn. apply V3_eq; cbn; ring.
Qed.
(** The triangle of C270_ex in the light of its lamp, with maximum depth 1 and 5. *)
Example C289_ex_world : exists sc, scene_make 4 (full_refine_items w_items 3 3) = Ok sc /\
  (forall it em, In it w_items -> it_light it = Some em -> spec_ge0 em) /\
  let mats := fun k => Matte (fun _ => w_colour k) (fun _ => 0) None in let df := fun _ _ _ _ _ => (false, vzero, vzero, vzero, vzero) in
  (forall j, simple_material (mats j)) /\ steady_stream (fun _ => /2) /\
  forall fuel depth, (scene_size sc <= fuel)%nat -> (0 < depth)%nat -> forall md, exists L T i k n,
    whitted (mkW sc mats (map lamp_light [w_lamp]) fuel df) (fun _ => /2) md (rtime ex_ray) depth (mkRD ex_ray false vzero vzero vzero vzero) 0 = Some (Ok (L, T, i, k, n)).
Proof.
  destruct w_ok as (A & B & C & D & F & G0).
  pose proof (fun md => C270_lit 4 w_items 3 3 w_colour _ (fun _ _ _ _ _ => (false, vzero, vzero, vzero, vzero)) [w_lamp] (mkRD ex_ray false vzero vzero vzero vzero)
    (fun _ => /2) md 0 (le_n 4) A B (or_introl C) D F G0 (w_sight 1)) as G.
  destruct (G 5%Z) as (sc & HS & _). exists sc. split; [exact HS|]. split.
  { intros it em Hi. rewrite (proj1 (B it Hi)). discriminate. }
  intros mats df. split; [intros j g; lra|]. split; [intros j; unfold in_unit; lra|]. intros fuel depth HF HD md.
  destruct (G md) as (sc1 & HS1 & H1). rewrite HS in HS1. injection HS1 as <-. destruct (H1 fuel depth HF HD) as (L1 & T1 & i1 & k1 & n1 & E1 & _).
  do 5 eexists. exact E1.
Qed.
