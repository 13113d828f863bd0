(** Property theorems C270-C275 (whole scenes).  Vocabulary: S_World.v, S_Scene.v, S_Integrator2.v. *)
From Coq Require Import Reals Lra Lia List ZArith Bool.
From Verif Require Import Base M_MonteCarlo M_Aggregate M_Utility M_Spectrum M_Sampler M_Film.
From Verif Require Import M_Geometry S_Geometry P_Geometry M_Transform S_Transform P_Transform P_Transform2 M_Shapes S_Shapes P_ShapesMore M_BVH S_BVH
  M_Reflection S_Reflection M_Light M_Primitive S_Scene P_Scene2 M_Material S_Material M_Integrator S_Integrator S_Integrator2 P_Integrator3 M_World S_World P_World P_World2 Props_Integrator Props_Integrator2.
Import ListNotations.
Open Scope R_scope.

(** C270: a scene of diffuse triangle meshes, spheres and disks lit by point lights, from the constructors' arguments to the
    radiance along a ray: the Whitted integrator succeeds and returns the sum over the lamps of Kd/pi times the irradiance at the nearest
    surface point, counting the lamps which the point sees; black if the ray meets nothing. *)
Theorem C270_lit (mp : nat) (items : list item) (ns np : Z) (colour : nat -> vec) (mats : nat -> material)
    diffs (lamps : list lamp) (r : raydiff) (u : nat -> R) (md : Z) (k : nat) :
  let prims := full_refine_items items ns np in
  (mp <= 4)%nat -> Forall (fun it => geom_ok (it_geom it)) items -> (forall it, In it items -> plain_item it) ->
  ((length prims <= 65)%nat \/ forall bounds t o n, prim_bounds prims = Ok bounds ->
     bvh_build SAH mp bounds = Ok (t, o, n) -> (theight t <= 64)%nat) ->
  diffuse_mats mats colour -> clear_ray items prims (rd_ray r) -> off_poles items (rd_ray r) ->
  (forall it t l, In it items -> touches (it_geom it) (rd_ray r) t -> In l lamps ->
     lp_pos l <> ray_at (rd_ray r) t /\ clear_ray items prims (sight (ray_at (rd_ray r) t) (lp_pos l) (offset_at (it_geom it) t) (rtime (rd_ray r)))) ->
  exists sc, scene_make mp prims = Ok sc /\ forall fuel depth, (scene_size sc <= fuel)%nat -> (0 < depth)%nat ->
    exists L T i k' c,
      whitted (mkW sc mats (map lamp_light lamps) fuel diffs) u md (rtime (rd_ray r)) depth r k = Some (Ok (L, T, i, k', c)) /\
      shown items colour lamps (rd_ray r) L.
Proof. intros prims A B C D M E G F. now apply (lit_main mp items ns np colour lamps r A B C D E G F). Qed.
Print Assumptions C270_lit.

(** what is shown is not negative, and not more than all lamps unhidden at right angles would give *)
Theorem C270_bounded (items : list item) (colour : nat -> vec) (lamps : list lamp) (r : ray) (L : vec) :
  (forall l, In l lamps -> spec_ge0 (lp_i l)) -> shown items colour lamps r L ->
  spec_ge0 L /\ (L = vzero \/ exists it t, In it items /\ touches (it_geom it) r t /\
    spec_le L (vsum (map (fun l => smul (vscale (/ PI) (positive_part (colour (it_material it))))
                                        (vscale (/ dist (ray_at r t) (lp_pos l) ^ 2) (lp_i l))) lamps))).
Proof.
  intros NN [(-> & _)|(it & t & n & xs & Hi & HT & _ & _ & _ & FN & LX & -> & HX)].
  { split; [unfold spec_ge0, vzero; cbn; lra|now left]. }
  set (p := ray_at r t) in *. set (f := vscale (/ PI) (positive_part (colour (it_material it)))).
  assert (F0 : spec_ge0 f).
  { unfold f, spec_ge0, vscale, vmap, positive_part; cbn. pose proof (Rinv_0_lt_compat _ PI_RGT_0).
    pose proof (Rmax_l 0 (vx (colour (it_material it)))). pose proof (Rmax_l 0 (vy (colour (it_material it)))).
    pose proof (Rmax_l 0 (vz (colour (it_material it)))). repeat split; nra. }
  assert (U : unit n).
  { apply FN. }
  assert (Q : forall ls xs', (forall l, In l ls -> spec_ge0 (lp_i l)) -> length xs' = length ls ->
    (forall j l x, nth_error ls j = Some l -> nth_error xs' j = Some x ->
       exists bl, diffuse_from (colour (it_material it)) p n (vneg (rd r)) l bl x) ->
    spec_ge0 (vsum xs') /\ spec_le (vsum xs') (vsum (map (fun l => smul f (vscale (/ dist p (lp_pos l) ^ 2) (lp_i l))) ls))).
  2:{ destruct (Q lamps xs NN LX) as (Q1 & Q2).
      { intros j l x Hj Hx. destruct (HX j l x Hj Hx) as (bl & _ & D). exists bl. exact D. }
      split; [exact Q1|]. right. exists it, t. auto. }
  induction ls as [|l ls IH]; intros [|x xs'] N1 L1 H1; try discriminate L1.
  { cbn. unfold spec_ge0, spec_le, spec; cbn. lra. }
  destruct (IH xs') as (I1 & I2).
  { intros; apply N1; now right. } { cbn in L1; congruence. } { intros j l' x' A B. apply (H1 (S j)); assumption. }
  destruct (H1 0%nat l x eq_refl eq_refl) as (bl & D). pose proof (N1 l (or_introl eq_refl)) as NI.
  change (vsum (x :: xs')) with (vadd x (vsum xs')). cbn [map]. 
  change (vsum (smul f (vscale (/ dist p (lp_pos l) ^ 2) (lp_i l)) :: map (fun l0 => smul f (vscale (/ dist p (lp_pos l0) ^ 2) (lp_i l0))) ls))
    with (vadd (smul f (vscale (/ dist p (lp_pos l) ^ 2) (lp_i l))) (vsum (map (fun l0 => smul f (vscale (/ dist p (lp_pos l0) ^ 2) (lp_i l0))) ls))).
  set (rest := vsum (map _ ls)) in *.
  assert (E0 : spec_ge0 (vscale (/ dist p (lp_pos l) ^ 2) (lp_i l))).
  { destruct (Req_dec (dist p (lp_pos l)) 0) as [Z0|Z0].
    - rewrite Z0. replace (0 ^ 2) with 0 by ring. rewrite Rinv_0. unfold spec_ge0, vscale, vmap; cbn. lra.
    - assert (0 < / dist p (lp_pos l) ^ 2) by (apply Rinv_0_lt_compat; rewrite <- Rsqr_pow2; now apply Rlt_0_sqr).
      destruct NI as (a & b & c). unfold spec_ge0, vscale, vmap; cbn [vx vy vz]. repeat split; nra. }
  destruct D as [(_ & _ & _ & _ & ->)|(_ & ->)].
  2:{ unfold spec_ge0, spec_le, vadd, vzero, smul, vmap2 in *; cbn [vx vy vz] in *. destruct F0 as (a & b & c), E0 as (a' & b' & c').
      pose proof (Rmult_le_pos _ _ a a'). pose proof (Rmult_le_pos _ _ b b'). pose proof (Rmult_le_pos _ _ c c').
      destruct I1 as (i1 & i2 & i3), I2 as (j1 & j2 & j3). repeat split; lra. }
  fold f. set (e0 := vscale _ (lp_i l)) in *. set (w := dir p (lp_pos l)).
  assert (CS : 0 <= Rabs (vdot w n) <= 1).
  { split; [apply Rabs_pos|]. destruct (Req_dec (dist p (lp_pos l)) 0) as [Z0|Z0].
    - unfold w, dir. rewrite Z0, Rinv_0. unfold vdot, vscale, vmap; cbn. rewrite !Rmult_0_l, !Rplus_0_r, Rabs_R0. lra.
    - assert (DP : 0 < dist p (lp_pos l)).
      { unfold dist in *. pose proof (sqrt_pos (sq_length (vsub (lp_pos l) p))). unfold vlength in *. lra. }
      assert (UW : unit w).
      { unfold w, dir, unit, vscale, vmap; cbn [vx vy vz]. pose proof (vlength_sq (vsub (lp_pos l) p)) as SQ. fold (dist p (lp_pos l)) in SQ.
        unfold sq_length in SQ. set (q := vsub (lp_pos l) p) in *. set (d := dist p (lp_pos l)) in *.
        replace (/ d * vx q * (/ d * vx q) + / d * vy q * (/ d * vy q) + / d * vz q * (/ d * vz q))
          with ((vx q * vx q + vy q * vy q + vz q * vz q) / (d * d)) by (field; lra).
        rewrite <- SQ. field; lra. }
      unfold unit in U, UW. unfold vdot. clear - U UW. destruct w as [a b c], n as [a' b' c']; cbn in *.
      apply Rabs_le. pose proof (Rle_0_sqr (a - a')). pose proof (Rle_0_sqr (b - b')). pose proof (Rle_0_sqr (c - c')).
      pose proof (Rle_0_sqr (a + a')). pose proof (Rle_0_sqr (b + b')). pose proof (Rle_0_sqr (c + c')). unfold Rsqr in *. lra. }
  destruct F0 as (a & b & c), E0 as (a' & b' & c').
  unfold spec_ge0, spec_le, vadd, vmap2, smul, vscale, vmap in *; cbn [vx vy vz] in *.
  pose proof (Rmult_le_pos _ _ a a') as k1. pose proof (Rmult_le_pos _ _ b b') as k2. pose proof (Rmult_le_pos _ _ c c') as k3.
  set (z := Rabs (vdot w n)) in *. destruct I1 as (i1 & i2 & i3), I2 as (j1 & j2 & j3).
  assert (ZX : forall x, 0 <= x -> 0 <= z * x <= x) by (intros; nra).
  apply ZX in k1, k2, k3. repeat split; unfold vmap2; cbn [vx vy vz]; lra.
Qed.
Print Assumptions C270_bounded.

(** a triangle in the plane z = 0, half grey, with a lamp three units from the point the ray meets, two of them upwards:
    the hypotheses hold and the radiance is 1/(3 pi) *)
Definition w_items : list item :=
  [mkItem (GMesh (id_base false) [0; 1; 2]%Z [mkV (-3) (-3) 0; mkV 3 (-3) 0; mkV 0 5 0] None None None) 1 1 0 None].
Definition w_lamp_of (e : R) : lamp := mkLamp (mkV 3 (3/2) 2) (spec (9 * e)).
Definition w_lamp : lamp := w_lamp_of 1.
Definition w_colour (k : nat) : vec := spec (/ 2).
Lemma w_touch r t : touches (it_geom (hd mirror_item w_items)) r t -> vz (ray_at r t) = 0.
Proof.
  intros (f & Hf & _ & HI). cbn [length] in Hf. assert (f = 0)%nat by lia. subst f. revert HI.
  unfold S_Shapes.corner. cbn [id_base b_o2w]. rewrite !t_point_I.
  replace (Z.to_nat (nth (3 * 0 + 0) [0; 1; 2]%Z 0%Z)) with 0%nat by reflexivity.
  replace (Z.to_nat (nth (3 * 0 + 1) [0; 1; 2]%Z 0%Z)) with 1%nat by reflexivity.
  replace (Z.to_nat (nth (3 * 0 + 2) [0; 1; 2]%Z 0%Z)) with 2%nat by reflexivity. cbn [nth].
  intros (x & y & z & _ & _ & _ & _ & ->). unfold vadd, vscale, vmap2, vmap; cbn. ring.
Qed.
Lemma w_touch5 r t : r = ex_ray -> touches (it_geom (hd mirror_item w_items)) r t -> t = 5.
Proof. intros -> H. apply w_touch in H. unfold ray_at, ex_ray, vadd, vscale, vmap2, vmap in H; cbn in H. lra. Qed.
Lemma w_at5 : ray_at ex_ray 5 = mkV 1 (1/2) 0.
Proof. unfold ray_at, ex_ray, vadd, vscale, vmap2, vmap; cbn. apply V3_eq; cbn; lra. Qed.
Lemma w_dist : dist (mkV 1 (1/2) 0) (mkV 3 (3/2) 2) = 3.
Proof.
  unfold dist, vlength, sq_length, vsub, vmap2; cbn.
  match goal with |- sqrt ?x = _ => replace x with (3 * 3) by field end. apply sqrt_square; lra.
Qed.
Lemma w_dir : dir (mkV 1 (1/2) 0) (mkV 3 (3/2) 2) = mkV (2/3) (1/3) (2/3).
Proof. unfold dir. rewrite w_dist. unfold vscale, vsub, vmap, vmap2; cbn. apply V3_eq; cbn; field. Qed.
Lemma w_only it t : In it w_items -> touches (it_geom it) ex_ray t -> t = 5.
Proof. intros [<-|[]] H. now apply (w_touch5 ex_ray). Qed.
Lemma w_ok : Forall (fun it => geom_ok (it_geom it)) w_items /\ (forall it, In it w_items -> plain_item it) /\
  (length (full_refine_items w_items 3 3) <= 65)%nat /\
  diffuse_mats (fun k => Matte (fun _ => w_colour k) (fun _ => 0) None) w_colour /\
  clear_ray w_items (full_refine_items w_items 3 3) ex_ray /\ off_poles w_items ex_ray.
Proof.
  split; [constructor; [|constructor]; cbn [it_geom geom_ok]; split; [reflexivity|]; split; [unfold faces_ok; repeat (constructor; [cbn; lia|]); constructor|intros l [=]]|].
  split; [intros it [<-|[]]; split; [reflexivity|now left]|].
  split; [cbn; lia|]. split; [intros k; eexists _, _; split; [reflexivity|]; split; [reflexivity|intros; lra]|].
  split; [|intros it t [<-|[]] _; exact Logic.I]. split; [|constructor; [exact Logic.I|constructor]].
  split; [repeat split; cbn; lra|]; split; [discriminate|]; split; [discriminate|]; intros p b _ _ H; cbn in H; lra.
Qed.
Lemma w_sight e it t l : In it w_items -> touches (it_geom it) ex_ray t -> In l [w_lamp_of e] ->
  lp_pos l <> ray_at ex_ray t /\ clear_ray w_items (full_refine_items w_items 3 3) (sight (ray_at ex_ray t) (lp_pos l) (offset_at (it_geom it) t) (rtime ex_ray)).
Proof.
  intros Hi HT [<-|[]]. rewrite (w_only it t Hi HT), w_at5. split.
  - cbn. intros Q. apply (f_equal vz) in Q. cbn in Q. lra.
  - split; [|destruct Hi as [<-|[]]; constructor; [exact Logic.I|constructor]]. split; [|split; [discriminate|split; [discriminate|]]].
    + unfold pos_zero, sight; cbn [rd rdz vx vy vz]. auto.
    + intros p b _ _ H. exfalso. cbn [sight rd w_lamp_of lp_pos] in H. rewrite w_dir in H. cbn in H. lra.
Qed.
Lemma w_shown e L : shown w_items w_colour [w_lamp_of e] ex_ray L ->
  (/ 100000 <= e -> L = spec (e / (3 * PI))) /\ (e < / 100000 -> L = vzero).
Proof.
  intros [(_ & H)|(it & t & n & xs & Hi & HT & _ & _ & _ & FN & LX & -> & HX)].
  { exfalso. destruct ex_items_ok as (_ & _ & _ & _ & _ & T5).
    apply (H (hd mirror_item w_items) 5); [now left|exact T5| |]; unfold elt; cbn; rewrite ?Rltb_true; try reflexivity; lra. }
  pose proof (w_only it t Hi HT). subst t. destruct Hi as [<-|[]]. rewrite w_at5 in *.
  destruct xs as [|x [|? ?]]; try discriminate LX. destruct (HX 0%nat (w_lamp_of e) x eq_refl eq_refl) as (bl & SA & D).
  destruct FN as (U & f & Hf & _ & P1 & P2). cbn [it_geom] in *. cbn [length] in Hf. assert (f = 0)%nat by lia. subst f.
  unfold S_Shapes.corner in P1, P2. cbn [id_base b_o2w] in P1, P2. rewrite !t_point_I in P1, P2.
  change (Z.to_nat (nth (3 * 0 + 0) [0; 1; 2]%Z 0%Z)) with 0%nat in P1, P2.
  change (Z.to_nat (nth (3 * 0 + 1) [0; 1; 2]%Z 0%Z)) with 1%nat in P1, P2.
  change (Z.to_nat (nth (3 * 0 + 2) [0; 1; 2]%Z 0%Z)) with 2%nat in P1, P2. cbn [nth] in P1, P2.
  destruct n as [n1 n2 n3]. unfold vdot, vsub, vmap2 in P1, P2; cbn in P1, P2. unfold unit in U; cbn in U.
  assert (n1 = 0) by lra. assert (n2 = 0) by lra. subst n1 n2.
  assert (N3 : n3 = 1 \/ n3 = -1). { assert (Z0 : (n3 - 1) * (n3 + 1) = 0) by lra. apply Rmult_integral in Z0 as [?|?]; [left|right]; lra. }
  destruct bl.
  { exfalso. destruct SA as (it' & t' & [<-|[]] & T' & G1 & G2). apply w_touch in T'. cbn [w_lamp_of lp_pos] in *.
    unfold sight, ray_at in T'. cbn [ro rd] in T'. rewrite w_dir in T'. unfold vadd, vscale, vmap2, vmap in T'; cbn in T'.
    unfold sight in G1. cbn [rmint] in G1. apply ele_Fin in G1. cbn [offset_at it_geom] in G1. lra. }
  assert (IP : / 100000 <= / PI * (/ 2)).
  { assert (/ 4 <= / PI) by (apply Rinv_le_contravar; [apply PI_RGT_0|apply PI_4]). lra. }
  unfold diffuse_from in D. cbn [w_lamp_of lp_pos lp_i it_material] in D. rewrite w_dir, w_dist in D.
  assert (AN : Rabs (vdot (mkV (2 / 3) (1 / 3) (2 / 3)) (mkV 0 0 n3)) = 2/3).
  { unfold vdot; cbn. replace (2 / 3 * 0 + 1 / 3 * 0 + 2 / 3 * n3) with (2/3 * n3) by ring.
    destruct N3 as [-> | ->]; [rewrite Rabs_pos_eq; lra|rewrite Rabs_left; lra]. }
  rewrite AN in D.
  assert (PP : positive_part (w_colour 0) = spec (/ 2)).
  { unfold positive_part, w_colour, spec; cbn. rewrite !Rmax_right by lra. reflexivity. }
  rewrite PP in D.
  cbn [vsum fold_right]. split; intros HE; destruct D as [(BE & _ & _ & _ & ->)|([B|[B|[B|B]]] & ->)].
  - pose proof PI_RGT_0. unfold vadd, vscale, smul, spec, vmap, vmap2; cbn. apply V3_eq; cbn; field; lra.
  - exfalso. apply B. left. unfold vscale, vmap, spec; cbn. lra.
  - exfalso. apply B. left. unfold vscale, vmap, spec; cbn. exact IP.
  - exfalso. apply B. unfold same_side, vneg, vdot, ex_ray, vmap; cbn. destruct N3 as [-> | ->]; lra.
  - discriminate B.
  - exfalso. unfold bright, vscale, vmap, spec in BE; cbn in BE. destruct BE as [BE|[BE|BE]]; lra.
  - unfold vadd, vmap2, spec, vzero; cbn. apply V3_eq; cbn; ring.
  - unfold vadd, vmap2, spec, vzero; cbn. apply V3_eq; cbn; ring.
  - unfold vadd, vmap2, spec, vzero; cbn. apply V3_eq; cbn; ring.
  - unfold vadd, vmap2, spec, vzero; cbn. apply V3_eq; cbn; ring.
Qed.
Example C270_ex :
  Forall (fun it => geom_ok (it_geom it)) w_items /\ (forall it, In it w_items -> plain_item it) /\
  (length (full_refine_items w_items 3 3) <= 65)%nat /\
  diffuse_mats (fun k => Matte (fun _ => w_colour k) (fun _ => 0) None) w_colour /\
  clear_ray w_items (full_refine_items w_items 3 3) ex_ray /\ off_poles w_items ex_ray /\
  (forall it t l, In it w_items -> touches (it_geom it) ex_ray t -> In l [w_lamp] ->
     lp_pos l <> ray_at ex_ray t /\ clear_ray w_items (full_refine_items w_items 3 3) (sight (ray_at ex_ray t) (lp_pos l) (offset_at (it_geom it) t) (rtime ex_ray))) /\
  forall L, shown w_items w_colour [w_lamp] ex_ray L -> L = spec (/ (3 * PI)).
Proof.
  destruct w_ok as (A & B & C & D & F & G0). repeat (split; [assumption|]). split; [exact (w_sight 1)|].
  intros L HL. destruct (w_shown 1 L HL) as (HQ & _). rewrite HQ by lra. f_equal. unfold Rdiv. apply Rmult_1_l.
Qed.

(** a half grey unit sphere seen from above at (3/5, 0, 4/5), with a lamp two units further out: the hypotheses hold and
    the radiance is 1/pi *)
Definition o_item : item := mkItem (GSphere (id_base false) 1 (-1) 1 360) 1 1 0 None.
Definition o_ray : ray := mkRay (mkV (3/5) 0 5) (mkV 0 0 (-1)) (mkV false false false) (Fin 0) PInf 0%Z 0.
Definition o_lamp : lamp := mkLamp (mkV (9/5) 0 (12/5)) (spec 8).
Definition o_point : vec := mkV (3/5) 0 (4/5).
Lemma o_on t : touches (it_geom o_item) o_ray t -> t = 21/5 \/ t = 29/5.
Proof.
  intros (_ & H). cbn [id_base b_w2o] in H. rewrite t_point_I in H. destruct H as (H & _). unfold ray_at, o_ray, vadd, vscale, vmap2, vmap in H; cbn in H.
  assert (Z0 : (t - 21/5) * (t - 29/5) = 0) by lra. apply Rmult_integral in Z0 as [Z0|Z0]; [left|right]; lra.
Qed.
Lemma o_zmin b : sp_zmin (sphere_make b 1 (-1) 1 360) = -1 /\ sp_zmax (sphere_make b 1 (-1) 1 360) = 1 /\ sp_phimax (sphere_make b 1 (-1) 1 360) = 2 * PI.
Proof.
  unfold sphere_make, phi_max_of, deg2rad, pmin, pmax; cbn [sp_zmin sp_zmax sp_phimax].
  replace (Rltb 1 (-1)) with false by (symmetry; apply Rltb_false; lra). replace (Rltb (-1) 1) with true by (symmetry; apply Rltb_true; lra).
  repeat split; unfold clip, Rmin, Rmax; repeat destruct (Rle_dec _ _); lra.
Qed.
Lemma o_touch : touches (it_geom o_item) o_ray (21/5).
Proof.
  cbn [o_item it_geom]. unfold touches. cbn [id_base b_w2o]. rewrite t_vector_I, !t_point_I.
  destruct (o_zmin (id_base false)) as (-> & -> & ->). split.
  - unfold discriminant, EPS, o_ray, vdot, sq_length; cbn. lra.
  - unfold on_sphere, ray_at, o_ray, vadd, vscale, vmap2, vmap; cbn. split; [lra|]. split; [lra|].
    exists 0. pose proof PI_RGT_0. split; [lra|]. rewrite cos_0, sin_0. cbn [vx vy vz].
    match goal with |- _ = sqrt ?x * _ /\ _ => replace x with ((3/5) * (3/5)) by field end. rewrite sqrt_square by lra. lra.
Qed.
Lemma o_at t : t = 21/5 -> ray_at o_ray t = o_point.
Proof. intros ->. unfold ray_at, o_ray, o_point, vadd, vscale, vmap2, vmap; cbn. apply V3_eq; cbn; lra. Qed.
Lemma o_dist : dist o_point (lp_pos o_lamp) = 2.
Proof.
  unfold dist, vlength, sq_length, vsub, vmap2; cbn.
  match goal with |- sqrt ?x = _ => replace x with (2 * 2) by field end. apply sqrt_square; lra.
Qed.
Lemma o_dir : dir o_point (lp_pos o_lamp) = o_point.
Proof. unfold dir. rewrite o_dist. unfold vscale, vmap, vsub, vmap2; cbn. apply V3_eq; cbn; lra. Qed.

Example C270_sphere_ex :
  geom_ok (it_geom o_item) /\ plain_item o_item /\ clear_ray [o_item] (full_refine_items [o_item] 3 3) o_ray /\ off_poles [o_item] o_ray /\
  (forall it t l, In it [o_item] -> touches (it_geom it) o_ray t -> In l [o_lamp] ->
     lp_pos l <> ray_at o_ray t /\ clear_ray [o_item] (full_refine_items [o_item] 3 3) (sight (ray_at o_ray t) (lp_pos l) (offset_at (it_geom it) t) (rtime o_ray))) /\
  touches (it_geom o_item) o_ray (21/5) /\
  forall L, shown [o_item] w_colour [o_lamp] o_ray L -> L = spec (/ PI).
Proof.
  assert (BX : forall r p b, In p (full_refine_items [o_item] 3 3) -> shape_bound (gp_shape p) = Ok b ->
     (vx (rd r) = 0 -> vx (ro r) = 3/5) -> off_x_faces r (fst b) (snd b)).
  { intros r p b [<-|[]] HB HX H0. specialize (HX H0). revert HB. cbn [gp_shape shape_bound]. intros HB.
    assert (EB : vx (fst b) = -1 /\ vx (snd b) = 1).
    { injection HB as <-. unfold shape_world_bound, t_bbox, sphere_object_bound, sphere_make. cbn [sp_base sp_r sp_zmin sp_zmax id_base b_o2w fst snd].
      rewrite t_point_I, !t_vector_I. unfold vadd, vmap2; cbn. split; ring. }
    destruct EB as (-> & ->). rewrite HX. lra. }
  split; [cbn [o_item it_geom geom_ok]; split; [apply id_base_ok|split; [|lra]]; intros r [-> | [-> | ->]]; cbn; lra|].
  split; [split; [reflexivity|]; cbn; repeat split; try lra; [rewrite Rmin_left; lra|rewrite Rmax_right; lra]|].
  split.
  { split; [|constructor; [exact Logic.I|constructor]]. split; [repeat split; cbn; lra|]. split; [discriminate|]. split; [discriminate|].
    intros p b Hp HB. now apply (BX o_ray p b Hp HB). }
  split.
  { intros it t [<-|[]] _. cbn [o_item it_geom id_base b_w2o]. rewrite t_point_I. left. cbn. lra. }
  split; [|split; [exact o_touch|]].
  - intros it t l [<-|[]] HT [<-|[]]. pose proof (o_on t HT) as TT.
    set (q := ray_at o_ray t) in *.
    assert (QX : vx q = 3/5) by (unfold q, ray_at, o_ray, vadd, vscale, vmap2, vmap; cbn; lra).
    assert (NE : lp_pos o_lamp <> q) by (intros Q; apply (f_equal vx) in Q; rewrite QX in Q; cbn in Q; lra).
    split; [exact NE|]. split; [|constructor; [exact Logic.I|constructor]].
    split; [unfold pos_zero, sight; cbn [rd rdz vx vy vz]; auto|]. split; [discriminate|]. split; [discriminate|].
    intros p b Hp HB. apply (BX _ p b Hp HB). cbn [sight rd ro]. intros _. exact QX.
  - intros L [(_ & H)|(it & t & n & xs & Hi & HT & _ & _ & HM & FN & LX & -> & HX)].
    { exfalso. apply (H o_item (21/5)); [now left|exact o_touch| |]; unfold elt; cbn; rewrite ?Rltb_true; try reflexivity; lra. }
    destruct Hi as [<-|[]].
    assert (Et : t = 21/5).
    { destruct (o_on t HT) as [?|?]; [assumption|]. specialize (HM o_item (21/5) (or_introl eq_refl) o_touch).
      assert (Q : elt (rmint o_ray) (Fin (21/5))) by (unfold elt; cbn; apply Rltb_true; lra). specialize (HM Q). lra. }
    rewrite (o_at t Et) in *. destruct xs as [|x [|? ?]]; try discriminate LX. destruct (HX 0%nat o_lamp x eq_refl eq_refl) as (bl & SA & D).
    clear HX HM. destruct FN as (U & P). cbn [o_item it_geom id_base b_w2o b_o2w] in P. 
    assert (P1 : forall w, vdot w o_point = 0 -> vdot n w = 0) by (intros w Hw; specialize (P w); rewrite t_point_I, t_vector_I in P; now apply P).
    pose proof (P1 (mkV 0 1 0)) as Q1. pose proof (P1 (mkV (4/5) 0 (-(3/5)))) as Q2. clear P P1.
    destruct n as [n1 n2 n3]. unfold vdot, o_point in Q1, Q2; cbn in Q1, Q2. specialize (Q1 ltac:(lra)). specialize (Q2 ltac:(lra)).
    unfold unit in U; cbn in U.
    assert (n2 = 0) by lra. assert (n1 = 3/4 * n3) by lra. subst n1 n2.
    assert (N3 : n3 = 4/5 \/ n3 = -(4/5)). { assert (Z0 : (n3 - 4/5) * (n3 + 4/5) = 0) by lra. apply Rmult_integral in Z0 as [?|?]; [left|right]; lra. }
    assert (AN : Rabs (vdot o_point (mkV (3 / 4 * n3) 0 n3)) = 1).
    { unfold vdot, o_point; cbn. destruct N3 as [-> | ->]; [rewrite Rabs_pos_eq; lra|rewrite Rabs_left; lra]. }
    destruct bl.
    { exfalso. destruct SA as (it' & t' & [<-|[]] & (_ & T') & G1 & G2). cbn [id_base b_w2o] in T'. rewrite t_point_I in T'. destruct T' as (T' & _).
      unfold sight in G1. cbn [rmint] in G1. apply ele_Fin in G1. cbn [offset_at it_geom o_item] in G1.
      unfold sight, ray_at in T'. cbn [ro rd] in T'. rewrite o_dir in T'. unfold vadd, vscale, vmap2, vmap in T'; cbn in T'.
      assert (Z0 : t' * (t' + 2) = 0) by lra. apply Rmult_integral in Z0 as [?|?]; lra. }
    assert (IP : / 100000 <= / PI * (/ 2)).
    { assert (/ 4 <= / PI) by (apply Rinv_le_contravar; [apply PI_RGT_0|apply PI_4]). lra. }
    unfold diffuse_from in D. rewrite o_dir, o_dist, AN in D. cbn [o_lamp lp_i o_item it_material] in D.
    assert (PP : positive_part (w_colour 0) = spec (/ 2)).
    { unfold positive_part, w_colour, spec; cbn. rewrite !Rmax_right by lra. reflexivity. }
    rewrite PP in D. cbn [vsum fold_right]. destruct D as [(_ & _ & _ & _ & ->)|([B|[B|[B|B]]] & ->)].
    + pose proof PI_RGT_0. unfold vadd, vscale, smul, spec, vmap, vmap2; cbn. apply V3_eq; cbn; field; lra.
    + exfalso. apply B. left. unfold vscale, vmap, spec; cbn. lra.
    + exfalso. apply B. left. unfold vscale, vmap, spec; cbn. exact IP.
    + exfalso. apply B. unfold same_side, vneg, vdot, o_ray, o_point, vmap; cbn. destruct N3 as [-> | ->]; lra.
    + discriminate B.
Qed.

(** C271: a scene without any light source (no lights, nothing that emits, no medium) is black for every integrator. *)
Theorem C271_dark_whitted (V : Type) (e : env V) (u : nat -> R) (md : Z) (time : R) (fuel : nat) (r : raydiff) (i : V) (k : nat) L T i' k' c :
  unlit e -> renderer_li e u md time (whitted_local e u) fuel r i k = Some (Ok (L, T, i', k', c)) -> L = vzero.
Proof. intros HU H. exact (proj1 (dark_li e u HU md time _ (fun v r p n wo b k L k' => dark_whitted e u HU v r p n wo b k L k') fuel r i k L T i' k' c H)). Qed.
Print Assumptions C271_dark_whitted.
Theorem C271_dark_direct (V : Type) (e : env V) (u : nat -> R) (s : sample) (lo bo : list offset) (md : Z) (time : R) (fuel : nat) (r : raydiff)
    (i : V) (k : nat) L T i' k' c :
  unlit e -> renderer_li e u md time (direct_all_local e u s lo bo) fuel r i k = Some (Ok (L, T, i', k', c)) -> L = vzero.
Proof. intros HU H. exact (proj1 (dark_li e u HU md time _ (fun v r p n wo b k L k' => dark_direct e u HU s lo bo v r p n wo b k L k') fuel r i k L T i' k' c H)). Qed.
Print Assumptions C271_dark_direct.
Theorem C271_dark_path (V : Type) (e : env V) (u : nat -> R) (md : Z) (s : sample) (po : list path_offs) (fuel : nat) (r : raydiff) (v : V) (k : nat) L k' c :
  unlit e -> (forall w, v_le e v w = vzero) -> path_li e u md s po fuel r v k = Some (Ok (L, k', c)) -> L = vzero.
Proof. intros HU. exact (dark_path e u HU md s po fuel r v k L k' c). Qed.
Print Assumptions C271_dark_path.
(** in particular a scene of shapes without area lights, and no other lights *)
Theorem C271_world (mp : nat) (items : list item) (ns np : Z) sc mats fuel diffs u md time depth r k L T i' k' c :
  (forall it, In it items -> it_light it = None) -> scene_make mp (full_refine_items items ns np) = Ok sc ->
  whitted (mkW sc mats [] fuel diffs) u md time depth r k = Some (Ok (L, T, i', k', c)) -> L = vzero.
Proof.
  intros HN HS H. apply C271_dark_whitted in H; [exact H|]. now apply (world_unlit mp items ns np).
Qed.
Print Assumptions C271_world.
(** the triangle of C270 without its lamp: the hypotheses hold, the ray meets the triangle, and the result exists *)
Example C271_ex : exists sc, scene_make 4 (full_refine_items w_items 3 3) = Ok sc /\
  forall fuel depth, (scene_size sc <= fuel)%nat -> (0 < depth)%nat -> exists L T i k' c,
    whitted (mkW sc (fun k => Matte (fun _ => w_colour k) (fun _ => 0) None) [] fuel (fun _ _ _ _ _ => (false, vzero, vzero, vzero, vzero))) (fun _ => 0) 5
      (rtime ex_ray) depth (mkRD ex_ray false vzero vzero vzero vzero) 0 = Some (Ok (L, T, i, k', c)) /\ L = vzero.
Proof.
  destruct w_ok as (A & B & C & D & F & G0).
  destruct (C270_lit 4 w_items 3 3 w_colour _ (fun _ _ _ _ _ => (false, vzero, vzero, vzero, vzero)) [] (mkRD ex_ray false vzero vzero vzero vzero)
    (fun _ => 0) 5 0 (le_n 4) A B (or_introl C) D F G0) as (sc & HS & H).
  { intros it t l _ _ []. }
  exists sc. split; [exact HS|]. intros fuel depth H1 H2. destruct (H fuel depth H1 H2) as (L & T & i & k' & c & E & _).
  exists L, T, i, k', c. split; [exact E|]. eapply C271_world; [|exact HS|exact E]. intros it [<-|[]]. reflexivity.
Qed.

(** C272: proportionality.  With every light [c] times as strong Whitted's integrator returns [c] times the radiance,
    for any scene without a volume, unless some light's radiance at a point of a surface falls across the 10^-5 limit below which
    integrators treat it as black. *)
Theorem C272_stronger_partial (V : Type) (c : R) (e : env V) (u : nat -> R) (md : Z) (time : R) (fuel : nat) (r : raydiff) (i : V) (k : nat)
    L T i' k' n : vol e = None ->
  (forall p, shows e p -> forall l eps a t Li wi pdf vis, In l (lights e) -> lt_sample l p eps a t = Ok (Li, wi, pdf, vis) -> (bright (vscale c Li) <-> bright Li)) ->
  renderer_li e u md time (whitted_local e u) fuel r i k = Some (Ok (L, T, i', k', n)) ->
  renderer_li (stronger c e) u md time (whitted_local (stronger c e) u) fuel r i k = Some (Ok (vscale c L, T, i', k', n)).
Proof. intros NV HB H. rewrite (strong_li c e u NV HB md time fuel r i k), H. reflexivity. Qed.
Print Assumptions C272_stronger_partial.
Example C272_ex : let b := mkBSDF (mkV 0 0 1) (mkV 1 0 0) (mkV 0 1 0) (mkV 0 0 1) [Lambertian (spec 1)] in
  let e := mkEnv Datatypes.unit [lamp_light (mkLamp (mkV 0 0 2) (spec 100))]
    (fun r => (r, Some tt)) (fun _ => false) (fun _ _ => spec 0) (fun _ => 0) (fun _ _ => Ok (vzero, b)) (fun _ _ => mkV 0 0 1)
    (fun _ _ _ _ _ => (false, vzero, vzero, vzero, vzero)) None in
  vol e = None /\ shows e vzero /\
  forall p, shows e p -> forall l eps a t Li wi pdf vis, In l (lights e) -> lt_sample l p eps a t = Ok (Li, wi, pdf, vis) -> (bright (vscale 3 Li) <-> bright Li).
Proof.
  split; [reflexivity|]. split.
  { exists (mkRD ex_ray false vzero vzero vzero vzero). do 3 eexists. split; reflexivity. }
  intros p (r & r1 & v & b & _ & EB) l eps a t Li wi pdf vis [<-|[]]. cbn [v_bsdf] in EB. injection EB as <- _.
  destruct (lamp_sample (mkLamp (mkV 0 0 2) (spec 100)) vzero eps a t) as (vis0 & -> & _); [cbn; intros Q; apply (f_equal vz) in Q; cbn in Q; lra|].
  intros H. injection H as <- _ _ _. cbn [lp_pos lp_i].
  assert (D4 : dist vzero (mkV 0 0 2) * (dist vzero (mkV 0 0 2) * 1) = 4).
  { unfold dist. rewrite Rmult_1_r, vlength_sq. unfold sq_length, vsub, vmap2, vzero; cbn. lra. }
  rewrite D4. unfold bright, vscale, vmap, spec; cbn [vx vy vz]. split; intros _; left; lra.
Qed.
(** The limit: a scene of one triangle lit by one lamp, which is black, and is not black with the lamp four times as strong. *)
Theorem C272_limit_refuted : exists items colour mats diffs (l : lamp) (c : R) (r : raydiff) sc, 0 < c /\
  scene_make 4 (full_refine_items items 3 3) = Ok sc /\ forall fuel depth, (scene_size sc <= fuel)%nat -> (0 < depth)%nat ->
  exists L T i k n L' T' i' k' n',
    whitted (mkW sc mats [lamp_light l] fuel diffs) (fun _ => 0) 5 0 depth r 0 = Some (Ok (L, T, i, k, n)) /\
    whitted (mkW sc mats [lamp_light (mkLamp (lp_pos l) (vscale c (lp_i l)))] fuel diffs) (fun _ => 0) 5 0 depth r 0 = Some (Ok (L', T', i', k', n')) /\
    shown items colour [l] (rd_ray r) L /\ L = vzero /\ 0 < vx L' /\ L' <> vscale c L.
Proof.
  exists w_items, w_colour, (fun k => Matte (fun _ => w_colour k) (fun _ => 0) None), (fun _ _ _ _ _ => (false, vzero, vzero, vzero, vzero)), (w_lamp_of (/ 200000)), 4, (mkRD ex_ray false vzero vzero vzero vzero).
  destruct w_ok as (A & B & C & D & F & G0).
  pose proof (fun e => C270_lit 4 w_items 3 3 w_colour _ (fun _ _ _ _ _ => (false, vzero, vzero, vzero, vzero)) [w_lamp_of e] (mkRD ex_ray false vzero vzero vzero vzero)
    (fun _ => 0) 5 0 (le_n 4) A B (or_introl C) D F G0 (w_sight e)) as G.
  destruct (G (/ 200000)) as (sc & HS & H1). destruct (G (/ 50000)) as (sc' & HS' & H2).
  rewrite HS in HS'. injection HS' as <-. exists sc. split; [lra|]. split; [exact HS|].
  intros fuel depth L1 L2. destruct (H1 fuel depth) as (L & T & i & k & n & E1 & X1); [lia|exact L2|].
  destruct (H2 fuel depth) as (L' & T' & i' & k' & n' & E2 & X2); [lia|exact L2|].
  exists L, T, i, k, n, L', T', i', k', n'. split; [exact E1|]. split.
  { replace (mkLamp (lp_pos (w_lamp_of (/ 200000))) (vscale 4 (lp_i (w_lamp_of (/ 200000))))) with (w_lamp_of (/ 50000)); [exact E2|].
    unfold w_lamp_of; cbn [lp_pos lp_i]. f_equal. unfold vscale, vmap, spec; apply V3_eq; cbn; lra. }
  split; [exact X1|]. destruct (w_shown _ _ X1) as (_ & Z1). destruct (w_shown _ _ X2) as (Z2 & _).
  rewrite Z1 by lra. rewrite Z2 by lra. split; [reflexivity|].
  assert (0 < / 50000 / (3 * PI)). { pose proof PI_RGT_0. apply Rdiv_lt_0_compat; lra. }
  split; [exact H|]. rewrite v_scale0. intros Q. apply (f_equal vx) in Q. cbn in Q. lra.
Qed.
Print Assumptions C272_limit_refuted.

(** C273: for delta lights (point, spot, distant) the direct-lighting integrator that samples all lights computes
    the same as Whitted's method, however many samples it takes, if the surface has no specular part there. *)
Theorem C273_direct_is_whitted (V : Type) (e : env V) (u : nat -> R) (s : sample) (lo bo : list offset) (v : V) (r : raydiff) (p n wo : vec)
    (b : bsdf) (k k2 : nat) L k' L2 k2' : vol e = None ->
  (forall l, In l (lights e) -> lt_delta l = true /\
     (forall a a', lt_sample l p (v_eps e v) a (rtime (rd_ray r)) = lt_sample l p (v_eps e v) a' (rtime (rd_ray r))) /\
     forall a Li wi pdf vis, lt_sample l p (v_eps e v) a (rtime (rd_ray r)) = Ok (Li, wi, pdf, vis) -> nn Li /\ 0 <= pdf /\
       forall f, bsdf_f b wo wi ALL = Ok f -> nn f) ->
  (forall d, In d (bs_bdfs b) -> Z.land (bdf_type d) SPECULAR = 0%Z) ->
  (forall o, In o lo -> (0 < of_n o)%nat) ->
  whitted_local e u v r p n wo b k = Ok (L, k') ->
  direct_all_local e u s lo bo v r p n wo b k2 = Ok (L2, k2') -> L2 = L.
Proof.
  intros NV HL HS HO HW HD. apply C131_whitted_sum in HW as (xs & LX & -> & _ & WX); [|exact NV].
  apply C132_direct_all in HD as (xss & LS & -> & DX). f_equal.
  apply nth_error_ext. intros i. destruct (nth_error (lights e) i) as [l|] eqn:EL.
  2:{ apply nth_error_None in EL. rewrite !(proj2 (nth_error_None _ _)); [reflexivity| |]; rewrite ?map_length; lia. }
  assert (I1 : (i < length (lights e))%nat) by (apply nth_error_Some; congruence).
  destruct (nth_error xs i) as [x|] eqn:EX; [|apply nth_error_None in EX; lia].
  rewrite nth_error_map. destruct (nth_error xss i) as [ys|] eqn:EY; [|apply nth_error_None in EY; lia]. cbn [option_map]. f_equal.
  specialize (WX i l x EL EX). destruct (DX i l ys EL EY) as (ol & ob & E1 & E2 & LY & H).
  destruct (HL l (nth_error_In _ _ EL)) as (DL & SAME & OKL).
  pose proof (HO ol (nth_error_In _ _ E1)) as PO. apply mean_const.
  - intros ->. cbn in LY. lia.
  - intros y HY. apply In_nth_error in HY as (j & EJ). destruct (H j y EJ) as (a & c & k1 & k3 & _ & _ & ED).
    apply C132_delta_estimate in ED as (DC & _); [|exact NV|exact DL].
    eapply delta_whitted; [apply SAME| |exact WX|exact DC]. intros Li wi pdf vis E. destruct (OKL _ _ _ _ _ E) as (Q1 & Q2 & Q3). split; [exact Q1|]. split; [exact Q2|]. split; [now apply nospec_f|exact Q3].
Qed.
Print Assumptions C273_direct_is_whitted.
(** a grey diffuse surface under one lamp overhead, three samples *)
Definition w_bsdf : bsdf := mkBSDF (mkV 0 0 1) (mkV 1 0 0) (mkV 0 1 0) (mkV 0 0 1) [Lambertian (spec (/ 2))].
Definition w_f : vec := vadd (spec 0) (vscale (1 / PI) (spec (/ 2))).
Lemma w_bsdf_f fl : fl = ALL \/ fl = NOSPEC -> bsdf_f w_bsdf (mkV 0 0 1) (mkV 0 0 1) fl = Ok w_f.
Proof.
  intros H. unfold bsdf_f, side_flags. rewrite (proj2 (Rltb_true 0 _)) by (unfold vdot; cbn; lra).
  destruct H as [-> | ->]; reflexivity.
Qed.
Lemma w_f_bright : bright w_f.
Proof.
  left. unfold w_f, vadd, vscale, vmap, vmap2, spec; cbn. assert (/ 4 <= / PI) by (apply Rinv_le_contravar; [apply PI_RGT_0|apply PI_4]). lra.
Qed.
Lemma w_f_nn : nn w_f.
Proof.
  unfold nn, w_f, vadd, vscale, vmap, vmap2, spec; cbn. assert (/ 4 <= / PI) by (apply Rinv_le_contravar; [apply PI_RGT_0|apply PI_4]). lra.
Qed.
Example C273_ex : let lo := [mkOff 3 0 0] in
  let s := mkS 0 0 0 0 0 [3; 3]%nat [3; 3]%nat [[0; 0; 0]; [0; 0; 0]] [[(0, 0); (0, 0); (0, 0)]; [(0, 0); (0, 0); (0, 0)]] in
  let r := mkRD ex_ray false vzero vzero vzero vzero in let e := ex_env in
  (forall l, In l (lights e) -> lt_delta l = true /\
     (forall a a', lt_sample l vzero (v_eps e tt) a (rtime (rd_ray r)) = lt_sample l vzero (v_eps e tt) a' (rtime (rd_ray r))) /\
     forall a Li wi pdf vis, lt_sample l vzero (v_eps e tt) a (rtime (rd_ray r)) = Ok (Li, wi, pdf, vis) -> nn Li /\ 0 <= pdf /\
       forall f, bsdf_f w_bsdf (mkV 0 0 1) wi ALL = Ok f -> nn f) /\
  (forall d, In d (bs_bdfs w_bsdf) -> Z.land (bdf_type d) SPECULAR = 0%Z) /\ (forall o, In o lo -> (0 < of_n o)%nat) /\
  (exists L, whitted_local e (fun _ => 0) tt r vzero (mkV 0 0 1) (mkV 0 0 1) w_bsdf 0 = Ok (L, 3%nat)) /\
  exists L2, direct_all_local e (fun _ => 0) s lo [mkOff 3 1 1] tt r vzero (mkV 0 0 1) (mkV 0 0 1) w_bsdf 7 = Ok (L2, 7%nat).
Proof.
  intros lo s r e. pose proof w_f_bright as FB. pose proof w_f_nn as FN.
  assert (B1 : bright (spec 1)) by (left; unfold spec; cbn; lra).
  assert (N1 : nn (spec 1)) by (unfold nn, spec; cbn; lra).
  split.
  { intros l [<-|[]]. split; [reflexivity|]. split; [reflexivity|]. intros a Li wi pdf vis. cbn [ex_light lt_sample]. intros [= <- <- <- _].
    split; [exact N1|]. split; [lra|]. intros f. rewrite (w_bsdf_f ALL (or_introl eq_refl)). now intros [= <-]. }
  split; [intros d [<-|[]]; reflexivity|]. split; [intros o [<-|[]]; cbn; lia|].
  set (x := vscale (Rabs (vdot (mkV 0 0 1) (mkV 0 0 1)) / 1) (smul w_f (spec 1))). split.
  - exists (vsum [x]). apply C131_whitted_sum; [reflexivity|]. exists [x]. split; [reflexivity|]. split; [reflexivity|]. split; [reflexivity|].
    intros [|[|i]] l y; cbn; try discriminate. intros [= <-] [= <-]. do 4 eexists. split; [reflexivity|]. left. split; [exact B1|]. split; [lra|].
    exists w_f. split; [apply w_bsdf_f; now left|]. left. split; [exact FB|]. split; reflexivity.
  - assert (EE : forall a c k, estimate_direct e ex_light vzero (mkV 0 0 1) (mkV 0 0 1) (v_eps e tt) (rtm r) w_bsdf a c NOSPEC k = Ok (x, k)).
    { intros a c k. apply C132_delta_estimate; [reflexivity|reflexivity|]. split; [|reflexivity]. do 4 eexists. split; [reflexivity|].
      left. split; [now apply nn_black|]. split; [lra|]. exists w_f. split; [apply w_bsdf_f; now right|]. left.
      split; [now apply nn_black|]. split; reflexivity. }
    unfold direct_all_local, uniform_sample_all_lights. cbn [e ex_env lights length Nat.ltb Nat.leb all_lights idx nth_error lo bind of_n seq all_samples].
    fold ex_env. fold e. cbn [smp_from_sample idx nth_error s bind of_dir of_com twoD oneD]. rewrite !EE. cbn [bind]. rewrite !EE. cbn [bind]. rewrite !EE. cbn [bind all_lights].
    eexists. reflexivity.
Qed.
