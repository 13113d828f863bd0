From Coq Require Import String.
From Coq Require Import Reals Lra Lia List ZArith Bool.
From Verif Require Import Base M_Geometry S_Geometry P_Geometry M_Transform M_MonteCarlo M_Film M_Shapes M_Reflection S_Reflection
  P_Reflection P_Reflection2 P_Reflection3 P_LobeSampling P_Reciprocity P_Fresnel M_Material S_Material P_Material.
From Verif Require M_Utility.
Import ListNotations.
Open Scope R_scope.

Lemma matte_shape kd sg flip g s : 
  get_bsdf (Matte kd sg None) flip g s =
  Ok (push_back (bsdf_make (at_hit flip s) (dg_nn g))
     (if Reqb (clip (sg (at_hit flip s)) 0 90) 0 then Lambertian (positive_part (kd (at_hit flip s)))
      else oren_nayar (positive_part (kd (at_hit flip s))) (clip (sg (at_hit flip s)) 0 90))).
Proof. cbn [get_bsdf shading bind]. rewrite at_hit_copy, sclip_pos. reflexivity. Qed.

Lemma one_diffuse s l wo wi : bs_bdfs s = [] -> bdf_type l = 5%Z ->
  bsdf_f (push_back s l) wo wi ALL =
  if Rltb 0 (vdot wi (bs_ng s) * vdot wo (bs_ng s)) then
    (do f <- bdf_f l (w2l s wo) (w2l s wi); Ok (vadd (spec 0) f)) else Ok (spec 0).
Proof.
  intros E0 T. unfold bsdf_f, side_flags. cbn [push_back bs_bdfs bs_ng]. rewrite E0. cbn [app].
  unfold sum_f, match_flag. rewrite T. 
  destruct (Rltb 0 _).
  - change (Z.land 5 (Z.land ALL (Z.lnot TRANSMISSION)) =? 5)%Z with true. cbv iota. 
    change (w2l (push_back s l)) with (w2l s). reflexivity.
  - change (Z.land 5 (Z.land ALL (Z.lnot REFLECTION)) =? 5)%Z with false. reflexivity.
Qed.
Lemma vadd_spec0 v : vadd (spec 0) v = v.
Proof. change (spec 0) with vzero. apply vadd_0_l. Qed.

Lemma clip_le0 x : x <= 0 -> clip x 0 90 = 0.
Proof. intros. unfold clip, Rmin, Rmax. repeat destruct (Rle_dec _ _); lra. Qed.
Lemma clip_min x : 0 < x -> clip x 0 90 = Rmin x 90 /\ 0 < Rmin x 90.
Proof. intros. unfold clip, Rmin, Rmax. repeat destruct (Rle_dec _ _); split; lra. Qed.

(** ** Oren-Nayar with dot products *)
Lemma phi_clip w c : unit w -> 0 < 1 - vz w * vz w -> c * c <= vx w * vx w + vy w * vy w ->
  clip (c / sqrt (1 - vz w * vz w)) (-1) 1 = c / sqrt (1 - vz w * vz w).
Proof.
  intros U H C. assert (S0 : 0 < sqrt (1 - vz w * vz w)) by (now apply sqrt_lt_R0).
  assert (SS : sqrt (1 - vz w * vz w) * sqrt (1 - vz w * vz w) = 1 - vz w * vz w) by (apply sqrt_sqrt; lra).
  unfold unit in U. set (d := sqrt (1 - vz w * vz w)) in *.
  assert (- d <= c <= d) by (split; nra).
  apply clip_id; unfold Rdiv.
  assert (Y : d * / d = 1) by (apply Rinv_r; lra). assert (0 < / d) by (now apply Rinv_0_lt_compat). split; nra.
Qed.
Lemma oren_dot r A B wo wi : unit wo -> unit wi -> EPS * EPS < 1 - vz wo * vz wo -> EPS * EPS < 1 - vz wi * vz wi ->
  vz wo <> 0 -> vz wi <> 0 ->
  oren_nayar_f r A B wo wi =
  vscale ((A + B * (Rmax 0 (vdot wo wi - vz wo * vz wi) / Rmax (Rabs (vz wo)) (Rabs (vz wi)))) / PI) r.
Proof.
  intros U1 U2 H1 H2 Z1 Z2. assert (EP : 0 < EPS) by (unfold EPS; lra).
  unfold oren_nayar_f. cbv zeta.
  assert (Q1 : pmax 0 (1 - vz wo * vz wo) = 1 - vz wo * vz wo) by (rewrite pmax_Rmax; apply Rmax_right; nra).
  assert (Q2 : pmax 0 (1 - vz wi * vz wi) = 1 - vz wi * vz wi) by (rewrite pmax_Rmax; apply Rmax_right; nra).
  unfold sin_theta. rewrite Q1, Q2.
  assert (P1 : EPS < sqrt (1 - vz wo * vz wo)).
  { rewrite <- (sqrt_square EPS) by lra. apply sqrt_lt_1; nra. }
  assert (P2 : EPS < sqrt (1 - vz wi * vz wi)).
  { rewrite <- (sqrt_square EPS) by lra. apply sqrt_lt_1; nra. }
  replace (Rltb EPS (sqrt (1 - vz wi * vz wi))) with true by (symmetry; now apply Rltb_true).
  replace (Rltb EPS (sqrt (1 - vz wo * vz wo))) with true by (symmetry; now apply Rltb_true). cbn [andb].
  unfold cos_phi, sin_phi. rewrite Q1, Q2.
  replace (Reqb (1 - vz wi * vz wi) 0) with false by (symmetry; apply Reqb_false; nra).
  replace (Reqb (1 - vz wo * vz wo) 0) with false by (symmetry; apply Reqb_false; nra).
  rewrite !phi_clip by (try assumption; nra).
  set (so := sqrt (1 - vz wo * vz wo)) in *. set (si := sqrt (1 - vz wi * vz wi)) in *.
  assert (X : vx wi / si * (vx wo / so) + vy wi / si * (vy wo / so) = (vdot wo wi - vz wo * vz wi) / (si * so)).
  { unfold vdot. field. split; lra. }
  rewrite X. rewrite pmax_Rmax.
  assert (M : Rmax 0 ((vdot wo wi - vz wo * vz wi) / (si * so)) = Rmax 0 (vdot wo wi - vz wo * vz wi) / (si * so)).
  { assert (P : 0 < si * so) by nra. assert (0 < / (si * so)) by (now apply Rinv_0_lt_compat). unfold Rdiv. 
    set (t := vdot wo wi - vz wo * vz wi). unfold Rmax. repeat destruct (Rle_dec _ _); try lra; nra. }
  rewrite M. unfold abs_cos_theta. pose proof (Rabs_pos_lt _ Z1). pose proof (Rabs_pos_lt _ Z2). pose proof PI_RGT_0.
  assert (G : forall k k', k = k' -> vscale k (vscale (1 / PI) r) = vscale (k' / PI) r).
  { intros k k' ->. unfold vscale, vmap. cbn. f_equal; field; lra. }
  destruct (Rltb (Rabs (vz wo)) (Rabs (vz wi))) eqn:C; Rb; apply G; f_equal.
  - rewrite (Rmax_right (Rabs (vz wo))) by lra. field. lra.
  - rewrite (Rmax_left (Rabs (vz wo))) by lra. field. lra.
Qed.
Lemma oren_value r sg wo wi : unit wo -> unit wi -> EPS * EPS < 1 - vz wo * vz wo -> EPS * EPS < 1 - vz wi * vz wi ->
  vz wo <> 0 -> vz wi <> 0 ->
  bdf_f (oren_nayar r sg) wo wi = Ok (vscale (((1 - (sg * PI / 180) * (sg * PI / 180) / (2 * ((sg * PI / 180) * (sg * PI / 180) + 33/100))) +
    (45/100 * ((sg * PI / 180) * (sg * PI / 180)) / ((sg * PI / 180) * (sg * PI / 180) + 9/100)) *
    (Rmax 0 (vdot wo wi - vz wo * vz wi) / Rmax (Rabs (vz wo)) (Rabs (vz wi)))) / PI) r).
Proof.
  intros. unfold oren_nayar. cbv zeta. cbn [bdf_f]. rewrite oren_dot by assumption. unfold deg2rad.
  replace (sg * PI / 180) with (sg * (PI / 180)) by field. reflexivity.
Qed.

(** ** Matte *)
Lemma matte_lambert kd sg flip g s wo wi : sg (at_hit flip s) <= 0 ->
  exists b, get_bsdf (Matte kd sg None) flip g s = Ok b /\
    (same_side (dg_nn g) wo wi -> bsdf_f b wo wi ALL = Ok (vscale (1 / PI) (positive_part (kd (at_hit flip s))))) /\
    (~ same_side (dg_nn g) wo wi -> bsdf_f b wo wi ALL = Ok vzero).
Proof.
  intros H. rewrite matte_shape. eexists; split; [reflexivity|]. rewrite (clip_le0 _ H).
  replace (Reqb 0 0) with true by (symmetry; now apply Reqb_true). 
  rewrite one_diffuse; [|reflexivity|reflexivity]. cbn [bsdf_make bs_ng bdf_f bind]. rewrite vadd_spec0.
  unfold same_side. split; intros K.
  - replace (Rltb 0 _) with true by (symmetry; apply Rltb_true; lra). reflexivity.
  - replace (Rltb 0 _) with false by (symmetry; apply Rltb_false; lra). reflexivity.
Qed.
Lemma matte_rough kd sg flip g s wo wi : regular s -> 0 < sg (at_hit flip s) -> unit wo -> unit wi ->
  let n := dg_nn (at_hit flip s) in
  vdot wo n <> 0 -> vdot wi n <> 0 -> off_normal n wo -> off_normal n wi ->
  exists b, get_bsdf (Matte kd sg None) flip g s = Ok b /\
    (same_side (dg_nn g) wo wi -> bsdf_f b wo wi ALL =
       Ok (oren_nayar_value (positive_part (kd (at_hit flip s))) (Rmin (sg (at_hit flip s)) 90) n wo wi)) /\
    (~ same_side (dg_nn g) wo wi -> bsdf_f b wo wi ALL = Ok vzero).
Proof.
  intros RG H U1 U2 n Z1 Z2 O1 O2. rewrite matte_shape. eexists; split; [reflexivity|].
  destruct (clip_min _ H) as [-> P]. set (sgm := Rmin _ 90) in *.
  replace (Reqb sgm 0) with false by (symmetry; apply Reqb_false; lra).
  rewrite one_diffuse; [|reflexivity|reflexivity]. 
  pose proof (make_ok flip s (dg_nn g) RG) as OK. set (b := bsdf_make _ _) in *.
  assert (NN : bs_nn b = n) by reflexivity.
  rewrite oren_value; try (now apply w2l_unit); try (rewrite !w2l_z, NN; assumption).
  cbn [bind]. rewrite vadd_spec0, !w2l_z, NN, w2l_dot by exact OK.
  change (bs_ng b) with (dg_nn g). unfold same_side. split; intros K.
  - replace (Rltb 0 _) with true by (symmetry; apply Rltb_true; lra). reflexivity.
  - replace (Rltb 0 _) with false by (symmetry; apply Rltb_false; lra). reflexivity.
Qed.

(** ** Specular lobes *)
Lemma l2w_lin s a b : l2w s (vadd a b) = vadd (l2w s a) (l2w s b).
Proof. unfold l2w, vadd, vmap2. cbn. f_equal; ring. Qed.
Lemma l2w_scale s k a : l2w s (vscale k a) = vscale k (l2w s a).
Proof. unfold l2w, vscale, vmap. cbn. f_equal; ring. Qed.
Lemma l2w_normal s z : world_axes s -> l2w s (mkV 0 0 z) = vscale z (bs_nn s).
Proof.
  intros ((e1 & _ & A) & (e2 & _ & B) & (e3 & _ & C)). unfold l2w. rewrite A, B, C. unfold vscale, vmap. cbn. f_equal; ring.
Qed.
Lemma l2w_mirror s wo : bs_ok s -> world_axes s ->
  l2w s (mirror_dir (w2l s wo)) = vsub (vscale (2 * vdot wo (bs_nn s)) (bs_nn s)) wo.
Proof.
  intros OK W. assert (M : mirror_dir (w2l s wo) = vadd (vscale (-1) (w2l s wo)) (mkV 0 0 (2 * vdot wo (bs_nn s)))).
  { unfold mirror_dir, w2l, vadd, vscale, vmap, vmap2. cbn. f_equal; ring. }
  rewrite M, l2w_lin, l2w_scale, (proj2 (l2w_axes s OK) W), l2w_normal by exact W.
  destruct wo. unfold vadd, vsub, vscale, vmap, vmap2. cbn. f_equal; ring.
Qed.
Lemma sdiv_cancel v c : c <> 0 -> vscale (Rabs c) (sdiv v (Rabs c)) = v.
Proof. intros H. pose proof (Rabs_no_R0 c H). destruct v. unfold vscale, sdiv, vmap. cbn. f_equal; field; auto. Qed.
