(** Proofs about lights. *)
From Coq Require Import Reals Lra Lia List Bool ZArith Permutation.
From Verif Require Import Base M_Geometry M_Transform M_Shapes M_MonteCarlo M_Aggregate M_Reflection M_Utility M_Light.
From Verif Require Import S_Geometry S_MonteCarlo S_Aggregate S_Light P_Geometry P_Distribution P_Refine.
Import ListNotations.
Open Scope R_scope.

Lemma vsub_zero p q : vsub p q = vzero -> p = q.
Proof. destruct p as [a b c], q as [d e f]. unfold vsub, vmap2, vzero; cbn. intros H. injection H; intros. f_equal; lra. Qed.
Lemma vlength_vsub_sym p q : vlength (vsub p q) = vlength (vsub q p).
Proof. unfold vlength, sq_length, vsub, vmap2; cbn. f_equal. ring. Qed.
Lemma vlength_vsub_pos p q : p <> q -> 0 < vlength (vsub p q).
Proof. intros H. apply vlength_pos. intros Q. apply H. now apply vsub_zero. Qed.

Lemma segment_main p1 e1 p2 e2 time : p1 <> p2 -> tests_segment (set_segment p1 e1 p2 e2 time) p1 p2 e1 e2.
Proof.
  intros H. unfold tests_segment. pose proof (vlength_vsub_pos p2 p1 (not_eq_sym H)) as P.
  set (d := vlength (vsub p2 p1)) in *. cbv zeta. split; [reflexivity|].
  assert (D : vlength (vsub p1 p2) = d) by apply vlength_vsub_sym.
  unfold set_segment. rewrite D. cbn [l_o l_d]. split.
  - unfold unit. pose proof (vlength_sq (vsub p2 p1)) as Q. fold d in Q. unfold sq_length in Q.
    unfold vmap, vdot; cbn [vx vy vz]. set (v := vsub p2 p1) in *. clearbody v d.
    replace (vx v / d * (vx v / d) + vy v / d * (vy v / d) + vz v / d * (vz v / d))
      with ((vx v * vx v + vy v * vy v + vz v * vz v) / (d * d)) by (field; lra).
    rewrite <- Q. field. lra.
  - intros s. split.
    + unfold lray_at, between; cbn [l_o l_d]. f_equal. set (v := vsub p2 p1) in *. clearbody v d.
      destruct v as [x y z]. unfold vscale, vmap; cbn. f_equal; field; lra.
    + unfold in_range; cbn [l_mint l_maxt]. rewrite ele_Fin. split.
      * intros [A B]. split.
        -- apply Rmult_le_reg_r with d; [exact P|]. unfold Rdiv. rewrite Rmult_assoc, Rinv_l, Rmult_1_r by lra. exact A.
        -- apply Rmult_le_reg_r with d; [exact P|]. lra.
      * intros [A B]. split.
        -- apply (Rmult_le_compat_r d) in A; [|lra]. unfold Rdiv in A. rewrite Rmult_assoc, Rinv_l, Rmult_1_r in A by lra. exact A.
        -- rewrite (Rmult_comm d). apply Rmult_le_compat_r; lra.
Qed.

Lemma toward p q : p <> q ->
  unit (normalize (vsub q p)) /\ vadd p (vscale (vlength (vsub q p)) (normalize (vsub q p))) = q.
Proof.
  intros H. assert (NZ : vsub q p <> vzero) by (intros Q; apply H; symmetry; now apply vsub_zero).
  split; [now apply normalize_unit|]. pose proof (vlength_pos _ NZ) as P. unfold normalize.
  destruct (Reqb (vlength (vsub q p)) 0) eqn:C; Rb; [lra|]. set (d := vlength (vsub q p)) in *.
  clearbody d. destruct p as [a b c], q as [x y z]. unfold vsub, vadd, vscale, vmap, vmap2; cbn. f_equal; field; lra.
Qed.

(** ** Spot falloff *)
Lemma emul_Fin a b : emul (Fin a) (Fin b) = Fin (a * b). Proof. reflexivity. Qed.
Definition fo (cw cf ct : R) : R :=
  if Rltb ct cw then 0 else if Rltb cf ct then 1 else
  let d := (ct - cw) / (cf - cw) in d * d * d * d.
Lemma falloff_fo cw cf ct : cw < cf -> falloff_of cw cf ct = Fin (fo cw cf ct).
Proof.
  intros H. unfold falloff_of, fo. destruct (Rltb ct cw); [reflexivity|]. destruct (Rltb cf ct); [reflexivity|].
  unfold edivz. destruct (Reqb (cf - cw) 0) eqn:C; Rb; [lra|]. reflexivity.
Qed.
Lemma ratio_range cw cf ct : cw < cf -> cw <= ct <= cf -> 0 <= (ct - cw) / (cf - cw) <= 1.
Proof.
  intros H [A B]. split.
  - apply Rmult_le_pos; [lra|]. left. apply Rinv_0_lt_compat. lra.
  - apply Rmult_le_reg_r with (cf - cw); [lra|]. unfold Rdiv. rewrite Rmult_assoc, Rinv_l by lra. lra.
Qed.
Lemma pow4_mono a b : 0 <= a -> a <= b -> a * a * a * a <= b * b * b * b.
Proof. intros. assert (0 <= a * a) by nra. assert (a * a <= b * b) by nra. nra. Qed.
Lemma fo_range cw cf ct : cw < cf -> 0 <= fo cw cf ct <= 1.
Proof.
  intros H. unfold fo. destruct (Rltb ct cw) eqn:C1; [lra|]. destruct (Rltb cf ct) eqn:C2; [lra|]. Rb. cbv zeta.
  pose proof (ratio_range cw cf ct H (conj C1 C2)) as [A B]. set (d := _ / _) in *. clearbody d.
  split; [assert (0 <= d * d) by nra; nra|]. pose proof (pow4_mono d 1 A B). lra.
Qed.
Lemma fo_mono cw cf a b : cw < cf -> a <= b -> fo cw cf a <= fo cw cf b.
Proof.
  intros H L. pose proof (fo_range cw cf a H). pose proof (fo_range cw cf b H). unfold fo in *.
  destruct (Rltb a cw) eqn:A1; destruct (Rltb b cw) eqn:B1; Rb; try lra.
  destruct (Rltb cf a) eqn:A2; destruct (Rltb cf b) eqn:B2; Rb; try lra.
  cbv zeta. pose proof (ratio_range cw cf a H (conj A1 A2)). apply pow4_mono; [lra|].
  apply Rmult_le_compat_r; [left; apply Rinv_0_lt_compat; lra|lra].
Qed.
Lemma fo_inside cw cf ct : cw < cf -> cf <= ct -> fo cw cf ct = 1.
Proof.
  intros H L. unfold fo. destruct (Rltb ct cw) eqn:A; Rb; [lra|]. destruct (Rltb cf ct) eqn:B; Rb; [reflexivity|].
  assert (ct = cf) by lra. subst. cbv zeta. field. lra.
Qed.
Lemma fo_outside cw cf ct : cw < cf -> ct <= cw -> fo cw cf ct = 0.
Proof.
  intros H L. unfold fo. destruct (Rltb ct cw) eqn:A; Rb; [reflexivity|]. destruct (Rltb cf ct) eqn:B; Rb; [lra|].
  assert (ct = cw) by lra. subst. cbv zeta. unfold Rdiv. ring.
Qed.

Lemma unit_z v : unit v -> -1 <= vz v <= 1.
Proof.
  unfold unit, vdot. destruct v as [x y z]; cbn. intros H.
  assert (z * z <= 1) by (pose proof (Rle_0_sqr x); pose proof (Rle_0_sqr y); unfold Rsqr in *; lra). nra.
Qed.
Lemma cos_deg_lt a b : 0 <= a -> a < b -> b <= 180 -> cos (deg2rad b) < cos (deg2rad a).
Proof.
  intros. pose proof PI_RGT_0. unfold deg2rad. apply cos_decreasing_1; try nra.
Qed.
Lemma spot_main l2w width fall w : 0 <= fall < width -> width <= 180 ->
  t_vector (t_inverse l2w) w <> vzero ->
  exists f, spot_falloff l2w width fall w = Fin f /\ 0 <= f <= 1 /\
    (spot_angle l2w w <= deg2rad fall -> f = 1) /\ (deg2rad width <= spot_angle l2w w -> f = 0) /\
    forall w' f', t_vector (t_inverse l2w) w' <> vzero -> spot_falloff l2w width fall w' = Fin f' ->
      spot_angle l2w w <= spot_angle l2w w' -> f' <= f.
Proof.
  intros [H0 H1] H2 NZ. assert (C : spot_cos width < spot_cos fall) by (apply cos_deg_lt; lra).
  pose proof PI_RGT_0 as PP. assert (Dw : 0 <= deg2rad width <= PI) by (unfold deg2rad; split; nra).
  assert (Df : 0 <= deg2rad fall <= PI) by (unfold deg2rad; split; nra).
  set (z := fun w => vz (normalize (t_vector (t_inverse l2w) w))).
  assert (Zr : forall w, t_vector (t_inverse l2w) w <> vzero -> -1 <= z w <= 1) by (intros; apply unit_z, normalize_unit; auto).
  exists (fo (spot_cos width) (spot_cos fall) (z w)). split; [apply falloff_fo; exact C|]. split; [apply fo_range; exact C|].
  unfold spot_angle. fold (z w). pose proof (acos_bound (z w)) as AB. specialize (Zr w NZ) as Zw.
  split; [|split].
  - intros L. apply fo_inside; [exact C|]. unfold spot_cos. rewrite <- (cos_acos (z w)) by lra.
    apply cos_decr_1; lra.
  - intros L. apply fo_outside; [exact C|]. unfold spot_cos. rewrite <- (cos_acos (z w)) by lra.
    apply cos_decr_1; lra.
  - intros w' f' NZ' F L. unfold spot_falloff in F. rewrite (falloff_fo _ _ _ C) in F. injection F as <-.
    apply fo_mono; [exact C|]. fold (z w') in L |- *. specialize (Zr w' NZ').
    rewrite <- (cos_acos (z w)), <- (cos_acos (z w')) by lra. pose proof (acos_bound (z w')). apply cos_decr_1; lra.
Qed.

(** ** ShapeSet *)
Definition nodes_shp (l : list shp) : nat := list_sum (map shp_nodes l).
Lemma nodes_shp_app a b : nodes_shp (a ++ b) = (nodes_shp a + nodes_shp b)%nat.
Proof. unfold nodes_shp. now rewrite map_app, list_sum_app. Qed.
Lemma shape_set_loop_spec : forall fuel tmp acc, (nodes_shp tmp <= fuel)%nat ->
  exists out, shape_set_loop fuel tmp acc = Some (acc ++ out) /\ Permutation out (concat (map leaves tmp)).
Proof.
  induction fuel as [|fuel IH]; intros tmp acc Hn.
  - destruct (rev tmp) as [|s l] eqn:Q.
    + assert (tmp = []) by (rewrite <- (rev_involutive tmp), Q; reflexivity). subst. exists []. cbn. rewrite app_nil_r. auto.
    + exfalso. assert (tmp = rev l ++ [s]) by (rewrite <- (rev_involutive tmp), Q; reflexivity). subst.
      rewrite nodes_shp_app in Hn. unfold nodes_shp in Hn at 2. cbn in Hn. destruct s; cbn in Hn; lia.
  - destruct (rev tmp) as [|s l] eqn:Q.
    + assert (tmp = []) by (rewrite <- (rev_involutive tmp), Q; reflexivity). subst. exists []. cbn. rewrite app_nil_r. auto.
    + cbn [shape_set_loop]. rewrite Q. assert (T : tmp = rev l ++ [s]) by (rewrite <- (rev_involutive tmp), Q; reflexivity).
      clear Q. set (l0 := rev l) in *. clearbody l0. subst tmp. rewrite nodes_shp_app in Hn. unfold nodes_shp in Hn at 2. cbn in Hn.
      rewrite map_app, concat_app. cbn [map concat]. rewrite app_nil_r.
      destruct s as [n|n subs].
      * destruct (IH l0 (acc ++ [n])) as (out & O1 & O2); [cbn in Hn; lia|]. exists (n :: out). rewrite O1, <- app_assoc.
        split; [reflexivity|]. cbn [leaves]. etransitivity; [apply perm_skip; exact O2|]. apply Permutation_cons_append.
      * destruct (IH (l0 ++ subs) acc) as (out & O1 & O2).
        { rewrite nodes_shp_app. cbn in Hn. unfold nodes_shp at 2. lia. }
        exists out. split; [exact O1|]. rewrite map_app, concat_app in O2. exact O2.
Qed.
Lemma shape_set_main s fuel : (shp_nodes s <= fuel)%nat ->
  exists out, shape_set fuel s = Some out /\ Permutation out (leaves s).
Proof.
  intros H. destruct (shape_set_loop_spec fuel [s] []) as (out & A & B); [unfold nodes_shp; cbn; lia|].
  exists out. split; [exact A|]. cbn in B. now rewrite app_nil_r in B.
Qed.
Lemma fold_plus l : forall a, fold_left Rplus l a = a + rsum l.
Proof. induction l as [|x l IH]; intros a; cbn [fold_left rsum fold_right]; [unfold rsum; cbn; ring|]. rewrite IH. unfold rsum; cbn. ring. Qed.
Lemma ss_sum_rsum l : ss_sum l = rsum l. Proof. unfold ss_sum. rewrite fold_plus. ring. Qed.
Definition wsum (areas pdfs : list R) : R := rsum (map (fun p => fst p * snd p) (combine areas pdfs)).
Lemma ss_acc_sum : forall areas pdfs a, ss_acc areas pdfs a = a + wsum areas pdfs.
Proof.
  induction areas as [|x l IH]; intros [|q t] a; unfold wsum, rsum; cbn; try ring. rewrite IH. unfold wsum, rsum. cbn. ring.
Qed.
Lemma choose_main areas u : table_ok areas -> 0 < u <= 1 ->
  exists k, ss_choose areas u = Ok k /\ (k < length areas)%nat /\
    rsum (firstn k areas) < u * rsum areas <= rsum (firstn (S k) areas).
Proof.
  intros H U. unfold ss_choose, dist1_dis. destruct (off_spec areas u H U) as (L & B1 & B2).
  set (k := dist1_off (dist1_make areas) u) in *.
  assert (F : d_func (dist1_make areas) = areas) by reflexivity. rewrite F.
  rewrite (nth_res_ok areas k 0 L). cbn [bind fst]. exists k. split; [reflexivity|]. split; [exact L|].
  rewrite !cdf_nth in B1, B2 by (auto; lia). destruct H as [_ S0]. split.
  - apply (Rmult_lt_compat_r (rsum areas)) in B1; [|exact S0]. unfold Rdiv in B1. rewrite Rmult_assoc, Rinv_l in B1 by lra. lra.
  - apply (Rmult_le_compat_r (rsum areas)) in B2; [|lra]. unfold Rdiv in B2. rewrite Rmult_assoc, Rinv_l in B2 by lra. lra.
Qed.
Lemma wsum_bounds areas : Forall (fun a => 0 <= a) areas -> forall pdfs lo hi, length pdfs = length areas ->
  Forall (fun q => lo <= q <= hi) pdfs -> lo * rsum areas <= wsum areas pdfs <= hi * rsum areas.
Proof.
  induction 1 as [|a l A F IH]; intros [|q t] lo hi L Q; cbn in L; try discriminate.
  - unfold wsum, rsum; cbn. lra.
  - inversion Q as [|? ? Q1 Q2]; subst. specialize (IH t lo hi ltac:(congruence) Q2). unfold wsum, rsum in *; cbn in *.
    assert (lo * a <= a * q) by nra. assert (a * q <= hi * a) by nra. rewrite !Rmult_plus_distr_l. lra.
Qed.
Lemma wsum_inv areas : Forall (fun a => 0 < a) areas -> wsum areas (map (fun a => 1 / a) areas) = INR (length areas).
Proof.
  induction 1 as [|a l A F IH]; [unfold wsum; reflexivity|]. change (length (a :: l)) with (S (length l)). rewrite S_INR, <- IH. unfold wsum, rsum; cbn. field. lra.
Qed.
