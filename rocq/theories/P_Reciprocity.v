From Coq Require Import Reals Lra Lia List ZArith Bool Psatz.
From Verif Require Import Base M_Geometry S_Geometry P_Geometry M_Transform M_MonteCarlo S_MonteCarlo P_MonteCarlo
  M_Film M_Shapes P_Normals M_Reflection S_Reflection P_Reflection.
Import ListNotations.
Open Scope R_scope.

Lemma normalize_scale v : exists k, 0 < k /\ normalize v = vscale k v.
Proof.
  unfold normalize. destruct (Reqb (vlength v) 0) eqn:C; Rb.
  - exists 1. split; [lra|]. destruct v; apply V3_eq; vc; ring.
  - exists (/ vlength v). assert (0 <= vlength v) by (unfold vlength; apply sqrt_pos).
    split; [apply Rinv_0_lt_compat; lra|]. apply V3_eq; vc; unfold Rdiv; ring.
Qed.
Lemma vadd_comm a b : vadd a b = vadd b a. Proof. apply V3_eq; vc; ring. Qed.
Lemma half_dot wo wi : unit wo -> unit wi ->
  vdot wo (normalize (vadd wi wo)) = vdot wi (normalize (vadd wi wo)).
Proof.
  intros A B. destruct (normalize_scale (vadd wi wo)) as (k & _ & ->). destruct wo as [a b c], wi as [d e f]. vc.
  replace (a * (k * (d + a)) + b * (k * (e + b)) + c * (k * (f + c)))
    with (k * (a*d + b*e + c*f) + k * (a*a+b*b+c*c)) by ring.
  replace (d * (k * (d + a)) + e * (k * (e + b)) + f * (k * (f + c)))
    with (k * (a*d + b*e + c*f) + k * (d*d+e*e+f*f)) by ring. rewrite A, B. reflexivity.
Qed.
Lemma pmin_comm a b : pmin a b = pmin b a. Proof. rewrite !pmin_Rmin. apply Rmin_comm. Qed.
Lemma pmax_comm a b : pmax a b = pmax b a. Proof. rewrite !pmax_Rmax. apply Rmax_comm. Qed.

Lemma oren_sym r A B wo wi : oren_nayar_f r A B wo wi = oren_nayar_f r A B wi wo.
Proof.
  unfold oren_nayar_f. cbv zeta.
  assert (M : (if Rltb EPS (sin_theta wi) && Rltb EPS (sin_theta wo)
       then pmax 0 (cos_phi wi * cos_phi wo + sin_phi wi * sin_phi wo) else 0) =
      (if Rltb EPS (sin_theta wo) && Rltb EPS (sin_theta wi)
       then pmax 0 (cos_phi wo * cos_phi wi + sin_phi wo * sin_phi wi) else 0)).
  { rewrite andb_comm. rewrite (Rmult_comm (cos_phi wi)), (Rmult_comm (sin_phi wi)). reflexivity. }
  rewrite M. 
  destruct (Rltb (abs_cos_theta wo) (abs_cos_theta wi)) eqn:C1;
  destruct (Rltb (abs_cos_theta wi) (abs_cos_theta wo)) eqn:C2; Rb; try reflexivity; try lra.
  assert (Q : abs_cos_theta wi = abs_cos_theta wo) by lra.
  assert (T : sin_theta wi = sin_theta wo).
  { unfold sin_theta, abs_cos_theta in *.
    replace (vz wi * vz wi) with (Rabs (vz wi) * Rabs (vz wi)) by (rewrite <- Rabs_mult; apply Rabs_pos_eq; nra).
    rewrite Q. rewrite <- Rabs_mult. rewrite Rabs_pos_eq by nra. reflexivity. }
  rewrite Q, T. reflexivity.
Qed.
Lemma microfacet_sym r fr d wo wi : unit wo -> unit wi -> microfacet_f r fr d wo wi = microfacet_f r fr d wi wo.
Proof.
  intros A B. unfold microfacet_f. cbv zeta. rewrite orb_comm.
  destruct (Reqb (cos_theta wo) 0 || Reqb (cos_theta wi) 0); [reflexivity|].
  rewrite (vadd_comm wo wi). rewrite (half_dot wo wi A B).
  replace (4 * cos_theta wo * cos_theta wi) with (4 * cos_theta wi * cos_theta wo) by ring.
  assert (G : mf_G wo wi (normalize (vadd wi wo)) = mf_G wi wo (normalize (vadd wi wo))).
  { unfold mf_G, abs_dot. rewrite (half_dot wo wi A B). f_equal. apply pmin_comm. }
  rewrite G. reflexivity.
Qed.
Lemma blend_sym rd rs d wo wi : unit wo -> unit wi -> fresnel_blend_f rd rs d wo wi = fresnel_blend_f rd rs d wi wo.
Proof.
  intros A B. unfold fresnel_blend_f. cbv zeta. rewrite (vadd_comm wo wi).
  unfold abs_dot. rewrite (half_dot wo wi A B). rewrite (pmax_comm (abs_cos_theta wo)). f_equal.
  unfold vscale, vmap. cbn [vx vy vz]. f_equal; ring.
Qed.

(** ** mirroring both directions in the surface *)
Lemma switch_switch w : switch (switch w) = w.
Proof. destruct w; unfold switch; cbn. now rewrite Ropp_involutive. Qed.
Lemma switch_add a b : vadd (switch a) (switch b) = switch (vadd a b).
Proof. apply V3_eq; unfold switch; vc; ring. Qed.
Lemma switch_length v : vlength (switch v) = vlength v.
Proof. unfold vlength, sq_length, switch; cbn. f_equal. ring. Qed.
Lemma switch_normalize v : normalize (switch v) = switch (normalize v).
Proof.
  unfold normalize. rewrite switch_length. destruct (Reqb (vlength v) 0); [reflexivity|].
  unfold switch; cbn. f_equal. unfold Rdiv; ring.
Qed.
Lemma switch_dot a b : vdot (switch a) (switch b) = vdot a b.
Proof. unfold switch; vc; ring. Qed.
Lemma switch_abs_cos w : abs_cos_theta (switch w) = abs_cos_theta w.
Proof. unfold abs_cos_theta, switch; cbn. apply Rabs_Ropp. Qed.
Lemma switch_D d wh : mdist_D d (switch wh) = mdist_D d wh.
Proof. unfold mdist_D. rewrite !switch_abs_cos. unfold switch; cbn. reflexivity. Qed.
Lemma switch_sin w : sin_theta (switch w) = sin_theta w.
Proof. unfold sin_theta, switch; cbn. do 3 f_equal. ring. Qed.
Lemma switch_cos_phi w : cos_phi (switch w) = cos_phi w.
Proof. unfold cos_phi, switch; cbn. now replace (- vz w * - vz w) with (vz w * vz w) by ring. Qed.
Lemma switch_sin_phi w : sin_phi (switch w) = sin_phi w.
Proof. unfold sin_phi, switch; cbn. now replace (- vz w * - vz w) with (vz w * vz w) by ring. Qed.
Lemma switch_unit w : unit w -> unit (switch w).
Proof. unfold switch; vc. intros; lra. Qed.

(** ** tabulated BRDF *)
Lemma zclip_range x lo hi : (lo <= hi)%Z -> (lo <= zclip x lo hi <= hi)%Z.
Proof. unfold zclip; lia. Qed.
Lemma small_index x (n : Z) : (1 <= n)%Z -> 0 <= x -> ((1 < n)%Z -> x < 1) -> zclip (Ztrunc x) 0 (n - 1) = 0%Z.
Proof.
  intros Hn Hx H. destruct (Z.eq_dec n 1) as [->|Ne]; [unfold zclip; lia|].
  rewrite Ztrunc_nonneg by lra. rewrite (Zfloor_unique x 0); [unfold zclip; lia|]. split; [lra|].
  rewrite Rplus_0_l. apply H. lia.
Qed.
Lemma div_small x (n : Z) c : 0 < c -> 0 <= x -> x < 2 * c -> (1 <= n)%Z ->
  0 <= x / (IZR n * c) /\ ((1 < n)%Z -> x / (IZR n * c) < 1).
Proof.
  intros Hc Hx H Hn. assert (1 <= IZR n) by (apply IZR_le; lia).
  assert (P : 0 < IZR n * c) by nra. split.
  - apply Rmult_le_pos; [lra|]. left; now apply Rinv_0_lt_compat.
  - intros L. assert (2 <= IZR n) by (apply IZR_le; lia).
    apply (Rmult_lt_reg_r (IZR n * c)); [exact P|]. unfold Rdiv. rewrite Rmult_assoc, Rinv_l by lra. nra.
Qed.
Lemma rehalf_index_zero nth ntd npd wo wi : (1 <= nth)%Z -> (1 <= ntd)%Z -> (1 <= npd)%Z ->
  rehalf_index nth ntd npd wo wi = (0, 0, 0)%Z.
Proof.
  intros H1 H2 H3. unfold rehalf_index. cbv zeta. pose proof PI_RGT_0 as P.
  assert (Q : 0 <= sqrt (pmax 0 (spherical_theta (normalize (vadd wi wo)) / (PI / 2))) < 2 * 1).
  { split; [apply sqrt_pos|]. apply Rsqr_incrst_0; [|apply sqrt_pos|lra].
    rewrite Rsqr_sqrt by apply pmax_ge_l. unfold Rsqr.
    destruct (spherical_theta_range (normalize (vadd wi wo))) as [T1 T2].
    assert (spherical_theta (normalize (vadd wi wo)) / (PI / 2) <= 2).
    { apply (Rmult_le_reg_r (PI / 2)); [lra|]. unfold Rdiv at 1. rewrite Rmult_assoc, Rinv_l by lra. lra. }
    unfold pmax. destruct (Rltb 0 _); lra. }
  destruct (div_small _ nth 1 Rlt_0_1 (proj1 Q) (proj2 Q) H1) as [A1 A2]. rewrite Rmult_1_r in *.
  rewrite (small_index _ nth H1 A1 A2). 
  match goal with |- context [spherical_theta (mkV ?a ?b ?c)] => set (wd := mkV a b c) end.
  destruct (spherical_theta_range wd) as [T1 T2].
  destruct (div_small (spherical_theta wd) ntd PI P T1) as [B1 B2]; [lra|exact H2|].
  rewrite (small_index _ ntd H2 B1 B2).
  pose proof (spherical_phi_range wd) as [R1 R2].
  set (w := if Rltb PI (spherical_phi wd) then spherical_phi wd - PI else spherical_phi wd).
  assert (W : 0 <= w <= PI) by (unfold w; destruct (Rltb PI (spherical_phi wd)) eqn:C; Rb; lra).
  destruct (div_small w npd PI P (proj1 W)) as [C1 C2]; [lra|exact H3|].
  rewrite (small_index _ npd H3 C1 C2). reflexivity.
Qed.

(** well-formed lobes: tables have at least one row, column and layer *)
Fixpoint tables_ok (b : bdf) : Prop :=
  match b with
  | ReHalfangle _ nth ntd npd => (1 <= nth /\ 1 <= ntd /\ 1 <= npd)%Z
  | BRDF2BTDF b | ScaledBDF b _ => tables_ok b
  | _ => True
  end.
Lemma recip_both b : tables_ok b -> forall wo wi, unit wo -> unit wi ->
  bdf_f b wo wi = bdf_f b wi wo /\ bdf_f b (switch wo) (switch wi) = bdf_f b wo wi.
Proof.
  induction b; cbn [tables_ok bdf_f]; intros T wo wi UO UI; try (split; reflexivity).
  - split; [now rewrite oren_sym|]. f_equal. unfold oren_nayar_f.
    now rewrite !switch_sin, !switch_cos_phi, !switch_sin_phi, !switch_abs_cos.
  - split; [now rewrite microfacet_sym|]. f_equal. unfold microfacet_f. cbv zeta.
    rewrite switch_add, switch_normalize, switch_dot, switch_D.
    assert (E0 : forall w, Reqb (cos_theta (switch w)) 0 = Reqb (cos_theta w) 0).
    { intros w. unfold cos_theta, switch; cbn. destruct (Reqb (vz w) 0) eqn:C; Rb.
      - apply Reqb_true. lra.
      - apply Reqb_false. lra. }
    rewrite !E0.
    assert (G : mf_G (switch wo) (switch wi) (switch (normalize (vadd wi wo))) = mf_G wo wi (normalize (vadd wi wo))).
    { unfold mf_G, abs_dot. now rewrite !switch_abs_cos, !switch_dot. }
    rewrite G. replace (4 * cos_theta (switch wi) * cos_theta (switch wo)) with (4 * cos_theta wi * cos_theta wo)
      by (unfold cos_theta, switch; cbn; ring). reflexivity.
  - split; [now rewrite blend_sym|]. f_equal. unfold fresnel_blend_f. cbv zeta.
    rewrite switch_add, switch_normalize, switch_dot, switch_D. unfold abs_dot. rewrite switch_dot.
    now rewrite !switch_abs_cos.
  - destruct T as (T1 & T2 & T3). unfold rehalf_f. rewrite !rehalf_index_zero by assumption. split; reflexivity.
  - assert (U : unit (switch wi)) by now apply switch_unit.
    destruct (IHb T wo (switch wi) UO U) as [P1 P2]. destruct (IHb T wi (switch wo) UI (switch_unit _ UO)) as [P3 P4].
    split.
    + rewrite P1. destruct (IHb T (switch wi) wo U UO) as [_ P5]. rewrite switch_switch in P5. now rewrite <- P5.
    + exact P2.
Qed.
Lemma side_flags_sym s wo wi flags : side_flags s wo wi flags = side_flags s wi wo flags.
Proof. unfold side_flags. now rewrite Rmult_comm. Qed.
Lemma sum_f_sym l flags wo wi : unit wo -> unit wi -> Forall tables_ok l -> forall acc,
  sum_f l flags wo wi acc = sum_f l flags wi wo acc.
Proof.
  intros A B F. induction F as [|b l T F IH]; intros acc; cbn [sum_f]; [reflexivity|].
  destruct (match_flag b flags); [|apply IH]. rewrite (proj1 (recip_both b T wo wi A B)).
  destruct (bdf_f b wi wo); cbn [bind]; [apply IH|reflexivity].
Qed.
Lemma w2l_unit s v : bs_ok s -> unit v -> unit (w2l s v).
Proof. intros H U. pose proof (w2l_dot s v v H) as D. unfold unit in *. unfold vdot in D. lra. Qed.
Lemma bsdf_recip s wo wi flags : bs_ok s -> unit wo -> unit wi -> Forall tables_ok (bs_bdfs s) ->
  bsdf_f s wo wi flags = bsdf_f s wi wo flags.
Proof.
  intros H A B F. unfold bsdf_f. rewrite side_flags_sym. apply sum_f_sym; auto using w2l_unit.
Qed.
