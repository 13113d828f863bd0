From Coq Require Import Reals Lra Lia List ZArith Bool Psatz.
From Verif Require Import Base M_Geometry S_Geometry P_Geometry M_Transform M_MonteCarlo S_MonteCarlo P_MonteCarlo
  M_Film M_Shapes P_Normals M_Reflection S_Reflection.
Import ListNotations.
Open Scope R_scope.

Ltac vc := unfold vzero, vdot, vadd, vsub, vscale, vneg, vcross, vmap2, vmap, unit, orth in *; cbn [vx vy vz] in *.

(** ** Frames *)
Lemma gram u v n s :
  vdot u (vcross n s) * vdot v (vcross n s) =
  vdot u v * (vdot n n * vdot s s - vdot n s * vdot n s)
  - vdot u n * (vdot n v * vdot s s - vdot n s * vdot s v)
  + vdot u s * (vdot n v * vdot s n - vdot n n * vdot s v).
Proof. destruct u, v, n, s; vc; ring. Qed.

Lemma unit_dot v : unit v -> vdot v v = 1. Proof. intros; exact H. Qed.
Lemma vdot_comm u v : vdot u v = vdot v u. Proof. vc; ring. Qed.

Lemma w2l_dot s u v : bs_ok s -> vdot (w2l s u) (w2l s v) = vdot u v.
Proof.
  intros (A & B & C & D). unfold w2l. rewrite D. unfold vdot at 1. cbn [vx vy vz].
  rewrite gram. rewrite (unit_dot _ A), (unit_dot _ B).
  assert (O : vdot (bs_nn s) (bs_sn s) = 0) by (rewrite vdot_comm; exact C).
  rewrite (vdot_comm (bs_sn s) (bs_nn s)), O, (vdot_comm (bs_nn s) v), (vdot_comm (bs_sn s) v). ring.
Qed.
Lemma frame_bs_ok s : bs_ok s -> frame (bs_sn s) (bs_tn s) (bs_nn s).
Proof.
  intros (A & B & C & D). rewrite D.
  assert (C' : orth (bs_nn s) (bs_sn s)) by (unfold orth in *; lra).
  split; [exact A|]. split; [now apply vcross_unit|]. split; [exact B|]. split; [|split; [exact C|]].
  - apply vcross_orth_r.
  - pose proof (vcross_orth_l (bs_nn s) (bs_sn s)). unfold orth in *; lra.
Qed.
Lemma bsdf_make_ok flip p du dv a b u v ng : vcross du dv <> vzero ->
  bs_ok (bsdf_make (dg_make flip p du dv a b u v) ng).
Proof.
  intros H. assert (Hu : du <> vzero).
  { intros ->. apply H. apply V3_eq; vc; ring. }
  pose proof (normalize_unit _ H) as N1. pose proof (normalize_unit _ Hu) as N2.
  assert (O : vdot (normalize (vcross du dv)) du = 0).
  { apply normalize_dot0. vc. ring. }
  assert (O2 : vdot (normalize du) (normalize (vcross du dv)) = 0).
  { apply normalize_dot0. rewrite vdot_comm. exact O. }
  unfold bsdf_make, bs_ok; cbn [bs_sn bs_nn bs_tn dg_nn dg_make dg_dpdu]. split; [exact N2|].
  destruct flip.
  - split; [|split; [|reflexivity]].
    + vc. lra.
    + vc. lra.
  - split; [exact N1|]. split; [exact O2|reflexivity].
Qed.
Lemma push_back_ok s b : bs_ok s -> bs_ok (push_back s b).
Proof. intros H; exact H. Qed.

(** l2w undoes w2l only for frames made of world axes *)
Lemma diag_row (s1 a b c : R) : s1 * a = 1 -> s1 * b = 0 -> s1 * c = 0 -> b = 0 /\ c = 0.
Proof.
  intros H1 H2 H3. assert (s1 <> 0) by (intros ->; lra).
  split; [apply (Rmult_eq_reg_l s1); lra|apply (Rmult_eq_reg_l s1); lra].
Qed.
Lemma sq1 x : x * x = 1 -> x = 1 \/ x = -1.
Proof. intros H. assert ((x - 1) * (x + 1) = 0) by lra. apply Rmult_integral in H0. destruct H0; [left|right]; lra. Qed.
Lemma l2w_axes s : bs_ok s -> ((forall v, l2w s (w2l s v) = v) <-> world_axes s).
Proof.
  intros F. pose proof (frame_bs_ok _ F) as (A & B & C & _). split.
  - intros H.
    pose proof (H (mkV 1 0 0)) as H1. pose proof (H (mkV 0 1 0)) as H2. pose proof (H (mkV 0 0 1)) as H3.
    clear H F. unfold l2w, w2l, world_axes in *. 
    destruct (bs_sn s) as [a1 a2 a3], (bs_tn s) as [b1 b2 b3], (bs_nn s) as [c1 c2 c3]. vc.
    injection H1 as P1 P2 P3. injection H2 as Q1 Q2 Q3. injection H3 as T1 T2 T3.
    destruct (diag_row (a1+b1+c1) a1 a2 a3) as [Z1 Z2]; [lra|lra|lra|].
    destruct (diag_row (a2+b2+c2) b2 b1 b3) as [Z3 Z4]; [lra|lra|lra|].
    destruct (diag_row (a3+b3+c3) c3 c1 c2) as [Z5 Z6]; [lra|lra|lra|]. subst.
    split; [exists a1|split; [exists b2|exists c3]]; (split; [apply sq1; lra|reflexivity]).
  - intros ((e1 & V1 & W1) & (e2 & V2 & W2) & (e3 & V3 & W3)) v. unfold l2w, w2l. rewrite W1, W2, W3. vc.
    destruct v as [x y z]; cbn. destruct V1, V2, V3; subst; apply V3_eq; cbn; ring.
Qed.

(** ** Flags *)
Lemma land_subset a b : (Z.land a b =? a)%Z = true <-> subset_bits a b.
Proof.
  rewrite Z.eqb_eq. split.
  - intros H i Hi. rewrite <- H in Hi. rewrite Z.land_spec in Hi. now apply andb_true_iff in Hi.
  - intros H. apply Z.bits_inj. intros i. rewrite Z.land_spec. specialize (H i).
    destruct (Z.testbit a i); [rewrite H; auto|reflexivity].
Qed.
Lemma match_flag_iff b flag : match_flag b flag = true <-> subset_bits (bdf_type b) flag.
Proof. apply land_subset. Qed.

Lemma match_no_trans b flags : match_flag b (Z.land flags (Z.lnot TRANSMISSION)) = true <->
  subset_bits (bdf_type b) flags /\ ~ transmissive b.
Proof.
  rewrite match_flag_iff. unfold subset_bits, transmissive. split.
  - intros H. split.
    + intros i Hi. apply H in Hi. rewrite Z.land_spec in Hi. now apply andb_true_iff in Hi.
    + intros T. apply H in T. rewrite Z.land_spec in T. apply andb_true_iff in T. destruct T as [_ T].
      vm_compute in T. discriminate.
  - intros [H N] i Hi. rewrite Z.land_spec. rewrite (H i Hi). cbn [andb].
    destruct (Z.eq_dec i 1) as [->|Ne]; [contradiction|].
    destruct (Z_lt_dec i 0) as [L|L]; [rewrite Z.testbit_neg_r in Hi by lia; discriminate|].
    rewrite Z.lnot_spec by lia. unfold TRANSMISSION. change 2%Z with (2 ^ 1)%Z.
    rewrite Z.pow2_bits_eqb by lia. destruct (1 =? i)%Z eqn:Q; [apply Z.eqb_eq in Q; lia|reflexivity].
Qed.
Lemma match_no_refl b flags : match_flag b (Z.land flags (Z.lnot REFLECTION)) = true <->
  subset_bits (bdf_type b) flags /\ ~ reflective b.
Proof.
  rewrite match_flag_iff. unfold subset_bits, reflective. split.
  - intros H. split.
    + intros i Hi. apply H in Hi. rewrite Z.land_spec in Hi. now apply andb_true_iff in Hi.
    + intros T. apply H in T. rewrite Z.land_spec in T. apply andb_true_iff in T. destruct T as [_ T].
      vm_compute in T. discriminate.
  - intros [H N] i Hi. rewrite Z.land_spec. rewrite (H i Hi). cbn [andb].
    destruct (Z.eq_dec i 0) as [->|Ne]; [contradiction|].
    destruct (Z_lt_dec i 0) as [L|L]; [rewrite Z.testbit_neg_r in Hi by lia; discriminate|].
    rewrite Z.lnot_spec by lia. unfold REFLECTION. change 1%Z with (2 ^ 0)%Z.
    rewrite Z.pow2_bits_eqb by lia. destruct (0 =? i)%Z eqn:Q; [apply Z.eqb_eq in Q; lia|reflexivity].
Qed.
(** every lobe is exactly one of reflective and transmissive *)
Lemma bdf_type_side b : (Z.testbit (bdf_type b) 0 = negb (Z.testbit (bdf_type b) 1)).
Proof.
  induction b; try reflexivity; try exact IHb.
  cbn [bdf_type]. rewrite !Z.lxor_spec. change (Z.testbit (Z.lor REFLECTION TRANSMISSION) 0) with true.
  change (Z.testbit (Z.lor REFLECTION TRANSMISSION) 1) with true.
  rewrite IHb. destruct (Z.testbit (bdf_type b) 1); reflexivity.
Qed.

(** ** Component selection *)
Lemma filter_sel sel l flags : (forall b, sel b = true <-> match_flag b flags = true) ->
  filter sel l = filter (fun b => match_flag b flags) l.
Proof.
  intros H. apply filter_ext. intros b. specialize (H b).
  destruct (sel b), (match_flag b flags); intuition congruence.
Qed.
Lemma count_matching_spec l flags : forall n,
  count_matching l flags n = (n + length (filter (fun b => match_flag b flags) l))%nat.
Proof.
  induction l as [|b l IH]; intros n; cbn [count_matching filter]; [cbn; lia|].
  rewrite IH. destruct (match_flag b flags); cbn [length]; lia.
Qed.
Lemma pick_spec l flags : forall cnt, (0 <= cnt)%Z ->
  pick l flags cnt = nth_error (filter (fun b => match_flag b flags) l) (Z.to_nat cnt).
Proof.
  induction l as [|b l IH]; intros cnt H; cbn [pick filter].
  - now destruct (Z.to_nat cnt).
  - destruct (match_flag b flags) eqn:M; [|now apply IH].
    destruct (cnt =? 0)%Z eqn:Q.
    + apply Z.eqb_eq in Q. now subst.
    + apply Z.eqb_neq in Q. rewrite IH by lia.
      replace (Z.to_nat cnt) with (S (Z.to_nat (cnt - 1))) by lia. reflexivity.
Qed.
Lemma pick_index_range u n : 0 <= u -> (0 < n)%nat ->
  (0 <= pick_index u n < Z.of_nat n)%Z /\
  (u < 1 -> IZR (pick_index u n) <= u * INR n < IZR (pick_index u n) + 1).
Proof.
  intros H Hn. unfold pick_index.
  assert (P : 0 < INR n) by (apply lt_0_INR; lia).
  assert (0 <= u * INR n) by (apply Rmult_le_pos; lra).
  assert (0 <= Zfloor (u * INR n))%Z by (apply Zfloor_ge; lra).
  split; [lia|]. intros Hu. assert (L : (Zfloor (u * INR n) < Z.of_nat n)%Z).
  { apply Zfloor_lt. rewrite <- INR_IZR_INZ. nra. }
  rewrite Z.min_l by lia. apply Zfloor_spec.
Qed.
Lemma pick_some l flags u : 0 <= u -> (0 < length (filter (fun b => match_flag b flags) l))%nat ->
  let n := length (filter (fun b => match_flag b flags) l) in
  exists b, pick l flags (pick_index u n) = Some b /\
    nth_error (filter (fun b => match_flag b flags) l) (Z.to_nat (pick_index u n)) = Some b /\
    In b l /\ subset_bits (bdf_type b) flags.
Proof.
  intros H Hn n. destruct (pick_index_range u n H Hn) as [R _].
  destruct (nth_error (filter (fun b => match_flag b flags) l) (Z.to_nat (pick_index u n))) as [b|] eqn:Q.
  - exists b. rewrite pick_spec by lia. split; [exact Q|]. split; [reflexivity|].
    apply nth_error_In in Q. apply filter_In in Q. destruct Q as [I0 M]. split; [exact I0|].
    now apply match_flag_iff.
  - apply nth_error_None in Q. unfold n in *. lia.
Qed.

Lemma vadd_assoc a b c : vadd (vadd a b) c = vadd a (vadd b c).
Proof. apply V3_eq; vc; ring. Qed.
Lemma vadd_0_l a : vadd vzero a = a. Proof. destruct a; apply V3_eq; vc; ring. Qed.
Lemma vadd_0_r a : vadd a vzero = a. Proof. destruct a; apply V3_eq; vc; ring. Qed.
Lemma sum_f_spec l flags wo wi : forall acc, sum_f l flags wo wi acc =
  match sum_res (map (fun b => bdf_f b wo wi) (filter (fun b => match_flag b flags) l)) with
  | Ok s => Ok (vadd acc s) | Err e => Err e end.
Proof.
  induction l as [|b l IH]; intros acc; cbn [sum_f filter map sum_res].
  - now rewrite vadd_0_r.
  - destruct (match_flag b flags); cbn [map sum_res]; [|apply IH].
    destruct (bdf_f b wo wi) as [v|e]; cbn [bind]; [|reflexivity].
    rewrite IH. destruct (sum_res _); [|reflexivity]. now rewrite vadd_assoc.
Qed.
Lemma sum_pdf_spec l flags wo wi : forall acc, sum_pdf l flags wo wi acc =
  acc + sumR (map (fun b => bdf_pdf b wo wi) (filter (fun b => match_flag b flags) l)).
Proof.
  induction l as [|b l IH]; intros acc; cbn [sum_pdf filter].
  - unfold sumR; cbn; ring.
  - rewrite IH. destruct (match_flag b flags); cbn [map]; [|ring].
    unfold sumR; cbn [fold_right]. ring.
Qed.
Lemma bsdf_f_spec s wo wi flags (sel : bdf -> bool) :
  (forall b, sel b = true <-> subset_bits (bdf_type b) flags /\
     (same_side (bs_ng s) wo wi -> reflective b) /\ (~ same_side (bs_ng s) wo wi -> transmissive b)) ->
  bsdf_f s wo wi flags = sum_res (map (fun b => bdf_f b (w2l s wo) (w2l s wi)) (filter sel (bs_bdfs s))).
Proof.
  intros H. unfold bsdf_f. rewrite sum_f_spec.
  rewrite <- (filter_sel sel).
  - destruct (sum_res _); [|reflexivity]. change (spec 0) with vzero. now rewrite vadd_0_l.
  - intros b. rewrite H. clear H. unfold side_flags, same_side.
    destruct (Rltb 0 (vdot wi (bs_ng s) * vdot wo (bs_ng s))) eqn:C; Rb.
    + rewrite match_no_trans. unfold reflective, transmissive. rewrite bdf_type_side.
      assert (0 < vdot wo (bs_ng s) * vdot wi (bs_ng s)) by lra.
      destruct (Z.testbit (bdf_type b) 1); cbn; intuition congruence.
    + rewrite match_no_refl. unfold reflective, transmissive. rewrite bdf_type_side.
      assert (~ 0 < vdot wo (bs_ng s) * vdot wi (bs_ng s)) by lra.
      destruct (Z.testbit (bdf_type b) 1); cbn; intuition congruence.
Qed.
