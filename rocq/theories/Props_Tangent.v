(** Property theorems C154, C155 (normals of the limit surface of Loop subdivision) *)
From Coq Require Import Reals Lra List Bool Arith Lia.
From Verif Require Import Base M_Geometry P_Geometry M_Loop P_Tangent.
Import ListNotations.
Open Scope R_scope.
Ltac v3 := unfold vadd, vsub, vneg, vscale, vzero, vcross, vmap2, vmap; cbn [vx vy vz].

(** ** C154: tangents at border vertices.  A vertex with n >= 3 border-to-border neighbours on a regular half fan with
    axes a, b around it has the tangents -2 a and lambda b with lambda > 0, so the normal points along b x a: the same
    side for every n *)
Theorem C154_half_fan (m : mesh) (fuel v n : nat) (ring : list nat) (a b : vec) (st : option (vec * vec)) :
  vbnd (getV m v) = true -> valence m fuel v = ret n -> one_ring m fuel v = ret ring -> length ring = n -> (3 <= n)%nat ->
  (forall k, (k < n)%nat -> posn m (nth k ring 0%nat) =
    vadd (vadd (posn m v) (vscale (cos (INR k * (PI / INR (n - 1)))) a)) (vscale (sin (INR k * (PI / INR (n - 1)))) b)) ->
  exists lambda, 0 < lambda /\ tangents m fuel v st = ret (vscale (-2) a, vscale lambda b) /\
    vcross (vscale (-2) a) (vscale lambda b) = vscale (2 * lambda) (vcross b a).
Proof.
  intros B V O L N3 H.
  assert (HX : forall lambda, vcross (vscale (-2) a) (vscale lambda b) = vscale (2 * lambda) (vcross b a))
    by (intros; destruct a, b; v3; f_equal; ring).
  unfold tangents. rewrite V, O. unfold ret, rbind. rewrite B. cbn [negb]. cbv zeta.
  set (th := PI / INR (n - 1)) in *. assert (NN : INR (n - 1) = INR n - 1) by (rewrite minus_INR by lia; reflexivity).
  assert (N3' := le_INR _ _ N3). cbn in N3'. pose proof PI_RGT_0 as PP.
  assert (AP : INR (n - 1) * th = PI) by (unfold th; field; lra).
  assert (SS : vsub (posn m (nth (n - 1) ring 0%nat)) (posn m (nth 0 ring 0%nat)) = vscale (-2) a).
  { rewrite !H by lia. cbn [INR]. rewrite Rmult_0_l, cos_0, sin_0, AP, cos_PI, sin_PI. destruct a, b, (posn m v). v3. f_equal; ring. }
  rewrite SS. replace (n =? 2)%nat with false by (symmetry; apply Nat.eqb_neq; lia).
  destruct (n =? 3)%nat eqn:Q3; [|destruct (n =? 4)%nat eqn:Q4].
  - apply Nat.eqb_eq in Q3. exists 1. split; [lra|]. split; [|apply HX]. do 3 f_equal. rewrite H by lia. unfold th. rewrite Q3. cbn [Nat.sub INR].
    replace (1 * (PI / (1 + 1))) with (PI / 2) by field. rewrite cos_PI2, sin_PI2. destruct a, b, (posn m v). v3. f_equal; ring.
  - apply Nat.eqb_eq in Q4. exists (2 * sqrt 3). split; [pose proof (sqrt_lt_R0 3); lra|]. split; [|apply HX]. do 3 f_equal. rewrite !H by lia. unfold th. rewrite Q4. cbn [Nat.sub INR].
    replace (0 * (PI / (1 + 1 + 1))) with 0 by ring. replace (1 * (PI / (1 + 1 + 1))) with (PI / 3) by field. replace ((1 + 1) * (PI / (1 + 1 + 1))) with (2 * (PI / 3)) by field.
    replace ((1 + 1 + 1) * (PI / (1 + 1 + 1))) with PI by field.
    rewrite cos_0, sin_0, cos_PI, sin_PI, cos_PI3, sin_PI3, cos_2PI3, sin_2PI3. destruct a, b, (posn m v). v3. f_equal; field.
  - apply Nat.eqb_neq in Q3, Q4. assert (N5 : (5 <= n)%nat) by lia.
    set (k1 := (n - 1)%nat) in *. assert (EA : th = 2 * PI / INR (2 * k1)) by (unfold th; rewrite mult_INR; cbn [INR]; field; lra).
    exists ((1 - cos th) * INR k1).
    assert (C1 : cos th < 1). { rewrite <- cos_0. apply cos_decreasing_1; try lra; unfold th.
      - apply Rlt_le, Rdiv_lt_0_compat; lra.
      - apply Rmult_le_reg_r with (INR k1); [lra|]. field_simplify; [nra|lra].
      - apply Rdiv_lt_0_compat; lra. }
    split; [apply Rmult_lt_0_compat; lra|]. split; [|apply HX]. do 3 f_equal. rewrite L. fold k1.
    assert (SQ : fsum (fun k => cos (INR k * th) * cos (INR k * th)) (seq 0 k1) = INR k1 / 2 /\
      fsum (fun k => sin (INR k * th) * sin (INR k * th)) (seq 0 k1) = INR k1 / 2 /\ fsum (fun k => sin (INR k * th) * cos (INR k * th)) (seq 0 k1) = 0).
    { apply sq_sums.
      - rewrite (fsum_ext _ (fun k => cos (INR k * (2 * PI / INR k1)))) by (intros; f_equal; unfold th; field; lra). apply cos_full. unfold k1; lia.
      - rewrite (fsum_ext _ (fun k => sin (INR k * (2 * PI / INR k1)))) by (intros; f_equal; unfold th; field; lra). apply sin_full. unfold k1; lia. }
    destruct SQ as (_ & S2 & SC).
    rewrite (fan_sum (fun k => (2 * cos th - 2) * sin (INR k * th)) (fun k => cos (INR k * th)) (fun k => sin (INR k * th)) (posn m v) a b).
    2:{ intros k Hk. apply in_seq in Hk. apply H. unfold k1 in Hk. lia. }
    rewrite (fsum_ext (fun k => (2 * cos th - 2) * sin (INR k * th) * cos (INR k * th)) (fun k => (2 * cos th - 2) * (sin (INR k * th) * cos (INR k * th)) + 0 * 0)) by (intros; ring).
    rewrite fsum_lin, SC.
    rewrite (fsum_ext (fun k => (2 * cos th - 2) * sin (INR k * th) * sin (INR k * th)) (fun k => (2 * cos th - 2) * (sin (INR k * th) * sin (INR k * th)) + 0 * 0)) by (intros; ring).
    rewrite fsum_lin, S2.
    rewrite (fsum_ext (fun k => (2 * cos th - 2) * sin (INR k * th)) (fun k => (2 * cos th - 2) * sin (INR k * th) + 0 * 0)) by (intros; ring).
    rewrite fsum_lin.
    assert (HS : (2 * cos th - 2) * fsum (fun k => sin (INR k * th)) (seq 0 k1) = - 2 * sin th).
    { pose proof (sin_sum th k1) as E1. rewrite AP in E1. rewrite cos_minus, cos_PI, sin_PI in E1.
      set (q := fsum (fun k => sin (INR k * th)) (seq 0 k1)) in *. assert (D1 : cos th = 1 - 2 * sin (th / 2) * sin (th / 2)) by (rewrite <- cos_2a_sin; f_equal; field).
      assert (D2 : sin th = 2 * sin (th / 2) * cos (th / 2)) by (rewrite <- sin_2a; f_equal; field).
      rewrite D1, D2. replace ((2 * (1 - 2 * sin (th / 2) * sin (th / 2)) - 2) * q) with (- 2 * sin (th / 2) * (2 * sin (th / 2) * q)) by ring. rewrite E1. ring. }
    rewrite HS. rewrite !H by (unfold k1; lia). cbn [INR]. rewrite Rmult_0_l, cos_0, sin_0, AP, cos_PI, sin_PI. destruct a, b, (posn m v). v3. f_equal; field.
Qed.
Print Assumptions C154_half_fan.
(** a corner vertex (two neighbours): the normal is the doubled cross product of its two edges, on the same side *)
Theorem C154_corner (m : mesh) (fuel v i j : nat) (st : option (vec * vec)) :
  vbnd (getV m v) = true -> valence m fuel v = ret 2%nat -> one_ring m fuel v = ret [i; j] ->
  exists s t, tangents m fuel v st = ret (s, t) /\
    vcross s t = vscale 2 (vcross (vsub (posn m j) (posn m v)) (vsub (posn m i) (posn m v))).
Proof.
  intros B V O. unfold tangents. rewrite V, O. unfold ret, rbind. rewrite B. cbn. eexists _, _. split; [reflexivity|].
  destruct (posn m i), (posn m j), (posn m v). v3. f_equal; ring.
Qed.
Print Assumptions C154_corner.

(** ** C155: tangents at interior vertices.  For n >= 3 neighbours on a regular fan with axes a, b they should be n/2 a
    and n/2 b.  Refuted: the tangents of the vertex treated before are added to them *)
Theorem C155_interior_refuted (m : mesh) (fuel v n : nat) (ring : list nat) (c a b S0 T0 : vec) :
  vbnd (getV m v) = false -> valence m fuel v = ret n -> one_ring m fuel v = ret ring -> (3 <= n)%nat ->
  (forall k, (k < n)%nat -> posn m (nth k ring 0%nat) =
    vadd (vadd c (vscale (cos (2 * PI * INR k / INR n)) a)) (vscale (sin (2 * PI * INR k / INR n)) b)) ->
  tangents m fuel v (Some (S0, T0)) = ret (vadd S0 (vscale (INR n / 2) a), vadd T0 (vscale (INR n / 2) b)).
Proof.
  intros B V O N3 H. unfold tangents. rewrite V, O. unfold ret, rbind. rewrite B. cbn [negb].
  assert (N3' := le_INR _ _ N3). cbn in N3'. set (al := 2 * PI / INR n).
  assert (AE : forall k, 2 * PI * INR k * (1 / INR n) = INR k * al) by (intros; unfold al; field; lra).
  assert (AE' : forall k, 2 * PI * INR k / INR n = INR k * al) by (intros; unfold al; field; lra).
  destruct (sq_sums al n (cos2_full n N3) (sin2_full n N3)) as (CC & S2 & SC).
  assert (P : forall k, In k (seq 0 n) -> posn m (nth k ring 0%nat) = vadd (vadd c (vscale (cos (INR k * al)) a)) (vscale (sin (INR k * al)) b)).
  { intros k Hk. apply in_seq in Hk. rewrite H by lia. now rewrite AE'. }
  do 4 f_equal.
  - rewrite (fan_sum _ _ _ _ _ _ _ _ P).
    rewrite (fsum_ext (fun k => cos (2 * PI * INR k * (1 / INR n))) (fun k => cos (INR k * al))) by (intros; now rewrite AE).
    rewrite (fsum_ext (fun k => cos (2 * PI * INR k * (1 / INR n)) * cos (INR k * al)) (fun k => cos (INR k * al) * cos (INR k * al))) by (intros; now rewrite AE).
    rewrite (fsum_ext (fun k => cos (2 * PI * INR k * (1 / INR n)) * sin (INR k * al)) (fun k => sin (INR k * al) * cos (INR k * al))) by (intros; rewrite AE; ring).
    rewrite CC, SC. replace (fsum _ _) with 0 by (symmetry; apply (cos_full n); lia). destruct a, b, c. v3. f_equal; ring.
  - rewrite (fan_sum _ _ _ _ _ _ _ _ P).
    rewrite (fsum_ext (fun k => sin (2 * PI * INR k * (1 / INR n))) (fun k => sin (INR k * al))) by (intros; now rewrite AE).
    rewrite (fsum_ext (fun k => sin (2 * PI * INR k * (1 / INR n)) * cos (INR k * al)) (fun k => sin (INR k * al) * cos (INR k * al))) by (intros; now rewrite AE).
    rewrite (fsum_ext (fun k => sin (2 * PI * INR k * (1 / INR n)) * sin (INR k * al)) (fun k => sin (INR k * al) * sin (INR k * al))) by (intros; now rewrite AE).
    rewrite S2, SC. replace (fsum _ _) with 0 by (symmetry; apply (sin_full n); lia). destruct a, b, c. v3. f_equal; ring.
Qed.
Print Assumptions C155_interior_refuted.
(** the hypotheses are met: two triangles at a border vertex, four triangles around an interior one; any positions *)
Example C154_ex (p0 p1 p2 p3 : vec) : exists m, loop_make 10 [mkV 0 1 2; mkV 0 2 3]%nat [p0; p1; p2; p3] = ret m /\ vbnd (getV m 0) = true /\
  valence m 10 0 = ret 3%nat /\ exists ring, one_ring m 10 0 = ret ring /\ length ring = 3%nat /\ map (posn m) ring = [p1; p2; p3].
Proof. eexists. split; [vm_compute; reflexivity|]. split; [reflexivity|]. split; [vm_compute; reflexivity|]. eexists. split; [vm_compute; reflexivity|]. split; reflexivity. Qed.
Example C155_ex (p0 p1 p2 p3 p4 : vec) : exists m, loop_make 10 [mkV 0 1 2; mkV 0 2 3; mkV 0 3 4; mkV 0 4 1]%nat [p0; p1; p2; p3; p4] = ret m /\
  vbnd (getV m 0) = false /\ valence m 10 0 = ret 4%nat /\ exists ring, one_ring m 10 0 = ret ring /\ map (posn m) ring = [p4; p3; p2; p1].
Proof. eexists. split; [vm_compute; reflexivity|]. split; [reflexivity|]. split; [vm_compute; reflexivity|]. eexists. split; [vm_compute; reflexivity|]. reflexivity. Qed.
