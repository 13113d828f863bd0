(** Proofs about the construction of the uniform grid (C35). *)
From Coq Require Import Reals List Bool ZArith Arith Lia Lra.
From Verif Require Import Base M_Geometry S_Geometry P_Geometry M_BVH S_BVH P_BVH P_BVHTrav M_Aggregate S_Aggregate P_Refine P_Aggregate.
Import ListNotations.
Open Scope R_scope.

(** ** One axis *)
Lemma Ztrunc_mono a b : a <= b -> (Ztrunc a <= Ztrunc b)%Z.
Proof.
  intros H. destruct (Rle_dec 0 a).
  - rewrite !Ztrunc_nonneg by lra. now apply Zfloor_mono.
  - rewrite (Ztrunc_neg a) by lra. destruct (Rle_dec 0 b).
    + rewrite Ztrunc_nonneg by lra. assert (Zceil a <= 0)%Z by (apply Zceil_le; lra).
      assert (0 <= Zfloor b)%Z by (apply Zfloor_ge; lra). lia.
    + rewrite Ztrunc_neg by lra. now apply Zceil_mono.
Qed.

Definition pv (lo iw : R) (n : Z) (p : R) : Z := Zclip (Ztrunc ((p - lo) * iw)) 0 (n - 1).

Lemma pv_range lo iw n p : (1 <= n)%Z -> (0 <= pv lo iw n p < n)%Z.
Proof. intros. unfold pv, Zclip. lia. Qed.
Lemma pv_mono lo iw n p q : 0 <= iw -> p <= q -> (pv lo iw n p <= pv lo iw n q)%Z.
Proof.
  intros Hi H. unfold pv, Zclip.
  assert (Ztrunc ((p - lo) * iw) <= Ztrunc ((q - lo) * iw))%Z.
  { apply Ztrunc_mono. apply Rmult_le_compat_r; lra. }
  lia.
Qed.
Lemma inv_width_nonneg w : 0 <= w -> 0 <= inv_width w.
Proof.
  intros. unfold inv_width. Rcase; [lra|]. apply Rlt_le. unfold Rdiv. rewrite Rmult_1_l. apply Rinv_0_lt_compat. lra.
Qed.

(** [pv] of a point of the grid is the cell it lies in. *)
Lemma pv_cell lo w n x p : (1 <= n)%Z -> 0 <= w -> (w = 0 -> n = 1%Z) -> (0 <= x < n)%Z ->
  lo <= p <= lo + IZR n * w ->
  (pv lo (inv_width w) n p = x <-> in_cell lo w n x p).
Proof.
  intros Hn Hw H0 Hx Hp. unfold pv, in_cell, inv_width.
  destruct (Reqb w 0) eqn:C; Rb.
  - rewrite C in *. rewrite H0 in * by reflexivity. assert (x = 0)%Z by lia. subst x.
    replace ((p - lo) * 0) with (IZR 0) by (cbn; ring). rewrite Ztrunc_nonneg by lra.
    rewrite Zfloor_IZR. cbn. split; [|reflexivity]. intros _. cbn in Hp. split; [lra|]. right. split; [lia|lra].
  - assert (W : 0 < w) by lra. set (q := (p - lo) * (1 / w)).
    assert (Q : p - lo = q * w) by (unfold q; field; lra).
    assert (Q0 : 0 <= q). { unfold q. apply Rmult_le_pos; [lra|]. unfold Rdiv; rewrite Rmult_1_l. apply Rlt_le, Rinv_0_lt_compat; lra. }
    assert (Qn : q <= IZR n). { apply Rmult_le_reg_r with w; [lra|]. lra. }
    clearbody q. rewrite Ztrunc_nonneg by lra.
    pose proof (Zfloor_spec q) as [F1 F2].
    assert (F0 : (0 <= Zfloor q)%Z) by (apply Zfloor_ge; cbn; lra).
    assert (FN : (Zfloor q <= n)%Z). { apply le_IZR. lra. }
    unfold Zclip. split.
    + intros E. rewrite plus_IZR. destruct (Z.eq_dec (Zfloor q) n) as [En|En].
      * assert (x = n - 1)%Z by lia. rewrite En in F1, F2. replace (IZR x) with (IZR n - 1) by (rewrite H, minus_IZR; reflexivity).
        assert (q = IZR n) by lra. split; [nra|]. right. split; [exact H|]. nra.
      * assert (XF : x = Zfloor q) by lia. rewrite XF. pose proof (Rmult_le_compat_r w _ _ Hw F1). pose proof (Rmult_lt_compat_r w _ _ W F2). split; [lra|]. left. lra.
    + rewrite plus_IZR. intros [A [B|[B1 B]]].
      * assert (IZR x <= q) by (apply Rmult_le_reg_r with w; lra).
        assert (q < IZR x + 1) by (apply Rmult_lt_reg_r with w; lra).
        rewrite (Zfloor_unique q x) by lra. lia.
      * assert (IZR x <= q) by (apply Rmult_le_reg_r with w; lra).
        assert (q <= IZR x + 1) by (apply Rmult_le_reg_r with w; lra).
        assert (x <= Zfloor q)%Z by (apply Zfloor_ge; lra). lia.
Qed.

(** Cells between those of the two ends of an interval contain a point of the interval. *)
Lemma pv_between lo w n l h x : (1 <= n)%Z -> 0 <= w -> (w = 0 -> n = 1%Z) ->
  lo <= l -> l <= h -> h <= lo + IZR n * w -> (0 <= x < n)%Z ->
  ((pv lo (inv_width w) n l <= x <= pv lo (inv_width w) n h)%Z <->
   exists p, l <= p <= h /\ in_cell lo w n x p).
Proof.
  intros Hn Hw H0 Hl Hlh Hh Hx. split.
  - intros [A B]. destruct (Z.eq_dec (pv lo (inv_width w) n l) x) as [E|E].
    + exists l. split; [lra|]. apply pv_cell; auto. lra.
    + assert (W : 0 < w).
      { destruct (Req_dec w 0) as [Z|]; [|lra]. rewrite (H0 Z) in *.
        pose proof (pv_range lo (inv_width w) 1 l). pose proof (pv_range lo (inv_width w) 1 h). lia. }
      exists (lo + IZR x * w).
      assert (E2 : in_cell lo w n (pv lo (inv_width w) n l) l).
      { apply pv_cell; auto; try lra. apply pv_range; auto. }
      assert (E3 : in_cell lo w n (pv lo (inv_width w) n h) h).
      { apply pv_cell; auto; try lra. apply pv_range; auto. }
      destruct E2 as [_ E2]. destruct E3 as [E3 _].
      assert (L1 : IZR (pv lo (inv_width w) n l + 1) <= IZR x) by (apply IZR_le; lia).
      assert (L2 : IZR x <= IZR (pv lo (inv_width w) n h)) by (apply IZR_le; lia).
      split; [split|split].
      * destruct E2 as [E2|[_ E2]]; nra.
      * nra.
      * lra.
      * left. rewrite plus_IZR. nra.
  - intros (p&Hp&C). apply pv_cell in C; auto; [|lra]. subst x.
    assert (0 <= inv_width w) by now apply inv_width_nonneg.
    split; apply pv_mono; lra.
Qed.

Lemma n_vox_range n dm d : (1 <= n_vox n dm d <= 64)%Z.
Proof. unfold n_vox, Zclip. lia. Qed.
Lemma n_vox_flat n dm : n_vox n dm 0 = 1%Z.
Proof.
  unfold n_vox. rewrite Rmult_0_l. replace 0 with (IZR 0) by reflexivity. rewrite Ztrunc_nonneg by lra.
  now rewrite Zfloor_IZR.
Qed.

(** ** Offsets *)
Lemma goffset_bound nx ny nz x y z :
  (0 <= x < nx)%Z -> (0 <= y < ny)%Z -> (0 <= z < nz)%Z ->
  (0 <= z * nx * ny + y * nx + x < nx * ny * nz)%Z.
Proof.
  intros. split.
  - assert (0 <= z * nx * ny)%Z by (apply Z.mul_nonneg_nonneg; [apply Z.mul_nonneg_nonneg; lia|lia]).
    assert (0 <= y * nx)%Z by (apply Z.mul_nonneg_nonneg; lia). lia.
  - assert (z * (nx * ny) <= (nz - 1) * (nx * ny))%Z by (apply Z.mul_le_mono_nonneg_r; [apply Z.mul_nonneg_nonneg; lia|lia]).
    assert (y * nx <= (ny - 1) * nx)%Z by (apply Z.mul_le_mono_nonneg_r; lia). lia.
Qed.
Lemma goffset_inj nx ny nz x y z x' y' z' :
  (0 <= x < nx)%Z -> (0 <= y < ny)%Z -> (0 <= z < nz)%Z ->
  (0 <= x' < nx)%Z -> (0 <= y' < ny)%Z -> (0 <= z' < nz)%Z ->
  (z * nx * ny + y * nx + x = z' * nx * ny + y' * nx + x')%Z -> x = x' /\ y = y' /\ z = z'.
Proof.
  intros. assert (E : ((z * ny + y) * nx + x = (z' * ny + y') * nx + x')%Z) by nia.
  assert (x = x').
  { assert (M : ((x + (z * ny + y) * nx) mod nx = (x' + (z' * ny + y') * nx) mod nx)%Z) by (f_equal; lia).
    rewrite !Z.mod_add, !Z.mod_small in M by lia. exact M. }
  subst x'. assert ((z * ny + y) = (z' * ny + y'))%Z by nia.
  assert (y = y').
  { assert (M : ((y + z * ny) mod ny = (y' + z' * ny) mod ny)%Z) by (f_equal; lia).
    rewrite !Z.mod_add, !Z.mod_small in M by lia. exact M. }
  subst. repeat split; nia.
Qed.

Lemma in_zrange a b x : In x (zrange a b) <-> (a <= x < b)%Z.
Proof.
  unfold zrange. rewrite in_map_iff. split.
  - intros (k&<-&H). apply in_seq in H. lia.
  - intros H. exists (Z.to_nat (x - a)). split; [lia|]. apply in_seq. lia.
Qed.
Lemma NoDup_zrange a b : NoDup (zrange a b).
Proof.
  unfold zrange. apply FinFun.Injective_map_NoDup; [intros i j; lia|apply seq_NoDup].
Qed.

Lemma concat_indicator {B} (L : list B) x' l : NoDup l ->
  concat (map (fun x => if (x =? x')%Z then L else []) l) = if in_dec Z.eq_dec x' l then L else [].
Proof.
  induction 1 as [|x l Hx ND IH]; [reflexivity|]. cbn [map concat]. rewrite IH.
  destruct (in_dec Z.eq_dec x' l) as [I|I]; destruct (in_dec Z.eq_dec x' (x :: l)) as [J|J].
  - destruct (Z.eqb_spec x x') as [->|]; [contradiction|reflexivity].
  - exfalso; apply J; now right.
  - destruct J as [->|J]; [|contradiction]. now rewrite Z.eqb_refl, app_nil_r.
  - destruct (Z.eqb_spec x x') as [->|]; [exfalso; apply J; now left|reflexivity].
Qed.
Lemma concat_nils {A B} (l : list A) : concat (map (fun _ => @nil B) l) = [].
Proof. induction l; cbn; auto. Qed.

(** ** Filling the voxels *)
Section Fill.
Context (glo gw : vec) (nv : V3 Z).
Context (Hnx : (1 <= vx nv)%Z) (Hny : (1 <= vy nv)%Z) (Hnz : (1 <= vz nv)%Z).
Definition vvalid (v : Z * Z * Z) : Prop := let '(x, y, z) := v in
  (0 <= x < vx nv /\ 0 <= y < vy nv /\ 0 <= z < vz nv)%Z.
Definition cont (vox : list (list nat)) (v : Z * Z * Z) : list nat :=
  let '(x, y, z) := v in nth (Z.to_nat (goffset nv x y z)) vox [].
Definition vlen (vox : list (list nat)) : Prop := length vox = Z.to_nat (vx nv * vy nv * vz nv).

Definition adds (f : list (list nat) -> res (list (list nat))) (g : Z * Z * Z -> list nat) : Prop :=
  forall vox, vlen vox -> exists vox', f vox = Ok vox' /\ vlen vox' /\
    forall v, vvalid v -> cont vox' v = cont vox v ++ g v.

Lemma vox_add_adds i x y z : vvalid (x, y, z) ->
  adds (vox_add nv i x y z)
    (fun '(x', y', z') => if (z =? z')%Z then if (y =? y')%Z then if (x =? x')%Z then [i] else [] else [] else []).
Proof.
  intros (Hx&Hy&Hz) vox HL. unfold vox_add.
  pose proof (goffset_bound _ _ _ x y z Hx Hy Hz) as B.
  destruct (nth_error vox (Z.to_nat (goffset nv x y z))) as [l|] eqn:E.
  2:{ apply nth_error_None in E. unfold vlen, goffset in *. lia. }
  eexists. split; [reflexivity|]. split; [unfold vlen; now rewrite aset_length|].
  intros [[x' y'] z'] (Hx'&Hy'&Hz'). cbn [cont]. rewrite nth_aset.
  assert (LT : (Z.to_nat (goffset nv x y z) < length vox)%nat) by (apply nth_error_Some; congruence).
  pose proof (goffset_bound _ _ _ x' y' z' Hx' Hy' Hz') as B'.
  assert (LT' : (Z.to_nat (goffset nv x' y' z') < length vox)%nat).
  { unfold vlen, goffset in *. lia. }
  destruct (Nat.eqb_spec (Z.to_nat (goffset nv x' y' z')) (Z.to_nat (goffset nv x y z))) as [Q|Q].
  - assert (Q2 : goffset nv x y z = goffset nv x' y' z') by (unfold goffset in *; lia).
    apply (goffset_inj _ _ _ _ _ _ _ _ _ Hx Hy Hz Hx' Hy' Hz') in Q2. destruct Q2 as (->&->&->).
    rewrite !Z.eqb_refl. destruct (Nat.ltb_spec (Z.to_nat (goffset nv x' y' z')) (length vox)); [|lia].
    cbn. f_equal. symmetry. now apply nth_error_nth.
  - cbn [andb]. destruct (Z.eqb_spec z z') as [->|]; [|now rewrite app_nil_r].
    destruct (Z.eqb_spec y y') as [->|]; [|now rewrite app_nil_r].
    destruct (Z.eqb_spec x x') as [->|]; [congruence|now rewrite app_nil_r].
Qed.

Lemma for_each_adds {A} (f : A -> list (list nat) -> res (list (list nat))) (g : A -> Z * Z * Z -> list nat) l :
  (forall a, In a l -> adds (f a) (g a)) -> adds (for_each f l) (fun v => concat (map (fun a => g a v) l)).
Proof.
  induction l as [|a l IH]; intros H vox HL; cbn [for_each].
  - exists vox. repeat split; auto. intros; cbn. now rewrite app_nil_r.
  - destruct (H a (or_introl eq_refl) vox HL) as (vox1&E1&L1&C1). rewrite E1. cbn [bind].
    destruct (IH (fun b Hb => H b (or_intror Hb)) vox1 L1) as (vox2&E2&L2&C2).
    exists vox2. repeat split; auto. intros v Hv. rewrite C2, C1 by auto. cbn. now rewrite app_assoc.
Qed.
Lemma adds_ext f g g' : adds f g -> (forall v, vvalid v -> g v = g' v) -> adds f g'.
Proof.
  intros H E vox HL. destruct (H vox HL) as (vox'&A&B&C). exists vox'. repeat split; auto.
  intros v Hv. rewrite C by auto. now rewrite E.
Qed.

Definition in_rng (l h : vec) (v : Z * Z * Z) : Prop :=
  let '(x, y, z) := v in let iw := vmap inv_width gw in
  (pos2voxel_ glo iw nv l 0 <= x <= pos2voxel_ glo iw nv h 0 /\
   pos2voxel_ glo iw nv l 1 <= y <= pos2voxel_ glo iw nv h 1 /\
   pos2voxel_ glo iw nv l 2 <= z <= pos2voxel_ glo iw nv h 2)%Z.
Lemma in_rng_dec l h v : {in_rng l h v} + {~ in_rng l h v}.
Proof.
  destruct v as [[x y] z]. unfold in_rng.
  repeat match goal with |- context [(?a <= ?b <= ?c)%Z] =>
    let P := fresh "P" in remember (a <= b <= c)%Z as P eqn:EP;
    assert ({P} + {~ P}) by (subst P; destruct (Z_le_dec a b); [destruct (Z_le_dec b c)|]; [left|right|right]; tauto);
    clear EP end.
  tauto.
Qed.

Lemma pos2voxel_pv p axis : pos2voxel_ glo (vmap inv_width gw) nv p axis =
  pv (vnth glo axis) (inv_width (vnth gw axis)) (vnth nv axis) (vnth p axis).
Proof. unfold pos2voxel_, pv. destruct axis as [|[|]]; reflexivity. Qed.

Lemma vox_add_prim_adds i l h :
  adds (vox_add_prim glo (vmap inv_width gw) nv (i, (l, h))) (fun v => if in_rng_dec l h v then [i] else []).
Proof.
  unfold vox_add_prim.
  set (P := pos2voxel_ glo (vmap inv_width gw) nv).
  assert (R0 : forall p, (0 <= P p 0%nat < vx nv)%Z) by (intros; unfold P; rewrite pos2voxel_pv; now apply pv_range).
  assert (R1 : forall p, (0 <= P p 1%nat < vy nv)%Z) by (intros; unfold P; rewrite pos2voxel_pv; now apply pv_range).
  assert (R2 : forall p, (0 <= P p 2%nat < vz nv)%Z) by (intros; unfold P; rewrite pos2voxel_pv; now apply pv_range).
  eapply adds_ext.
  - apply for_each_adds. intros z Hz. apply in_zrange in Hz.
    apply for_each_adds. intros y Hy. apply in_zrange in Hy.
    apply for_each_adds. intros x Hx. apply in_zrange in Hx.
    apply vox_add_adds. pose proof (R0 l); pose proof (R0 h); pose proof (R1 l); pose proof (R1 h).
    pose proof (R2 l); pose proof (R2 h). cbn. lia.
  - intros [[x' y'] z'] Hv. cbn beta.
    transitivity (concat (map (fun z => if (z =? z')%Z then
       (if in_dec Z.eq_dec y' (zrange (P l 1%nat) (P h 1%nat + 1)) then
          if in_dec Z.eq_dec x' (zrange (P l 0%nat) (P h 0%nat + 1)) then [i] else [] else []) else [])
       (zrange (P l 2%nat) (P h 2%nat + 1)))).
    + f_equal. apply map_ext. intros z. destruct (z =? z')%Z.
      * transitivity (concat (map (fun y => if (y =? y')%Z then
          if in_dec Z.eq_dec x' (zrange (P l 0%nat) (P h 0%nat + 1)) then [i] else [] else [])
          (zrange (P l 1%nat) (P h 1%nat + 1)))).
        -- f_equal. apply map_ext. intros y. destruct (y =? y')%Z.
           ++ apply concat_indicator, NoDup_zrange.
           ++ apply concat_nils.
        -- apply concat_indicator, NoDup_zrange.
      * transitivity (concat (map (fun _ : Z => @nil nat) (zrange (P l 1%nat) (P h 1%nat + 1)))).
        -- f_equal. apply map_ext. intros y. apply concat_nils.
        -- apply concat_nils.
    + rewrite concat_indicator by apply NoDup_zrange.
      destruct (in_rng_dec l h (x', y', z')) as [I|I].
      * unfold in_rng in I. fold P in I. destruct I as (I1&I2&I3).
        destruct (in_dec Z.eq_dec z' _) as [|N]; [|exfalso; apply N; apply in_zrange; lia].
        destruct (in_dec Z.eq_dec y' _) as [|N]; [|exfalso; apply N; apply in_zrange; lia].
        destruct (in_dec Z.eq_dec x' _) as [|N]; [|exfalso; apply N; apply in_zrange; lia].
        reflexivity.
      * destruct (in_dec Z.eq_dec z' _) as [J1|]; [|reflexivity].
        destruct (in_dec Z.eq_dec y' _) as [J2|]; [|reflexivity].
        destruct (in_dec Z.eq_dec x' _) as [J3|]; [|reflexivity].
        apply in_zrange in J1, J2, J3. exfalso. apply I. unfold in_rng. fold P. lia.
Qed.

Lemma fill_adds bounds k :
  adds (for_each (vox_add_prim glo (vmap inv_width gw) nv) (combine (seq k (length bounds)) bounds))
   (fun v => concat (map (fun p => if in_rng_dec (fst (snd p)) (snd (snd p)) v then [fst p] else [])
                         (combine (seq k (length bounds)) bounds))).
Proof.
  apply for_each_adds with (g := fun p v => if in_rng_dec (fst (snd p)) (snd (snd p)) v then [fst p] else []).
  intros [i [l h]] _. apply vox_add_prim_adds.
Qed.

Lemma fill_in bounds v : forall k i,
  In i (concat (map (fun p => if in_rng_dec (fst (snd p)) (snd (snd p)) v then [fst p] else [])
                         (combine (seq k (length bounds)) bounds))) <->
  (k <= i < k + length bounds)%nat /\
  in_rng (fst (nth (i - k) bounds (vzero, vzero))) (snd (nth (i - k) bounds (vzero, vzero))) v.
Proof.
  induction bounds as [|b bs IH]; intros k i; cbn [length seq combine map concat].
  - split; [intros []|lia].
  - rewrite in_app_iff, IH. cbn [fst snd]. destruct (in_rng_dec (fst b) (snd b) v) as [I|I]; cbn [In].
    + split.
      * intros [[->|[]]|(A&B)]; [rewrite Nat.sub_diag; split; [lia|exact I]|].
        split; [lia|]. replace (i - k)%nat with (S (i - S k)) by lia. exact B.
      * intros (A&B). destruct (Nat.eq_dec k i) as [->|]; [left; now left|]. right.
        split; [lia|]. replace (i - k)%nat with (S (i - S k)) in B by lia. exact B.
    + split.
      * intros [[]|(A&B)]. split; [lia|]. replace (i - k)%nat with (S (i - S k)) by lia. exact B.
      * intros (A&B). right. destruct (Nat.eq_dec k i) as [->|].
        -- rewrite Nat.sub_diag in B. contradiction.
        -- split; [lia|]. replace (i - k)%nat with (S (i - S k)) in B by lia. exact B.
Qed.
Lemma fill_nodup bounds v : forall k,
  NoDup (concat (map (fun p => if in_rng_dec (fst (snd p)) (snd (snd p)) v then [fst p] else [])
                         (combine (seq k (length bounds)) bounds))).
Proof.
  induction bounds as [|b bs IH]; intros k; cbn [length seq combine map concat]; [constructor|].
  apply NoDup_app_i; [destruct in_rng_dec; repeat constructor; auto|apply IH|].
  intros x Hx Hy. apply fill_in in Hy. destruct in_rng_dec; cbn in Hx; [|contradiction].
  destruct Hx as [<-|[]]. lia.
Qed.
End Fill.

(** ** The constructor *)
Lemma agg_vle bounds : bounds <> [] -> Forall (fun b => vle (fst b) (snd b)) bounds ->
  vle (agg_lo bounds) (agg_hi bounds).
Proof.
  intros H HV. destruct bounds as [|b0 bs]; [congruence|].
  destruct (agg_bounds_finite (b0 :: bs) H) as [_ F].
  destruct (F (fst b0) (snd b0)) as [A B]; [left; now destruct b0|].
  apply Forall_inv in HV. unfold vle in *. lra.
Qed.

Theorem grid_make_total bounds : Forall (fun b => vle (fst b) (snd b)) bounds ->
  (exists g, grid_make bounds = Ok g) <-> bounds <> [] /\ agg_lo bounds <> agg_hi bounds.
Proof.
  intros HV. destruct bounds as [|b0 bs]; [cbn; split; [intros (g&H); discriminate|intros ([]&_); reflexivity]|].
  set (bounds := b0 :: bs) in *.
  assert (NE : bounds <> []) by discriminate.
  pose proof (agg_vle bounds NE HV) as HL.
  destruct (agg_bounds_finite bounds NE) as [EB _].
  destruct (maximum_extent_fbox (agg_lo bounds) (agg_hi bounds)) as [M1 M2].
  cbv beta delta [grid_make] iota. fold bounds.
  change (match bounds with [] => Err ValueError | _ :: _ => ?x end) with x.
  cbv zeta. rewrite EB. set (ax := maximum_extent (fbox (agg_lo bounds) (agg_hi bounds))) in *.
  assert (VS : forall k, vnth (vsub (agg_hi bounds) (agg_lo bounds)) k = vnth (agg_hi bounds) k - vnth (agg_lo bounds) k).
  { intros [|[|]]; reflexivity. }
  split.
  - intros (g&H). split; [exact NE|]. intros E. rewrite VS, E in H.
    replace (vnth (agg_hi bounds) ax - vnth (agg_hi bounds) ax) with 0 in H by ring.
    destruct (Reqb 0 0) eqn:Q; [discriminate|]. Rb. lra.
  - intros [_ HD]. destruct (Reqb _ 0) eqn:Q; Rb.
    + exfalso. apply HD. rewrite VS in Q.
      pose proof (M2 0%nat ltac:(lia)); pose proof (M2 1%nat ltac:(lia)); pose proof (M2 2%nat ltac:(lia)).
      unfold vle in HL. cbn [vnth] in *. apply V3_eq; lra.
    + set (nv := vmap (n_vox _ _) _). set (w := vmap2 _ _ _).
      destruct (fill_adds (agg_lo bounds) w nv) with (bounds := bounds) (k := 0%nat)
        (vox := repeat (@nil nat) (Z.to_nat (vx nv * vy nv * vz nv))) as (vox&E&_).
      * apply n_vox_range.
      * apply n_vox_range.
      * apply n_vox_range.
      * unfold vlen. apply repeat_length.
      * rewrite E. cbn [bind]. eauto.
Qed.

Theorem grid_make_spec bounds g : Forall (fun b => vle (fst b) (snd b)) bounds -> grid_make bounds = Ok g ->
  (forall k, (k < 3)%nat -> (1 <= vnth (g_nv g) k <= 64)%Z) /\
  Z.of_nat (length (g_vox g)) = (vx (g_nv g) * vy (g_nv g) * vz (g_nv g))%Z /\
  g_lo g = agg_lo bounds /\ g_hi g = agg_hi bounds /\
  (forall k, (k < 3)%nat -> 0 <= vnth (g_w g) k /\
      vnth (g_lo g) k + IZR (vnth (g_nv g) k) * vnth (g_w g) k = vnth (g_hi g) k /\
      (vnth (g_w g) k = 0 -> vnth (g_nv g) k = 1%Z)) /\
  g_iw g = vmap inv_width (g_w g) /\
  (forall x y z i, valid_voxel g x y z ->
     (In i (voxel_prims g x y z) <-> (i < length bounds)%nat /\
       exists p, between (fst (nth i bounds (vzero, vzero))) p (snd (nth i bounds (vzero, vzero))) /\
                 in_voxel g x y z p)) /\
  (forall x y z, valid_voxel g x y z -> NoDup (voxel_prims g x y z)).
Proof.
  intros HV HG. destruct bounds as [|b0 bs]; [discriminate|].
  set (bounds := b0 :: bs) in *.
  assert (NE : bounds <> []) by discriminate.
  pose proof (agg_vle bounds NE HV) as HL.
  destruct (agg_bounds_finite bounds NE) as [EB FB].
  cbv beta delta [grid_make] iota in HG.
  change (match bounds with [] => Err ValueError | _ :: _ => ?x end) with x in HG.
  cbv zeta in HG. destruct (Reqb _ 0) eqn:Q in HG; [discriminate|]. clear Q.
  set (nv := vmap (n_vox _ _) _) in HG. set (w := vmap2 _ _ _) in HG.
  assert (RN : forall k, (k < 3)%nat -> (1 <= vnth nv k <= 64)%Z).
  { intros k _. destruct k as [|[|]]; apply n_vox_range. }
  pose proof (RN 0%nat ltac:(lia)) as R0. pose proof (RN 1%nat ltac:(lia)) as R1. pose proof (RN 2%nat ltac:(lia)) as R2.
  cbn [vnth] in R0, R1, R2.
  destruct (fill_adds (agg_lo bounds) w nv ltac:(lia) ltac:(lia) ltac:(lia) bounds 0%nat
        (repeat (@nil nat) (Z.to_nat (vx nv * vy nv * vz nv)))) as (vox&E&VL&C).
  { unfold vlen. apply repeat_length. }
  rewrite E in HG. cbn [bind] in HG. injection HG as <-. cbn [g_nv g_vox g_lo g_hi g_w g_iw].
  assert (WD : forall k, (k < 3)%nat -> 0 <= vnth w k /\ vnth (agg_lo bounds) k + IZR (vnth nv k) * vnth w k = vnth (agg_hi bounds) k /\
      (vnth w k = 0 -> vnth nv k = 1%Z)).
  { intros k Hk. pose proof (RN k Hk) as [RK _].
    assert (WK : vnth w k = (vnth (agg_hi bounds) k - vnth (agg_lo bounds) k) / IZR (vnth nv k)) by (destruct k as [|[|]]; reflexivity).
    assert (LK : vnth (agg_lo bounds) k <= vnth (agg_hi bounds) k).
    { destruct HL as (HL1&HL2&HL3). destruct k as [|[|]]; [exact HL1|exact HL2|exact HL3]. }
    assert (NK : 1 <= IZR (vnth nv k)) by (apply IZR_le; lia).
    rewrite WK. split; [|split].
    - apply Rmult_le_pos; [lra|]. apply Rlt_le, Rinv_0_lt_compat. lra.
    - field. lra.
    - intros WZ. assert (D0 : vnth (agg_hi bounds) k - vnth (agg_lo bounds) k = 0).
      { apply Rmult_eq_reg_r with (/ IZR (vnth nv k)); [|apply Rinv_neq_0_compat; lra]. unfold Rdiv in WZ. lra. }
      unfold nv. assert (VM : forall f (v : vec), vnth (vmap f v) k = f (vnth v k) :> Z) by (intros; destruct k as [|[|]]; reflexivity).
      rewrite VM. assert (VS : vnth (vsub (agg_hi bounds) (agg_lo bounds)) k = vnth (agg_hi bounds) k - vnth (agg_lo bounds) k) by (destruct k as [|[|]]; reflexivity).
      rewrite VS, D0. apply n_vox_flat. }
  assert (CN : forall x y z i, (0 <= x < vx nv /\ 0 <= y < vy nv /\ 0 <= z < vz nv)%Z ->
    voxel_prims (mkGrid (agg_lo bounds) (agg_hi bounds) nv w (vmap inv_width w) vox) x y z = i ->
    i = concat (map (fun p => if in_rng_dec (agg_lo bounds) w nv (fst (snd p)) (snd (snd p)) (x, y, z) then [fst p] else [])
                         (combine (seq 0 (length bounds)) bounds))).
  { intros x y z i Hv <-. unfold voxel_prims. cbn [g_nv g_vox].
    pose proof (C (x, y, z) Hv) as K. cbn [cont] in K. unfold goffset in K. rewrite K.
    replace (nth _ (repeat _ _) _) with (@nil nat); [reflexivity|].
    symmetry. apply (nth_repeat (@nil nat)). }
  split; [exact RN|]. split; [unfold vlen in VL; rewrite VL; apply Z2Nat.id; repeat apply Z.mul_nonneg_nonneg; lia|].
  split; [reflexivity|]. split; [reflexivity|]. split; [exact WD|]. split; [reflexivity|]. split.
  - intros x y z i Hv. unfold valid_voxel in Hv. cbn [g_nv] in Hv.
    rewrite (CN x y z _ Hv eq_refl). rewrite fill_in, Nat.sub_0_r.
    cbn [Nat.add]. split.
    + intros (Hi&HI). split; [lia|]. set (b := nth i bounds (vzero, vzero)) in *.
      assert (Hb : In b bounds) by (apply nth_In; lia).
      rewrite Forall_forall in HV. pose proof (HV b Hb) as Vb.
      destruct (FB (fst b) (snd b)) as [B1 B2]; [now rewrite <- surjective_pairing|].
      unfold in_rng in HI. rewrite !pos2voxel_pv in HI. destruct HI as (I0&I1&I2).
      destruct (WD 0%nat ltac:(lia)) as (W0&W0'&W0''). destruct (WD 1%nat ltac:(lia)) as (W1&W1'&W1'').
      destruct (WD 2%nat ltac:(lia)) as (W2&W2'&W2''). cbn [vnth] in *. unfold vle in *.
      apply pv_between in I0; try tauto; try lra; try lia.
      apply pv_between in I1; try tauto; try lra; try lia.
      apply pv_between in I2; try tauto; try lra; try lia.
      destruct I0 as (p0&A0&C0), I1 as (p1&A1&C1), I2 as (p2&A2&C2).
      exists (mkV p0 p1 p2). unfold between, in_voxel, vle. cbn. tauto.
    + intros (Hi&p&Bp&Cp). split; [lia|]. set (b := nth i bounds (vzero, vzero)) in *.
      assert (Hb : In b bounds) by (apply nth_In; lia).
      rewrite Forall_forall in HV. pose proof (HV b Hb) as Vb.
      destruct (FB (fst b) (snd b)) as [B1 B2]; [now rewrite <- surjective_pairing|].
      unfold in_rng. rewrite !pos2voxel_pv.
      destruct (WD 0%nat ltac:(lia)) as (W0&W0'&W0''). destruct (WD 1%nat ltac:(lia)) as (W1&W1'&W1'').
      destruct (WD 2%nat ltac:(lia)) as (W2&W2'&W2''). cbn [vnth] in *. unfold between, vle, in_voxel in *.
      cbn [g_lo g_w g_nv] in Cp. destruct Cp as (C0&C1&C2).
      split; [|split]; apply pv_between; try tauto; try lra; try lia.
      * exists (vx p). split; [lra|exact C0].
      * exists (vy p). split; [lra|exact C1].
      * exists (vz p). split; [lra|exact C2].
  - intros x y z Hv. unfold valid_voxel in Hv. cbn [g_nv] in Hv.
    rewrite (CN x y z _ Hv eq_refl). apply fill_nodup.
Qed.

(** Every point of the bounds has exactly one cell, the one pos2voxel computes. *)
Theorem grid_pos2voxel bounds g p : Forall (fun b => vle (fst b) (snd b)) bounds -> grid_make bounds = Ok g ->
  valid_voxel g (pos2voxel g p 0) (pos2voxel g p 1) (pos2voxel g p 2) /\
  (between (agg_lo bounds) p (agg_hi bounds) -> forall x y z, valid_voxel g x y z ->
     (in_voxel g x y z p <-> x = pos2voxel g p 0 /\ y = pos2voxel g p 1 /\ z = pos2voxel g p 2)).
Proof.
  intros HV HG. destruct (grid_make_spec bounds g HV HG) as (RN&VL&EL&EH&WD&IW&_&_).
  pose proof (RN 0%nat ltac:(lia)) as R0. pose proof (RN 1%nat ltac:(lia)) as R1. pose proof (RN 2%nat ltac:(lia)) as R2.
  unfold pos2voxel. rewrite IW, !pos2voxel_pv. cbn [vnth] in *.
  destruct (WD 0%nat ltac:(lia)) as (W0&W0'&W0''). destruct (WD 1%nat ltac:(lia)) as (W1&W1'&W1'').
  destruct (WD 2%nat ltac:(lia)) as (W2&W2'&W2''). cbn [vnth] in *.
  split; [unfold valid_voxel; repeat split; try (apply pv_range; lia)|].
  intros Bp x y z (V0&V1&V2). rewrite <- EL, <- EH in Bp. unfold between, vle in Bp.
  unfold in_voxel.
  rewrite <- (pv_cell (vx (g_lo g)) (vx (g_w g)) (vx (g_nv g)) x (vx p)) by (try tauto; try lra; try lia).
  rewrite <- (pv_cell (vy (g_lo g)) (vy (g_w g)) (vy (g_nv g)) y (vy p)) by (try tauto; try lra; try lia).
  rewrite <- (pv_cell (vz (g_lo g)) (vz (g_w g)) (vz (g_nv g)) z (vz p)) by (try tauto; try lra; try lia).
  intuition.
Qed.
