(** Limit positions, hulls, the limit mask, normals. *)
From Coq Require Import Reals Lra List Bool Arith Lia Relations Permutation.
From Verif Require Import Base M_Geometry M_Loop S_Loop P_Loop1 P_Loop2 P_Loop3 P_Loop4 P_Loop5 P_Loop6 P_Loop7.
Import ListNotations.
Open Scope R_scope.

(** ** Hulls *)
Lemma vdot_add a x y : vdot a (vadd x y) = vdot a x + vdot a y.
Proof. unfold vdot, vadd, vmap2; cbn. ring. Qed.
Lemma vdot_scale a c y : vdot a (vscale c y) = c * vdot a y.
Proof. unfold vdot, vscale, vmap; cbn. ring. Qed.
Lemma vdot_sum_le a c l : (forall q, In q l -> vdot a q <= c) -> vdot a (vsum l) <= INR (length l) * c.
Proof.
  induction l as [|x l IH]; intros H.
  - cbn. unfold vdot, vzero; cbn. lra.
  - unfold vsum; cbn [fold_right]; fold (vsum l). rewrite vdot_add. cbn [length]. rewrite S_INR.
    pose proof (H x (or_introl eq_refl)). assert (vdot a (vsum l) <= INR (length l) * c) by (apply IH; intros; apply H; now right). lra.
Qed.
Lemma mean_le (w s t c : R) : 0 <= w -> 0 <= 1 - w -> s <= c -> t <= w * c -> (1 - w) * s + t <= c.
Proof. intros. assert ((1 - w) * s <= (1 - w) * c) by (apply Rmult_le_compat_l; auto). lra. Qed.
Lemma inner_hull ts P w v p ps : (forall k, 0 <= w k /\ INR k * w k <= 1) -> In (P v) ps -> (forall u, linked ts v u -> In (P u) ps) ->
  inner_rule ts P w v p -> in_hull ps p.
Proof.
  intros W Hv Hu (ws & _ & LW & ->) a c H. rewrite vdot_add, !vdot_scale. set (k := length ws). destruct (W k) as [W0 W1].
  apply mean_le.
  - apply Rmult_le_pos; auto. apply pos_INR.
  - lra.
  - now apply H.
  - rewrite Rmult_comm, (Rmult_comm (INR k)), Rmult_assoc, (Rmult_comm _ (w k)). apply Rmult_le_compat_l; [exact W0|].
    replace (INR k) with (INR (length (map P ws))) by (now rewrite map_length). apply vdot_sum_le.
    intros q Hq. apply in_map_iff in Hq as (u & <- & HIn). apply H, Hu, LW, HIn.
Qed.
Lemma border_hull ts P w v p ps : 0 <= w -> 2 * w <= 1 -> In (P v) ps -> (forall u, linked ts v u -> In (P u) ps) ->
  border_rule ts P w v p -> in_hull ps p.
Proof.
  intros W0 W1 Hv Hu (a & b & (A & _) & (B & _) & ->) d c H. rewrite vdot_add, !vdot_scale, vdot_add.
  pose proof (H _ Hv). assert (L1 : linked ts v a) by (destruct A as (F & A); exists F; auto). assert (L2 : linked ts v b) by (destruct B as (F & B); exists F; auto).
  pose proof (H _ (Hu _ L1)). pose proof (H _ (Hu _ L2)). apply mean_le; auto; try lra.
  apply Rle_trans with (w * (c + c)); [apply Rmult_le_compat_l; lra|lra].
Qed.
Lemma edge_hull ts P a b p ps : (forall u, (exists F, touches ts F u) -> In (P u) ps) -> edge_rule ts P a b p -> in_hull ps p.
Proof.
  intros Hu R d c H.
  assert (X : forall u, (exists F, touches ts F u) -> vdot d (P u) <= c) by auto.
  assert (L : forall x y F, dedge ts x y F -> vdot d (P x) <= c) by (intros x y F D; apply X; exists F; eapply touches_of_dedge_l; eauto).
  assert (L' : forall x y F, dedge ts x y F -> vdot d (P y) <= c) by (intros x y F D; apply X; exists F; eapply touches_of_dedge_r; eauto).
  destruct R as [[B ->]|(c1 & d1 & F & G & A1 & A2 & _ & A4 & A5 & _ & ->)]; rewrite vdot_add, !vdot_scale, ?vdot_add.
  - assert (vdot d (P a) <= c /\ vdot d (P b) <= c) as [? ?] by (destruct B as [[(F & B) _]|[(F & B) _]]; split; eauto). lra.
  - pose proof (L _ _ _ A1). pose proof (L' _ _ _ A1). pose proof (L' _ _ _ A2). pose proof (L' _ _ _ A5). lra.
Qed.
Lemma beta_conv k : 0 <= loop_beta k /\ INR k * loop_beta k <= 1.
Proof.
  unfold loop_beta. assert (G : forall j, 0 <= 3 / (8 * INR j) /\ INR j * (3 / (8 * INR j)) <= 1).
  { intros j. pose proof (pos_INR j). destruct (Req_dec (INR j) 0) as [-> |N].
    - replace (8 * 0) with 0 by ring. unfold Rdiv. rewrite Rinv_0. lra.
    - split; [|replace (INR j * (3 / (8 * INR j))) with (3 / 8) by (field; auto); lra].
      unfold Rdiv. apply Rmult_le_pos; [lra|]. left. apply Rinv_0_lt_compat. lra. }
  destruct k as [|[|[|[|k]]]]; try apply G. cbn. lra.
Qed.
Lemma gamma_conv k : 0 <= gamma k /\ INR k * gamma k <= 1.
Proof.
  pose proof (beta_conv k) as [B _]. rewrite <- beta_loop in B. unfold gamma. pose proof (pos_INR k).
  assert (0 < 3 / (8 + beta k)) by (apply Rdiv_lt_0_compat; lra). set (t := 3 / (8 + beta k)) in *. clearbody t.
  split; [left; apply Rdiv_lt_0_compat; lra|]. unfold Rdiv. rewrite Rmult_1_l.
  apply (Rmult_le_reg_r (INR k + t)); [lra|]. rewrite Rmult_assoc, Rinv_l by lra. lra.
Qed.
Lemma posn_in m v : (v < length (mV m))%nat -> In (posn m v) (map vP (mV m)).
Proof. intros H. unfold posn. apply in_map. now apply nth_In. Qed.
Lemma hull_trans ps qs p : (forall q, In q qs -> in_hull ps q) -> in_hull qs p -> in_hull ps p.
Proof. intros H1 H2 a c H. apply H2. intros q Hq. now apply H1. Qed.
Lemma hull_self ps p : In p ps -> in_hull ps p. Proof. intros H a c X. auto. Qed.
Lemma linked_range ts nv a b : surface ts nv -> linked ts a b -> (a < nv)%nat /\ (b < nv)%nat /\ a <> b.
Proof.
  intros SF H. apply linked_slot in H as (F & k & HF & Q).
  pose proof (sf_range ts nv SF F k HF). pose proof (sf_range ts nv SF F (NEXT k) HF).
  assert (tri_at ts F k <> tri_at ts F (NEXT k)) by (intros Z; apply (sf_inj ts nv SF) in Z; auto; now destruct k).
  destruct Q as [[-> ->]|[-> ->]]; auto.
Qed.
Lemma touches_range ts nv F v : surface ts nv -> touches ts F v -> (v < nv)%nat.
Proof. intros SF (k & HF & <-). now apply (sf_range ts nv SF). Qed.
Lemma border_dec m v : mesh_ok m -> (v < length (mV m))%nat -> on_border (tris m) v \/ ~ on_border (tris m) v.
Proof.
  intros OK Hv. pose proof (proj1 (proj2 (proj2 OK)) v Hv) as B. destruct (vbnd (getV m v)); [left; now apply B|right; intros X; apply B in X; discriminate].
Qed.
Lemma in_posn m q : In q (map vP (mV m)) -> exists v, (v < length (mV m))%nat /\ q = posn m v.
Proof.
  intros H. apply (In_nth _ _ vzero) in H as (v & Hv & <-). rewrite map_length in Hv. exists v. split; [exact Hv|].
  unfold posn, getV. change vzero with (vP (mkVt vzero 0 false false)) at 1. now rewrite map_nth.
Qed.
Lemma level_hull m m' : surface (tris m) (length (mV m)) -> mesh_ok m -> level_ok m m' -> forall q, In q (map vP (mV m')) -> in_hull (map vP (mV m)) q.
Proof.
  intros SF OK L q Hq. apply in_posn in Hq as (v & Hv & ->).
  assert (LI : forall u w, linked (tris m) u w -> In (posn m w) (map vP (mV m))) by (intros u w X; apply posn_in; now apply (linked_range _ _ _ _ SF X)).
  destruct (lt_dec v (length (mV m))) as [O|O].
  - destruct (lo_old _ _ L v O) as [B I0]. destruct (border_dec m v OK O) as [X|X].
    + apply (border_hull (tris m) (posn m) (1/8) v); [lra|lra|now apply posn_in|apply LI|auto].
    + apply (inner_hull (tris m) (posn m) loop_beta v); [apply beta_conv|now apply posn_in|apply LI|auto].
  - destruct (lo_new _ _ L v) as (a & b & X & E); [lia|]. apply (edge_hull (tris m) (posn m) a b).
    + intros u (F & T). apply posn_in. now apply (touches_range _ _ _ _ SF T).
    + now apply (lo_edge _ _ L).
Qed.
Lemma levels_hull fuel : (forall i, (i <= fuel i)%nat) -> forall n m m', surface (tris m) (length (mV m)) -> mesh_ok m -> levels n fuel m = ret m' ->
  forall q, In q (map vP (mV m')) -> in_hull (map vP (mV m)) q.
Proof.
  intros FU n. induction n as [|n IH]; intros m m' SF OK Q q Hq; cbn [levels] in Q.
  - injection Q as ->. now apply hull_self.
  - destruct (refine1_ok m (fuel (length (mF m))) SF OK) as (m1 & Q1 & L); [rewrite tris_len; apply FU|].
    rewrite Q1 in Q. cbn [rbind ret] in Q. apply (hull_trans _ (map vP (mV m1))).
    + now apply (level_hull m m1).
    + now apply (IH m1 m' (lo_surface _ _ L) (lo_ok _ _ L) Q).
Qed.

(** ** Limit positions *)
Record limit_ok (m m2 : mesh) : Prop := {
  li_F : mF m2 = mF m;
  li_V : length (mV m2) = length (mV m);
  li_flags : forall v, (v < length (mV m))%nat -> vstart (getV m2 v) = vstart (getV m v) /\ vbnd (getV m2 v) = vbnd (getV m v) /\ vreg (getV m2 v) = vreg (getV m v);
  li_rule : forall v, (v < length (mV m))%nat ->
    (on_border (tris m) v -> border_rule (tris m) (posn m) (1/5) v (posn m2 v)) /\
    (~ on_border (tris m) v -> inner_rule (tris m) (posn m) gamma v (posn m2 v)) }.
Lemma set_pos_nth m ps v : length ps = length (mV m) -> (v < length (mV m))%nat ->
  getV (set_pos m ps) v = mkVt (nth v ps vzero) (vstart (getV m v)) (vbnd (getV m v)) (vreg (getV m v)).
Proof.
  intros L H. unfold set_pos, getV; cbn [mV].
  set (g := fun x : vert * vec => mkVt (snd x) (vstart (fst x)) (vbnd (fst x)) (vreg (fst x))).
  change (mkVt vzero 0 false false) with (g (mkVt vzero 0 false false, vzero)) at 1. rewrite map_nth, combine_nth by congruence. reflexivity.
Qed.
Lemma limit_pos_ok m fuel v : surface (tris m) (length (mV m)) -> mesh_ok m -> (length (tris m) <= fuel)%nat -> (v < length (mV m))%nat ->
  exists p, limit_pos m fuel v = ret p /\ (on_border (tris m) v -> border_rule (tris m) (posn m) (1/5) v p) /\
    (~ on_border (tris m) v -> inner_rule (tris m) (posn m) gamma v p).
Proof.
  intros SF OK FU Hv. pose proof (proj1 (proj2 (proj2 OK)) v Hv) as B. unfold limit_pos. destruct (vbnd (getV m v)) eqn:Q.
  - destruct (boundary_rule m SF OK fuel v (1/5) Hv FU Q) as (p & A & R). exists p. split; [exact A|]. split; auto. intros X. exfalso. apply X. now apply B.
  - destruct (one_ring_rule m SF OK fuel v gamma Hv FU) as (r & p & A & _ & C & R). exists p. rewrite A. cbn [rbind ret]. split; [exact C|]. split; auto.
    intros X. apply B in X. discriminate.
Qed.
Lemma to_limit_ok m fuel : surface (tris m) (length (mV m)) -> mesh_ok m -> (length (tris m) <= fuel)%nat ->
  exists m2, to_limit fuel m = ret m2 /\ limit_ok m m2.
Proof.
  intros SF OK FU. unfold to_limit.
  destruct (mapR_ok (limit_pos m fuel) (fun v p => (on_border (tris m) v -> border_rule (tris m) (posn m) (1/5) v p) /\
    (~ on_border (tris m) v -> inner_rule (tris m) (posn m) gamma v p)) (seq 0 (length (mV m)))) as (ps & Q & F2).
  { intros v Hv. apply in_seq in Hv. apply limit_pos_ok; auto. lia. }
  rewrite Q. cbn [rbind ret]. exists (set_pos m ps). split; [reflexivity|].
  pose proof (Forall2_len _ _ _ F2) as LN. rewrite seq_length in LN.
  split.
  - reflexivity.
  - unfold set_pos; cbn [mV]. rewrite map_length, combine_length. lia.
  - intros v Hv. rewrite set_pos_nth by auto. auto.
  - intros v Hv. unfold posn at 2 4. rewrite set_pos_nth by auto. cbn [vP].
    pose proof (Forall2_nth _ _ _ v 0%nat vzero F2) as X. rewrite seq_length in X. specialize (X Hv). rewrite nth_seq0 in X by auto. exact X.
Qed.
Lemma limit_hull m m2 : surface (tris m) (length (mV m)) -> mesh_ok m -> limit_ok m m2 -> forall q, In q (map vP (mV m2)) -> in_hull (map vP (mV m)) q.
Proof.
  intros SF OK L q Hq. apply in_posn in Hq as (v & Hv & ->). rewrite (li_V _ _ L) in Hv.
  assert (LI : forall u w, linked (tris m) u w -> In (posn m w) (map vP (mV m))) by (intros u w X; apply posn_in; now apply (linked_range _ _ _ _ SF X)).
  destruct (li_rule _ _ L v Hv) as [B I0]. destruct (border_dec m v OK Hv) as [X|X].
  - apply (border_hull (tris m) (posn m) (1/5) v); [lra|lra|now apply posn_in|apply LI|auto].
  - apply (inner_hull (tris m) (posn m) gamma v); [apply gamma_conv|now apply posn_in|apply LI|auto].
Qed.
Lemma limit_mesh_ok m m2 : mesh_ok m -> limit_ok m m2 -> tris m2 = tris m /\ mesh_ok m2.
Proof.
  intros OK L. assert (T : tris m2 = tris m) by (unfold tris; now rewrite (li_F _ _ L)). split; [exact T|].
  destruct OK as (A & B & C & D). unfold mesh_ok. rewrite T, (li_V _ _ L). split; [|split; [|split]].
  - intros F k G HF. unfold getF. rewrite (li_F _ _ L). now apply A.
  - intros v Hv. destruct (li_flags _ _ L v Hv) as (-> & _ & _). auto.
  - intros v Hv. destruct (li_flags _ _ L v Hv) as (_ & -> & _). auto.
  - intros v Hv. destruct (li_flags _ _ L v Hv) as (_ & -> & ->). auto.
Qed.

(** ** The limit mask *)
Lemma vsum_const l c : (forall q, In q l -> q = c) -> vsum l = vscale (INR (length l)) c.
Proof.
  induction l as [|x l IH]; intros H.
  - cbn. unfold vscale, vzero, vmap. destruct c; cbn. f_equal; ring.
  - unfold vsum; cbn [fold_right]; fold (vsum l). rewrite IH by (intros; apply H; now right). rewrite (H x (or_introl eq_refl)). cbn [length]. rewrite S_INR.
    unfold vscale, vadd, vmap, vmap2. destruct c; cbn. f_equal; ring.
Qed.
Lemma inner_const ts P w v p a c k : degree ts v k -> P v = a -> (forall u, linked ts v u -> P u = c) -> inner_rule ts P w v p ->
  p = vadd (vscale (1 - INR k * w k) a) (vscale (INR k * w k) c).
Proof.
  intros D A C (ws & ND & LW & ->). assert (length ws = k) by (apply (degree_unique ts v); [now exists ws|exact D]). subst k. rewrite A.
  rewrite (vsum_const (map P ws) c). 2:{ intros q Hq. apply in_map_iff in Hq as (u & <- & HIn). now apply C, LW. }
  rewrite map_length. unfold vadd, vscale, vmap, vmap2. destruct a, c; cbn. f_equal; ring.
Qed.
Lemma beta_small k : (1 <= k)%nat -> 0 < beta k <= 3 / 8.
Proof.
  intros H. unfold beta. destruct (Nat.eqb_spec k 3); [lra|]. assert (1 <= INR k) by (replace 1 with (INR 1) by reflexivity; now apply le_INR).
  split; [apply Rdiv_lt_0_compat; lra|]. apply (Rmult_le_reg_r (8 * INR k)); [lra|]. unfold Rdiv at 1. rewrite Rmult_assoc, Rinv_l by lra. lra.
Qed.
Lemma mask_drift k : (1 <= k)%nat -> 1 - INR k * gamma k <> (1 - INR k * gamma k) * (1 - INR k * beta k) + INR k * gamma k * (3 / 8).
Proof.
  intros H. pose proof (beta_small k H) as [B0 B1]. assert (1 <= INR k) by (replace 1 with (INR 1) by reflexivity; now apply le_INR).
  unfold gamma. set (b := beta k) in *. clearbody b. set (x := INR k) in *. clearbody x.
  assert (0 < 3 / (8 + b)) by (apply Rdiv_lt_0_compat; lra).
  intros Q. assert (Q2 : (1 - x * (1 / (x + 3 / (8 + b)))) * (x * b) = x * (1 / (x + 3 / (8 + b))) * (3/8)) by lra.
  assert (G : x + 3 / (8 + b) <> 0) by lra.
  apply (f_equal (fun t => t * (x + 3 / (8 + b)))) in Q2.
  replace ((1 - x * (1 / (x + 3 / (8 + b)))) * (x * b) * (x + 3 / (8 + b))) with (3 / (8 + b) * (x * b)) in Q2 by (field; split; nra).
  replace (x * (1 / (x + 3 / (8 + b))) * (3 / 8) * (x + 3 / (8 + b))) with (x * (3 / 8)) in Q2 by (field; split; nra).
  assert (Q3 : 3 / (8 + b) * b = 3 / 8) by nra. apply (f_equal (fun t => t * (8 + b))) in Q3.
  replace (3 / (8 + b) * b * (8 + b)) with (3 * b) in Q3 by (field; lra). lra.
Qed.
