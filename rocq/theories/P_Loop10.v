(** Subdivision commutes with affine maps. *)
From Coq Require Import Reals Lra List Bool Arith Lia.
From Verif Require Import Base M_Geometry M_Loop S_Loop P_Loop1 P_Loop2 P_Loop4 P_Loop5 P_Loop7 P_Loop8.
Import ListNotations.
Open Scope R_scope.

Section Aff.
Variable A : vec -> vec.
Hypothesis AF : affine A.
Definition mvv (x : vert) : vert := mkVt (A (vP x)) (vstart x) (vbnd x) (vreg x).
Lemma aff_sum l x w : A (vadd (vscale (1 - INR (length l) * w) x) (vscale w (vsum l))) =
  vadd (vscale (1 - INR (length l) * w) (A x)) (vscale w (vsum (map A l))).
Proof.
  destruct AF as (r1 & r2 & r3 & t & H).
  assert (S : vsum (map A l) = vadd (mkV (vdot r1 (vsum l)) (vdot r2 (vsum l)) (vdot r3 (vsum l))) (vscale (INR (length l)) t)).
  { induction l as [|y l IH].
    - cbn. unfold vdot, vadd, vscale, vzero, vmap, vmap2; cbn. f_equal; ring.
    - cbn [map length]. rewrite S_INR. unfold vsum; cbn [fold_right]; fold (vsum l). fold (vsum (map A l)). rewrite IH, H.
      unfold vdot, vadd, vscale, vmap, vmap2; cbn. f_equal; ring. }
  rewrite S, !H. unfold vdot, vadd, vscale, vmap, vmap2; cbn. f_equal; ring.
Qed.
Lemma aff_border x a b w : A (vadd (vscale (1 - 2 * w) x) (vscale w (vadd a b))) = vadd (vscale (1 - 2 * w) (A x)) (vscale w (vadd (A a) (A b))).
Proof. destruct AF as (r1 & r2 & r3 & t & H). rewrite !H. unfold vdot, vadd, vscale, vmap, vmap2; cbn. f_equal; ring. Qed.
Lemma aff_mid a b : A (vadd (vscale (1/2) a) (vscale (1/2) b)) = vadd (vscale (1/2) (A a)) (vscale (1/2) (A b)).
Proof. destruct AF as (r1 & r2 & r3 & t & H). rewrite !H. unfold vdot, vadd, vscale, vmap, vmap2; cbn. f_equal; field. Qed.
Lemma aff_edge a b c d : A (vadd (vadd (vadd (vscale (3/8) a) (vscale (3/8) b)) (vscale (1/8) c)) (vscale (1/8) d)) =
  vadd (vadd (vadd (vscale (3/8) (A a)) (vscale (3/8) (A b))) (vscale (1/8) (A c))) (vscale (1/8) (A d)).
Proof. destruct AF as (r1 & r2 & r3 & t & H). rewrite !H. unfold vdot, vadd, vscale, vmap, vmap2; cbn. f_equal; field. Qed.

Lemma getV_move m v : (v < length (mV m))%nat -> getV (move A m) v = mvv (getV m v).
Proof.
  intros H. unfold getV, move; cbn [mV]. rewrite (nth_indep _ _ (mvv (mkVt vzero 0 false false))) by (now rewrite map_length). apply (map_nth mvv).
Qed.
Lemma posn_move m v : (v < length (mV m))%nat -> posn (move A m) v = A (posn m v).
Proof. intros H. unfold posn. now rewrite getV_move. Qed.
Lemma valence_move m fuel v : (v < length (mV m))%nat -> valence (move A m) fuel v = valence m fuel v.
Proof. intros H. unfold valence, fan. rewrite (getV_move m v H). reflexivity. Qed.
Lemma ring_move m fuel v : (v < length (mV m))%nat -> one_ring (move A m) fuel v = one_ring m fuel v.
Proof. intros H. unfold one_ring, fan. rewrite (getV_move m v H). reflexivity. Qed.
Section One.
Variables (m : mesh) (fuel : nat).
Hypothesis SF : surface (tris m) (length (mV m)).
Hypothesis OK : mesh_ok m.
Hypothesis FU : (length (tris m) <= fuel)%nat.
Lemma w1_move v b p : (v < length (mV m))%nat -> weight_one_ring m fuel v b = ret p -> weight_one_ring (move A m) fuel v b = ret (A p).
Proof.
  intros Hv. destruct (ring_ok m SF OK fuel v Hv FU) as (ring & Q1 & Q2 & _ & LR & _). unfold weight_one_ring. rewrite valence_move, ring_move, Q1, Q2 by auto. cbn [rbind ret].
  intros H. injection H as <-. rewrite (fold_ring (move A m)), (fold_ring m), posn_move by auto.
  assert (Q : map (posn (move A m)) ring = map A (map (posn m) ring)).
  { rewrite map_map. apply map_ext_in. intros u Hu. apply posn_move. apply LR in Hu. now apply (linked_range _ _ _ _ SF Hu). }
  rewrite Q. pose proof (aff_sum (map (posn m) ring) (posn m v) b) as X. rewrite map_length in X. now rewrite X.
Qed.
Lemma wb_move v b p : (v < length (mV m))%nat -> weight_boundary m fuel v b = ret p -> weight_boundary (move A m) fuel v b = ret (A p).
Proof.
  intros Hv. destruct (ring_ok m SF OK fuel v Hv FU) as (ring & Q1 & Q2 & _ & LR & _). unfold weight_boundary. rewrite valence_move, ring_move, Q1, Q2 by auto. cbn [rbind ret].
  assert (RG : forall u, In u ring -> (u < length (mV m))%nat) by (intros u Hu; apply LR in Hu; now apply (linked_range _ _ _ _ SF Hu)).
  destruct ring as [|r0 ring]; [discriminate|]. intros H. injection H as <-.
  assert (IL : In (last (r0 :: ring) 0%nat) (r0 :: ring)).
  { assert (NN : r0 :: ring <> []) by discriminate. rewrite (app_removelast_last 0%nat NN) at 2. apply in_or_app. right. now left. }
  rewrite !posn_move by (auto; apply RG; now left). now rewrite aff_border.
Qed.
Lemma even_move v y : (v < length (mV m))%nat -> even_vert m fuel v = ret y -> even_vert (move A m) fuel v = ret (mvv y).
Proof.
  intros Hv. unfold even_vert.
  assert (X : forall p, even_pos m fuel v = ret p -> even_pos (move A m) fuel v = ret (A p)).
  { intros p. unfold even_pos. rewrite (getV_move m v Hv). cbn [mvv vbnd vreg]. destruct (vbnd (getV m v)); cbn [negb]; [now apply wb_move|].
    destruct (vreg (getV m v)); [now apply w1_move|]. rewrite valence_move by auto. destruct (valence m fuel v) as [[k|]|]; cbn [rbind]; try discriminate. now apply w1_move. }
  destruct (even_pos m fuel v) as [[p|]|]; cbn [rbind]; try discriminate. rewrite (X p eq_refl). cbn [rbind ret]. rewrite (getV_move m v Hv). cbn [mvv vstart vbnd vreg].
  change (getF (move A m)) with (getF m). destruct (vnum _ v); cbn [lift rbind]; try discriminate. intros H. injection H as <-. reflexivity.
Qed.
Lemma odd_move x y : In x (first_slots (tris m)) -> odd_vert m x = ret y -> odd_vert (move A m) x = ret (mvv y).
Proof.
  intros HIn. destruct (first_slots_spec (tris m)) as (_ & B & _). destruct (B x HIn) as [Q HF]. destruct x as [[a b] [F k]]. cbn [fst snd] in *.
  assert (Q2 : ekey a b = slot_key (tris m) (F, k)) by (unfold slot_key in *; cbn [fst snd] in *; rewrite <- (ekey_pair m (tri_at (tris m) F k)), <- Q; reflexivity).
  assert (AB : (a < length (mV m))%nat /\ (b < length (mV m))%nat).
  { unfold slot_key in Q; cbn [fst snd] in Q. pose proof (sf_range _ _ SF F k HF). pose proof (sf_range _ _ SF F (NEXT k) HF). unfold ekey in Q. destruct (Nat.ltb _ _) in Q; injection Q as -> ->; auto. }
  destruct AB as [Ha Hb]. unfold odd_vert. change (getF (move A m)) with (getF m). rewrite !posn_move by auto.
  destruct (at3 (ff (getF m F)) k) as [G|] eqn:NQ.
  - pose proof (proj1 OK F k G HF) as NB0. apply NB0 in NQ. destruct NQ as (HG & j & A1 & A2).
    assert (Q3 : ekey a b = slot_key (tris m) (G, j)) by (rewrite Q2; unfold slot_key; cbn; apply P_Loop3.ekey_eq; right; auto).
    rewrite (other_ok m SF F k a b HF Q2), (other_ok m SF G j a b HG Q3). cbn [lift rbind]. intros H. injection H as <-.
    rewrite !posn_move by now apply (sf_range _ _ SF). unfold mvv; cbn [vP vstart vbnd vreg]. now rewrite aff_edge.
  - intros H. injection H as <-. unfold mvv; cbn [vP vstart vbnd vreg]. now rewrite aff_mid.
Qed.
Lemma limit_move v p : (v < length (mV m))%nat -> limit_pos m fuel v = ret p -> limit_pos (move A m) fuel v = ret (A p).
Proof.
  intros Hv. unfold limit_pos. rewrite (getV_move m v Hv). cbn [mvv vbnd]. destruct (vbnd (getV m v)); [now apply wb_move|].
  rewrite valence_move by auto. destruct (valence m fuel v) as [[k|]|]; cbn [rbind]; try discriminate. now apply w1_move.
Qed.
End One.
Lemma mapR_trans {X Y Z} (f : X -> run Y) (g : X -> run Z) (h : Y -> Z) l ys : mapR f l = ret ys ->
  (forall x y, In x l -> f x = ret y -> g x = ret (h y)) -> mapR g l = ret (map h ys).
Proof.
  revert ys. induction l as [|x l IH]; intros ys Q H; cbn [mapR] in *.
  - injection Q as <-. reflexivity.
  - destruct (f x) as [[y|]|] eqn:F; cbn [rbind] in Q; try discriminate. rewrite (H x y (or_introl eq_refl) F). cbn [rbind ret].
    destruct (mapR f l) as [[bs|]|] eqn:M; cbn [rbind] in Q; try discriminate. injection Q as <-.
    rewrite (IH bs eq_refl) by (intros; apply H; auto; now right). reflexivity.
Qed.
Lemma refine1_move m fuel m' : surface (tris m) (length (mV m)) -> mesh_ok m -> (length (tris m) <= fuel)%nat ->
  refine1 fuel m = ret m' -> refine1 fuel (move A m) = ret (move A m').
Proof.
  intros SF OK FU. unfold refine1. change (tris (move A m)) with (tris m). change (mF (move A m)) with (mF m).
  assert (LM : length (mV (move A m)) = length (mV m)) by (unfold move; cbn [mV]; apply map_length). rewrite LM.
  destruct (mapR (even_vert m fuel) (seq 0 (length (mV m)))) as [[ev|]|] eqn:QE; cbn [rbind]; try discriminate.
  destruct (mapR (odd_vert m) (first_slots (tris m))) as [[od|]|] eqn:QO; cbn [rbind]; try discriminate.
  assert (CH : forall F, children (move A m) F = children m F).
  { intros F. assert (OI : forall k, odd_id (move A m) F k = odd_id m F k) by (intros k; unfold odd_id; rewrite LM; reflexivity).
    assert (CC : forall k, corner_child (move A m) F k = corner_child m F k) by (intros k; unfold corner_child; rewrite !OI; reflexivity).
    unfold children. rewrite !CC. unfold middle_child. unfold tab3. rewrite !OI. reflexivity. }
  rewrite (mapR_ext (children (move A m)) (children m)) by (intros; apply CH).
  destruct (mapR (children m) (seq 0 (length (mF m)))) as [[fs|]|] eqn:QF; cbn [rbind]; try discriminate.
  intros H. injection H as <-.
  rewrite (mapR_trans _ _ mvv _ _ QE) by (intros x y Hx Q; apply in_seq in Hx; apply even_move; auto; lia). cbn [rbind].
  rewrite (mapR_trans _ _ mvv _ _ QO) by (intros x y Hx Q; now apply odd_move). cbn [rbind].
  unfold move; cbn [mF mV]. rewrite map_app. reflexivity.
Qed.
Lemma levels_move fuel : (forall i, (i <= fuel i)%nat) -> forall n m m', surface (tris m) (length (mV m)) -> mesh_ok m ->
  levels n fuel m = ret m' -> levels n fuel (move A m) = ret (move A m').
Proof.
  intros FU. induction n as [|n IH]; intros m m' SF OK Q; cbn [levels] in *.
  - injection Q as <-. reflexivity.
  - destruct (refine1_ok m (fuel (length (mF m))) SF OK) as (m1 & Q1 & L); [rewrite tris_len; apply FU|].
    rewrite Q1 in Q. cbn [rbind ret] in Q. change (mF (move A m)) with (mF m).
    rewrite (refine1_move m _ m1 SF OK) by (auto; rewrite tris_len; apply FU). cbn [rbind ret]. apply IH; [apply (lo_surface _ _ L)|apply (lo_ok _ _ L)|exact Q].
Qed.
Lemma to_limit_move m fuel m' : surface (tris m) (length (mV m)) -> mesh_ok m -> (length (tris m) <= fuel)%nat ->
  to_limit fuel m = ret m' -> to_limit fuel (move A m) = ret (move A m').
Proof.
  intros SF OK FU. unfold to_limit. assert (LM : length (mV (move A m)) = length (mV m)) by (unfold move; cbn [mV]; apply map_length). rewrite LM.
  destruct (mapR (limit_pos m fuel) (seq 0 (length (mV m)))) as [[ps|]|] eqn:Q; cbn [rbind]; try discriminate. intros H. injection H as <-.
  rewrite (mapR_trans _ _ A _ _ Q) by (intros x y Hx Q'; apply in_seq in Hx; apply limit_move; auto; lia). cbn [rbind ret].
  unfold ret. f_equal. f_equal. unfold set_pos, move; cbn [mF mV]. f_equal.
  generalize (mV m). intros l. revert ps Q. intros ps _. revert ps. induction l as [|x l IH]; intros [|p ps]; cbn; auto. f_equal. apply IH.
Qed.
End Aff.
