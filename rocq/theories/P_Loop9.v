(** Drift of the limit mask, normals, bounds. *)
From Coq Require Import Reals Lra List Bool Arith Lia Relations Permutation.
From Verif Require Import Base M_Geometry S_Geometry P_Geometry M_Loop S_Loop P_Loop1 P_Loop2 P_Loop3 P_Loop4 P_Loop5 P_Loop6 P_Loop7 P_Loop8.
Import ListNotations.
Open Scope R_scope.

Lemma interior_no_border m v b : surface (tris m) (length (mV m)) -> mesh_ok m -> (v < length (mV m))%nat -> ~ on_border (tris m) v ->
  ~ border (tris m) v b /\ ~ border (tris m) b v.
Proof.
  intros SF OK Hv NB0. split; [intros X; apply NB0; now exists b|]. intros [(F & D) NR].
  assert (NBm : forall F k G, (F < length (tris m))%nat -> (at3 (ff (getF m F)) k = Some G <-> dedge (tris m) (tri_at (tris m) F (NEXT k)) (tri_at (tris m) F k) G)) by apply OK.
  assert (STm : forall v, (v < length (mV m))%nat -> touches (tris m) (vstart (getV m v)) v) by apply OK.
  destruct (interior_fan m SF NBm STm (length (tris m)) v Hv (Dv_len _ _) NB0) as (l & _ & _ & TL & _ & _ & _ & LK).
  assert (L : linked (tris m) v b) by (exists F; auto). apply LK in L. apply in_map_iff in L as (G & Q & HG). apply TL in HG.
  destruct (nvo_ok m SF v G HG) as [_ D2]. rewrite Q in D2. apply NR. now exists G.
Qed.
Lemma degree_ex m v : surface (tris m) (length (mV m)) -> mesh_ok m -> (v < length (mV m))%nat -> exists k, (1 <= k)%nat /\ degree (tris m) v k.
Proof.
  intros SF OK Hv. pose proof (deg_old m _ SF OK (le_n _) v Hv) as D. eexists. split; [|exact D].
  destruct (sf_used _ _ SF v Hv) as (F & T). apply Dv_in in T. destruct (Dv (tris m) v); [destruct T|cbn; lia].
Qed.

Definition e1 : vec := mkV 1 0 0.
Section Drift.
Variables (m m' m2 m2' : mesh) (v : nat).
Hypothesis SF : surface (tris m) (length (mV m)).
Hypothesis OK : mesh_ok m.
Hypothesis Hv : (v < length (mV m))%nat.
Hypothesis Pv : posn m v = e1.
Hypothesis P0 : forall u, u <> v -> posn m u = vzero.
Hypothesis LV : level_ok m m'.
Hypothesis L2 : limit_ok m m2.
Hypothesis L2' : limit_ok m' m2'.
Lemma neigh0 u : linked (tris m) v u -> posn m u = vzero.
Proof. intros L. apply P0. apply (linked_range _ _ _ _ SF) in L as (_ & _ & N). auto. Qed.
Lemma Hv' : (v < length (mV m'))%nat.
Proof. destruct (surface_edges _ _ SF) as (e & He). destruct (lo_count _ _ LV e He) as [-> _]. lia. Qed.
Lemma drift_inner : ~ on_border (tris m) v -> posn m2 v <> posn m2' v.
Proof.
  intros NB0. destruct (degree_ex m v SF OK Hv) as (k & K1 & DK).
  pose proof (proj2 (li_rule _ _ L2 v Hv) NB0) as R1. rewrite (inner_const _ _ _ _ _ e1 vzero k DK Pv neigh0 R1).
  assert (DK' : degree (tris m') v k) by now apply (lo_deg _ _ LV).
  assert (NB' : ~ on_border (tris m') v) by (rewrite <- (lo_bnd _ _ LV v Hv); exact NB0).
  pose proof (proj2 (li_rule _ _ L2' v Hv') NB') as R2.
  pose proof (proj2 (lo_old _ _ LV v Hv) NB0) as R3. pose proof (inner_const _ _ _ _ _ e1 vzero k DK Pv neigh0 R3) as Q3.
  assert (NX : forall u, linked (tris m') v u -> posn m' u = vscale (3/8) e1).
  { intros u Hu. destruct (lo_link _ _ LV v u Hv Hu) as (b & L & EP). destruct (lo_edge _ _ LV v b u L EP) as (ER & _).
    destruct (interior_no_border m v b SF OK Hv NB0) as [N1 N2].
    destruct ER as [[[X|X] _]|(c & d & F & G & A1 & A2 & A3 & A4 & A5 & A6 & ->)]; [tauto|tauto|].
    rewrite Pv, (neigh0 b L), (P0 c A3). assert (LD : linked (tris m) v d) by (exists G; auto). rewrite (neigh0 d LD).
    unfold e1, vzero, vadd, vscale, vmap, vmap2; cbn. f_equal; ring. }
  rewrite (inner_const _ _ _ _ _ _ (vscale (3/8) e1) k DK' Q3 NX R2).
  rewrite <- !beta_loop. intros Q. apply (mask_drift k K1). apply (f_equal vx) in Q. unfold e1, vzero, vadd, vscale, vmap, vmap2 in Q. cbn [vx vy vz] in Q.
  ring_simplify in Q. ring_simplify. lra.
Qed.
Lemma drift_border : on_border (tris m) v -> posn m2 v <> posn m2' v.
Proof.
  intros B0. assert (B' : on_border (tris m') v) by (now apply (lo_bnd _ _ LV v Hv)).
  destruct (proj1 (li_rule _ _ L2 v Hv) B0) as (a & b & ((F1 & A) & _) & ((F2 & B) & _) & ->).
  assert (LA : linked (tris m) v a) by (eexists; eauto). assert (LB : linked (tris m) v b) by (eexists; eauto).
  rewrite Pv, (neigh0 a LA), (neigh0 b LB).
  destruct (proj1 (li_rule _ _ L2' v Hv') B') as (x & y & X & Y & ->).
  assert (MID : forall c z, border (tris m) v c \/ border (tris m) c v -> edge_point (length (mV m)) (tris m') v c z -> posn m' z = vscale (1/2) e1).
  { intros c z BC EP. assert (LC : linked (tris m) v c) by (destruct BC as [[(F & D) _]|[(F & D) _]]; exists F; auto).
    destruct (lo_edge _ _ LV v c z LC EP) as (ER & _). destruct ER as [[_ ->]|(c1 & d & F & G & A1 & A2 & A3 & A4 & A5 & A6 & _)].
    - rewrite Pv, (neigh0 c LC). unfold e1, vzero, vadd, vscale, vmap, vmap2; cbn. f_equal; ring.
    - exfalso. destruct BC as [[_ N]|[_ N]]; apply N; eexists; eauto. }
  destruct (lo_out _ _ LV v x Hv X) as (c & BC & EC). rewrite (MID c x (or_introl BC) EC).
  destruct (lo_in _ _ LV v y Hv Y) as (d & BD & (ED1 & ED2 & ED3)). rewrite (MID d y (or_intror BD)) by (repeat split; auto).
  destruct (proj1 (lo_old _ _ LV v Hv) B0) as (p & q & ((F3 & PB) & _) & ((F4 & QB) & _) & ->).
  assert (LP : linked (tris m) v p) by (eexists; eauto). assert (LQ : linked (tris m) v q) by (eexists; eauto).
  rewrite Pv, (neigh0 p LP), (neigh0 q LQ).
  intros Q. apply (f_equal vx) in Q. unfold e1, vzero, vadd, vscale, vmap, vmap2 in Q. cbn [vx vy vz] in Q. lra.
Qed.
End Drift.

(** moving the positions of a mesh keeps the references right *)
Lemma set_pos_ok m ps : length ps = length (mV m) -> mesh_ok m -> tris (set_pos m ps) = tris m /\ length (mV (set_pos m ps)) = length (mV m) /\ mesh_ok (set_pos m ps).
Proof.
  intros L OK. assert (LV : length (mV (set_pos m ps)) = length (mV m)) by (unfold set_pos; cbn [mV]; rewrite map_length, combine_length; lia).
  split; [reflexivity|]. split; [exact LV|]. destruct OK as (A & B & C & D). unfold mesh_ok. rewrite LV. change (tris (set_pos m ps)) with (tris m).
  split; [exact A|]. split; [|split]; intros v Hv; rewrite set_pos_nth by auto; cbn [vstart vbnd vreg]; auto.
Qed.
Definition spike (v n : nat) : list vec := map (fun u => if Nat.eqb u v then e1 else vzero) (seq 0 n).
Lemma spike_posn m v u : (v < length (mV m))%nat -> posn (set_pos m (spike v (length (mV m)))) u = if Nat.eqb u v then e1 else vzero.
Proof.
  intros Hv. assert (L : length (spike v (length (mV m))) = length (mV m)) by (unfold spike; now rewrite map_length, seq_length).
  destruct (lt_dec u (length (mV m))) as [H|H].
  - unfold posn. rewrite set_pos_nth by auto. cbn [vP]. unfold spike. set (g := fun u => if Nat.eqb u v then e1 else vzero).
    destruct (Nat.eq_dec v 0) as [Z|NZ].
    + rewrite nth_indep with (d' := g 0%nat) by (now rewrite map_length, seq_length). rewrite map_nth, nth_seq0 by auto. reflexivity.
    + rewrite nth_indep with (d' := g 0%nat) by (now rewrite map_length, seq_length). rewrite map_nth, nth_seq0 by auto. reflexivity.
  - unfold posn, getV. rewrite nth_overflow. { cbn. destruct (Nat.eqb_spec u v); [lia|reflexivity]. }
    unfold set_pos; cbn [mV]; rewrite map_length, combine_length; lia.
Qed.
Theorem limit_drifts m v fuel : surface (tris m) (length (mV m)) -> mesh_ok m -> (v < length (mV m))%nat -> (forall i, (i <= fuel i)%nat) ->
  exists ps, length ps = length (mV m) /\
    forall m1 m2 m2', to_limit (fuel (length (tris m))) (set_pos m ps) = ret m2 -> refine1 (fuel (length (tris m))) (set_pos m ps) = ret m1 ->
      to_limit (fuel (length (tris m1))) m1 = ret m2' -> posn m2 v <> posn m2' v.
Proof.
  intros SF OK Hv FU. exists (spike v (length (mV m))). assert (L : length (spike v (length (mV m))) = length (mV m)) by (unfold spike; now rewrite map_length, seq_length).
  split; [exact L|]. destruct (set_pos_ok m _ L OK) as (T & LV & OK'). intros m1 m2 m2' Q2 Q1 Q2'.
  assert (SF' : surface (tris (set_pos m (spike v (length (mV m))))) (length (mV (set_pos m (spike v (length (mV m))))))) by (rewrite T, LV; exact SF).
  destruct (to_limit_ok _ (fuel (length (tris m))) SF' OK') as (x & QX & LX); [rewrite T; apply FU|]. rewrite QX in Q2. injection Q2 as <-.
  destruct (refine1_ok _ (fuel (length (tris m))) SF' OK') as (y & QY & LY); [rewrite T; apply FU|]. rewrite QY in Q1. injection Q1 as <-.
  destruct (to_limit_ok _ (fuel (length (tris y))) (lo_surface _ _ LY) (lo_ok _ _ LY)) as (z & QZ & LZ); [apply FU|]. rewrite QZ in Q2'. injection Q2' as <-.
  assert (A1 : posn (set_pos m (spike v (length (mV m)))) v = e1) by (rewrite spike_posn, Nat.eqb_refl by auto; reflexivity).
  assert (A2 : forall u, u <> v -> posn (set_pos m (spike v (length (mV m)))) u = vzero) by (intros u N; rewrite spike_posn by auto; destruct (Nat.eqb_spec u v); [contradiction|reflexivity]).
  assert (A3 : (v < length (mV (set_pos m (spike v (length (mV m))))))%nat) by (rewrite LV; exact Hv).
  destruct (border_dec _ v OK' A3) as [X|X].
  - apply (drift_border _ y x z v SF' A3 A1 A2 LY LX LZ X).
  - apply (drift_inner _ y x z v SF' OK' A3 A1 A2 LY LX LZ X).
Qed.

(** ** Normals *)
Lemma refine_no_normals fuel nl m : surface (tris m) (length (mV m)) -> mesh_ok m -> (0 < length (mV m))%nat -> (forall i, (i <= fuel i)%nat) ->
  ~ on_border (tris m) 0 -> refine fuel nl m = Some (Err UnboundLocalError).
Proof.
  intros SF OK H0 FU NB0. destruct (levels_ok fuel FU nl m SF OK) as (m1 & Q1 & SF1 & OK1 & _).
  assert (X : forall n m m1, surface (tris m) (length (mV m)) -> mesh_ok m -> (0 < length (mV m))%nat -> levels n fuel m = ret m1 ->
     (0 < length (mV m1))%nat /\ (on_border (tris m1) 0 <-> on_border (tris m) 0)).
  { clear - FU. induction n as [|n IH]; intros m m1 SF OK H0 Q; cbn [levels] in Q; [injection Q as ->; tauto|].
    destruct (refine1_ok m (fuel (length (mF m))) SF OK) as (m' & Q' & L); [rewrite tris_len; apply FU|]. rewrite Q' in Q. cbn [rbind ret] in Q.
    assert (H0' : (0 < length (mV m'))%nat) by (destruct (surface_edges _ _ SF) as (e & He); destruct (lo_count _ _ L e He) as [-> _]; lia).
    destruct (IH m' m1 (lo_surface _ _ L) (lo_ok _ _ L) H0' Q) as [A B]. split; [exact A|]. rewrite B. symmetry. now apply (lo_bnd _ _ L). }
  destruct (X nl m m1 SF OK H0 Q1) as [H1 B1]. clear X.
  unfold refine. rewrite Q1. cbn [rbind ret].
  destruct (to_limit_ok m1 (fuel (length (mF m1))) SF1 OK1) as (m2 & Q2 & L2); [rewrite tris_len; apply FU|]. rewrite Q2. cbn [rbind ret].
  destruct (limit_mesh_ok m1 m2 OK1 L2) as [T2 OK2]. pose proof (li_V _ _ L2) as LV2.
  assert (SF2 : surface (tris m2) (length (mV m2))) by (rewrite T2, LV2; exact SF1).
  rewrite LV2. destruct (length (mV m1)) as [|k] eqn:QL; [lia|]. cbn [seq normals]. unfold tangents.
  assert (LT : (0 < length (mV m2))%nat) by lia.
  destruct (ring_ok m2 SF2 OK2 (fuel (length (mF m1))) 0%nat LT) as (ring & A & B & _); [rewrite T2, tris_len; apply FU|].
  rewrite A, B. cbn [rbind ret].
  destruct (vbnd (getV m2 0)) eqn:VB; [|reflexivity]. exfalso. apply NB0, B1. rewrite <- T2. now apply (proj1 (proj2 (proj2 OK2)) 0%nat LT).
Qed.
Lemma tangents_run m fuel v st : surface (tris m) (length (mV m)) -> mesh_ok m -> (length (tris m) <= fuel)%nat -> (v < length (mV m))%nat ->
  st <> None \/ on_border (tris m) v -> exists s t, tangents m fuel v st = ret (s, t).
Proof.
  intros SF OK FU Hv H. destruct (ring_ok m SF OK fuel v Hv FU) as (ring & A & B & _). unfold tangents. rewrite A, B. cbn [rbind ret].
  destruct (vbnd (getV m v)) eqn:VB; cbn [negb]; [eauto|]. destruct st as [[S0 T0]|]; [eauto|].
  destruct H as [H|H]; [congruence|]. apply (proj1 (proj2 (proj2 OK)) v Hv) in H. congruence.
Qed.
Lemma normals_run m fuel : surface (tris m) (length (mV m)) -> mesh_ok m -> (length (tris m) <= fuel)%nat ->
  forall vs st, (forall v, In v vs -> (v < length (mV m))%nat) -> st <> None \/ (exists v vs', vs = v :: vs' /\ on_border (tris m) v) \/ vs = [] ->
  exists ns, normals m fuel vs st = ret ns /\ length ns = length vs.
Proof.
  intros SF OK FU vs. induction vs as [|v vs IH]; intros st R H; [now exists []|].
  destruct (tangents_run m fuel v st SF OK FU) as (s & t & Q); [apply R; now left| |].
  - destruct H as [H|[(? & ? & H & B)|H]]; [auto|injection H as <- <-; auto|discriminate].
  - destruct (IH (Some (s, t))) as (ns & Q2 & L); [intros; apply R; now right|left; discriminate|]. exists (vcross s t :: ns). cbn [normals]. rewrite Q. cbn [rbind ret]. rewrite Q2. split; [reflexivity|cbn; lia].
Qed.

(** ** Bounds *)
Lemma hull_in_box b ps p : (forall q, In q ps -> in_box b q) -> in_hull ps p -> in_box b p.
Proof.
  intros H HP.
  assert (NE : exists q, In q ps).
  { destruct ps as [|q ps]; [exfalso|exists q; now left]. specialize (HP vzero (-1)). unfold vdot, vzero in HP; cbn in HP.
    assert (0 * vx p + 0 * vy p + 0 * vz p <= -1) by (apply HP; intros ? []). lra. }
  destruct NE as (q0 & H0). pose proof (H q0 H0) as B0.
  assert (LO : forall (e : E) (g : vec -> R) a, (forall x, g x = vdot a x) -> (forall q, In q ps -> ele e (Fin (g q))) -> ele e (Fin (g p))).
  { intros e g a G X. destruct e as [r| | |]; try (exact (X q0 H0)). apply ele_Fin. rewrite G.
    assert (vdot (vneg a) p <= - r).
    { apply HP. intros q Hq. specialize (X q Hq). apply ele_Fin in X. rewrite G in X. unfold vdot, vneg, vmap in *; cbn in *. lra. }
    unfold vdot, vneg, vmap in *; cbn in *. lra. }
  assert (HI : forall (e : E) (g : vec -> R) a, (forall x, g x = vdot a x) -> (forall q, In q ps -> ele (Fin (g q)) e) -> ele (Fin (g p)) e).
  { intros e g a G X. destruct e as [r| | |]; try (exact (X q0 H0)). apply ele_Fin. rewrite G. apply HP. intros q Hq. rewrite <- G. apply ele_Fin. now apply X. }
  unfold in_box in *.
  repeat split; [apply (LO _ vx (mkV 1 0 0))|apply (HI _ vx (mkV 1 0 0))|apply (LO _ vy (mkV 0 1 0))|apply (HI _ vy (mkV 0 1 0))|apply (LO _ vz (mkV 0 0 1))|apply (HI _ vz (mkV 0 0 1))];
    try (intros x; unfold vdot; cbn; ring); intros q Hq; apply (H q Hq).
Qed.
