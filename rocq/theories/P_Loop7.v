(** One level, packaged; any number of levels. *)
From Coq Require Import Reals Lra List Bool Arith Lia Relations Permutation.
From Verif Require Import Base M_Loop S_Loop P_Loop1 P_Loop2 P_Loop3 P_Loop4 P_Loop5 P_Loop6.
Import ListNotations.

Lemma nth_error_tri ts F a b c : nth_error ts F = Some (mkV a b c) -> (F < length ts)%nat /\ tri_at ts F k0 = a /\ tri_at ts F k1 = b /\ tri_at ts F k2 = c.
Proof.
  intros H. pose proof (nth_error_nth _ _ (mkV 0 0 0)%nat H) as Q. split; [apply nth_error_Some; congruence|]. unfold tri_at. now rewrite Q.
Qed.
Lemma tri_nth_error ts F : (F < length ts)%nat -> nth_error ts F = Some (mkV (tri_at ts F k0) (tri_at ts F k1) (tri_at ts F k2)).
Proof.
  intros H. rewrite (nth_error_nth' ts (mkV 0 0 0)%nat H). unfold tri_at. now destruct (nth F ts (mkV 0 0 0)%nat).
Qed.

Section Level.
Variables (m : mesh) (evens odds : list vert).
Let ts := tris m.
Let nv := length (mV m).
Let m' := mkMesh (newF m) (evens ++ odds).
Let ts' := tris m'.
Hypothesis SF : surface ts nv.
Hypothesis OK : mesh_ok m.
Hypothesis FE : Forall2 (Qe m) (seq 0 nv) evens.
Hypothesis FO : Forall2 (Qo m) (first_slots ts) odds.
Notation o := (odd_id m).
Notation n := (length ts).

Lemma de_link_odd F k : (F < n)%nat -> linked ts' (tri_at ts F k) (o F k) /\ linked ts' (tri_at ts F (NEXT k)) (o F k).
Proof.
  intros HF. split.
  - exists (4 * F + cnum k)%nat. left. apply (DD m _ (le_n _)). now constructor.
  - exists (4 * F + cnum (NEXT k))%nat. right. apply (DD m _ (le_n _)). pose proof (de_in ts o F (NEXT k) HF) as X. now rewrite prev_next in X.
Qed.
Lemma odd_edge_point F k : (F < n)%nat -> edge_point nv ts' (tri_at ts F k) (tri_at ts F (NEXT k)) (o F k).
Proof. intros HF. destruct (de_link_odd F k HF) as [A B]. split; [apply (O1 m F k HF)|auto]. Qed.
Lemma link_even_odd a x : (a < nv)%nat -> (nv <= x)%nat -> linked ts' a x ->
  exists F k, (F < n)%nat /\ x = o F k /\ (a = tri_at ts F k \/ a = tri_at ts F (NEXT k)).
Proof.
  intros Ha Hx (H & [D|D]); apply (DD m _ (le_n _)) in D; revert Ha Hx; destruct D as [F k HF|F k HF|F k HF|F k HF]; intros Ha Hx.
  - exists F, k. auto.
  - pose proof (sf_range ts nv SF F k HF). unfold nv, ts in *; lia.
  - pose proof (O1 m F k HF). unfold nv, ts in *; lia.
  - pose proof (O1 m F k HF). unfold nv, ts in *; lia.
  - pose proof (sf_range ts nv SF F k HF). unfold nv, ts in *; lia.
  - exists F, (PREV k). rewrite next_prev. auto.
  - pose proof (O1 m F (PREV k) HF). unfold nv, ts in *; lia.
  - pose proof (O1 m F (NEXT k) HF). unfold nv, ts in *; lia.
Qed.
Lemma edge_point_key a b x : a <> b -> (a < nv)%nat -> (b < nv)%nat -> edge_point nv ts' a b x ->
  exists F k, (F < n)%nat /\ x = o F k /\ slot_key ts (F, k) = ekey a b.
Proof.
  intros NE Ha Hb (Hx & A & B). destruct (link_even_odd a x Ha Hx A) as (F & k & HF & QF & C), (link_even_odd b x Hb Hx B) as (G & j & HG & QG & D).
  exists F, k. split; [exact HF|]. split; [exact QF|]. assert (K : slot_key ts (F, k) = slot_key ts (G, j)) by (apply (O2 m); auto; congruence).
  unfold slot_key in *; cbn [fst snd] in *. apply ekey_eq. apply ekey_eq in K. destruct K as [[K1 K2]|[K1 K2]], C as [-> | ->], D as [-> | ->]; auto; congruence.
Qed.
Lemma linked_lt a b : linked ts a b -> (a < nv)%nat /\ (b < nv)%nat /\ a <> b.
Proof.
  intros H. apply linked_slot in H as (F & k & HF & Q).
  pose proof (sf_range ts nv SF F k HF). pose proof (sf_range ts nv SF F (NEXT k) HF).
  assert (tri_at ts F k <> tri_at ts F (NEXT k)) by (intros Z; apply (sf_inj ts nv SF) in Z; auto; now destruct k).
  destruct Q as [[-> ->]|[-> ->]]; auto.
Qed.
Lemma edge_point_ex a b : linked ts a b -> exists x, edge_point nv ts' a b x.
Proof.
  intros H. apply linked_slot in H as (F & k & HF & [[-> ->]|[-> ->]]); destruct (odd_edge_point F k HF) as (A & B & C); exists (o F k); repeat split; auto.
Qed.
Lemma edge_point_unique a b x y : linked ts a b -> edge_point nv ts' a b x -> edge_point nv ts' a b y -> x = y.
Proof.
  intros H X Y. destruct (linked_lt a b H) as (Ha & Hb & NE). destruct (edge_point_key a b x NE Ha Hb X) as (F & k & HF & -> & Q1).
  destruct (edge_point_key a b y NE Ha Hb Y) as (G & j & HG & -> & Q2). apply (O2 m); auto. fold ts. congruence.
Qed.
Lemma edge_point_facts a b x : linked ts a b -> edge_point nv ts' a b x ->
  (x < length (mV m'))%nat /\ edge_rule ts (posn m) a b (posn m' x) /\ (vbnd (getV m' x) = true <-> border ts a b \/ border ts b a) /\
  degree ts' x (if vbnd (getV m' x) then 4 else 6).
Proof.
  intros H X. destruct (linked_lt a b H) as (Ha & Hb & NE). destruct (edge_point_key a b x NE Ha Hb X) as (F & k & HF & -> & Q1).
  pose proof (getV_odd m _ SF (le_n _) evens odds FE FO F k HF) as (_ & A & B & C). fold m' in A, B, C. cbv zeta in *.
  unfold slot_key in Q1; cbn [fst snd] in Q1. apply ekey_eq in Q1. fold ts in B, C.
  assert (LT : (o F k < length (mV m'))%nat) by (unfold m'; rewrite (mV'_len m _ _ FE FO); apply (O1 m F k HF)).
  split; [exact LT|]. split.
  - destruct Q1 as [[<- <-]|[<- <-]]; [exact C|now apply (edge_rule_sym m)].
  - split; [destruct Q1 as [[<- <-]|[<- <-]]; rewrite B; tauto|].
    pose proof (mesh_ok' m _ SF OK (le_n _) evens odds FE FO) as (_ & _ & _ & R). fold m' in R. apply (R (o F k) LT). exact A.
Qed.
Lemma new_is_edge_point x : (nv <= x < length (mV m'))%nat -> exists a b, linked ts a b /\ edge_point nv ts' a b x.
Proof.
  unfold m'. rewrite (mV'_len m _ _ FE FO). intros H. destruct (O3 m x H) as (F & k & HF & <-).
  exists (tri_at ts F k), (tri_at ts F (NEXT k)). split; [now apply slot_linked|now apply odd_edge_point].
Qed.
Lemma link_old v x : (v < nv)%nat -> linked ts' v x -> exists b, linked ts v b /\ edge_point nv ts' v b x.
Proof.
  intros Hv L. assert (X : exists F k, (F < n)%nat /\ x = o F k /\ (v = tri_at ts F k \/ v = tri_at ts F (NEXT k))).
  { destruct (le_lt_dec nv x) as [Hx|Hx]; [now apply link_even_odd|exfalso]. destruct L as (H & [D|D]); apply (DD m _ (le_n _)) in D; revert Hv Hx; destruct D as [F k HF|F k HF|F k HF|F k HF]; intros Hv Hx;
      pose proof (O1 m F k HF); pose proof (O1 m F (PREV k) HF); pose proof (O1 m F (NEXT k) HF); unfold nv, ts in *; lia. }
  destruct X as (F & k & HF & -> & [-> | ->]); destruct (odd_edge_point F k HF) as (A & B & C).
  - exists (tri_at ts F (NEXT k)). split; [now apply slot_linked|repeat split; auto].
  - exists (tri_at ts F k). split; [now apply linked_sym, slot_linked|repeat split; auto].
Qed.
Lemma border_old_out v x : (v < nv)%nat -> border ts' v x -> exists b, border ts v b /\ edge_point nv ts' v b x.
Proof.
  intros Hv [(H & D) NR]. apply (DD m _ (le_n _)) in D. revert Hv NR. destruct D as [F k HF|F k HF|F k HF|F k HF]; intros Hv NR;
    try (exfalso; pose proof (O1 m F k HF); pose proof (O1 m F (PREV k) HF); unfold nv, ts in *; lia).
  exists (tri_at ts F (NEXT k)). split; [|now apply odd_edge_point]. split; [exists F; now apply dedge_mk|]. intros (G & HG & j & A1 & A2). apply NR.
  exists (4 * G + cnum (NEXT j))%nat. apply (DD m _ (le_n _)). pose proof (de_in ts o G (NEXT j) HG) as X. rewrite prev_next, A2 in X.
  assert (Q : odd_id m G j = odd_id m F k) by (apply (O2 m); auto; unfold slot_key; cbn [fst snd]; apply ekey_eq; auto). rewrite Q in X. exact X.
Qed.
Lemma border_old_in v x : (v < nv)%nat -> border ts' x v -> exists b, border ts b v /\ edge_point nv ts' b v x.
Proof.
  intros Hv [(H & D) NR]. apply (DD m _ (le_n _)) in D. revert Hv NR. destruct D as [F k HF|F k HF|F k HF|F k HF]; intros Hv NR;
    try (exfalso; pose proof (O1 m F k HF); pose proof (O1 m F (PREV k) HF); pose proof (O1 m F (NEXT k) HF); unfold nv, ts in *; lia).
  exists (tri_at ts F (PREV k)). pose proof (odd_edge_point F (PREV k) HF) as EP. rewrite next_prev in EP. split; [|exact EP].
  split; [exists F; now apply dedge_mk'|]. intros (G & HG & j & A1 & A2). apply NR.
  exists (4 * G + cnum j)%nat. apply (DD m _ (le_n _)). pose proof (de_out ts o G j HG) as X. rewrite A1 in X.
  assert (Q : odd_id m G j = odd_id m F (PREV k)) by (apply (O2 m); auto; unfold slot_key; cbn [fst snd]; rewrite next_prev; apply ekey_eq; auto). rewrite Q in X. exact X.
Qed.
Lemma split_ok : split4 ts ts' nv.
Proof.
  split; [apply (ts'_len m)|]. intros F a b c H. apply nth_error_tri in H as (HF & Q0 & Q1 & Q2).
  exists (o F k0), (o F k1), (o F k2).
  pose proof (odd_edge_point F k0 HF) as E0. pose proof (odd_edge_point F k1 HF) as E1. pose proof (odd_edge_point F k2 HF) as E2. cbn [NEXT] in *.
  rewrite Q0, Q1, Q2 in *. split; [exact E0|]. split; [exact E1|]. split; [exact E2|].
  assert (LEN : length ts' = (4 * n)%nat) by apply (ts'_len m).
  pose proof (HC1 m evens odds F k0 HF) as (A0 & A1 & A2). pose proof (HC1 m evens odds F k1 HF) as (B0 & B1 & B2).
  pose proof (HC1 m evens odds F k2 HF) as (C0 & C1 & C2).
  pose proof (HC2 m evens odds F k0 HF) as D0. pose proof (HC2 m evens odds F k1 HF) as D1. pose proof (HC2 m evens odds F k2 HF) as D2.
  cbn [NEXT PREV cnum] in *. rewrite Nat.add_0_r in *. fold m' in A0, A1, A2, B0, B1, B2, C0, C1, C2, D0, D1, D2.
  fold ts' in A0, A1, A2, B0, B1, B2, C0, C1, C2, D0, D1, D2. fold ts in A0, B0, C0. rewrite Q0 in A0. rewrite Q1 in B0. rewrite Q2 in C0.
  rewrite !tri_nth_error by lia. rewrite A0, A1, A2, B0, B1, B2, C0, C1, C2, D0, D1, D2. auto.
Qed.
Lemma old_degree v k : (v < nv)%nat -> (degree ts v k <-> degree ts' v k).
Proof.
  intros Hv. pose proof (deg_old m _ SF OK (le_n _) v Hv) as A. fold ts in A.
  assert (Hv' : (v < nv + length (first_slots ts))%nat) by lia.
  pose proof (deg_new m _ SF OK (le_n _) evens odds FE FO v Hv') as B. fold m' in B. fold ts' in B.
  assert (Q : length (Dv ts' v) = length (Dv ts v)).
  { apply (even_Dv ts ts' nv (nv + length (first_slots ts)) o SF (NVV m _ (le_n _)) (O1 m) (ts'_len m evens odds) (HC1 m evens odds) (HC2 m evens odds) v Hv). }
  destruct (getV_even m evens odds FE v Hv) as (_ & Q2 & _ & _). fold m' in Q2. rewrite Q, Q2 in B.
  split; intros H; [rewrite (degree_unique _ _ _ _ H A); exact B|rewrite (degree_unique _ _ _ _ H B); exact A].
Qed.
Lemma old_rule v : (v < nv)%nat -> vbnd (getV m' v) = vbnd (getV m v) /\
  (on_border ts v -> border_rule ts (posn m) (1/8)%R v (posn m' v)) /\ (~ on_border ts v -> inner_rule ts (posn m) loop_beta v (posn m' v)).
Proof.
  intros Hv. destruct (getV_even m evens odds FE v Hv) as (_ & Q2 & _ & R). fold m' in Q2, R. split; [exact Q2|].
  pose proof (proj1 (proj2 (proj2 OK)) v Hv) as B. fold ts in B, R. destruct (vbnd (getV m v)); split; intros H; auto; exfalso; [|rewrite <- B in H; discriminate].
  apply H. now apply B.
Qed.
End Level.

(** what one level does to a mesh *)
Record level_ok (m m' : mesh) : Prop := {
  lo_surface : surface (tris m') (length (mV m'));
  lo_ok : mesh_ok m';
  lo_split : split4 (tris m) (tris m') (length (mV m));
  lo_count : forall e, edge_count (tris m) e -> length (mV m') = (length (mV m) + e)%nat /\ edge_count (tris m') (2 * e + 3 * length (tris m))%nat;
  lo_point : forall a b, linked (tris m) a b -> exists x, edge_point (length (mV m)) (tris m') a b x /\
    (forall y, edge_point (length (mV m)) (tris m') a b y -> y = x) /\ (x < length (mV m'))%nat;
  lo_new : forall x, (length (mV m) <= x < length (mV m'))%nat -> exists a b, linked (tris m) a b /\ edge_point (length (mV m)) (tris m') a b x;
  lo_edge : forall a b x, linked (tris m) a b -> edge_point (length (mV m)) (tris m') a b x ->
    edge_rule (tris m) (posn m) a b (posn m' x) /\ (on_border (tris m') x <-> border (tris m) a b \/ border (tris m) b a) /\
    (on_border (tris m') x -> degree (tris m') x 4) /\ (~ on_border (tris m') x -> degree (tris m') x 6);
  lo_link : forall v x, (v < length (mV m))%nat -> linked (tris m') v x -> exists b, linked (tris m) v b /\ edge_point (length (mV m)) (tris m') v b x;
  lo_out : forall v x, (v < length (mV m))%nat -> border (tris m') v x -> exists b, border (tris m) v b /\ edge_point (length (mV m)) (tris m') v b x;
  lo_in : forall v x, (v < length (mV m))%nat -> border (tris m') x v -> exists b, border (tris m) b v /\ edge_point (length (mV m)) (tris m') b v x;
  lo_deg : forall v k, (v < length (mV m))%nat -> (degree (tris m) v k <-> degree (tris m') v k);
  lo_bnd : forall v, (v < length (mV m))%nat -> (on_border (tris m) v <-> on_border (tris m') v);
  lo_old : forall v, (v < length (mV m))%nat ->
    (on_border (tris m) v -> border_rule (tris m) (posn m) (1/8)%R v (posn m' v)) /\
    (~ on_border (tris m) v -> inner_rule (tris m) (posn m) loop_beta v (posn m' v)) }.

Theorem refine1_ok m fuel : surface (tris m) (length (mV m)) -> mesh_ok m -> (length (tris m) <= fuel)%nat ->
  exists m', refine1 fuel m = ret m' /\ level_ok m m'.
Proof.
  intros SF OK FU. destruct (refine1_runs m fuel SF OK FU) as (ev & od & Q & FE & FO). eexists. split; [exact Q|].
  pose proof (mV'_len m ev od FE FO) as LV. pose proof (mesh_ok' m _ SF OK (le_n _) ev od FE FO) as OK'.
  split.
  - rewrite LV. apply (surface' m _ SF (le_n _)).
  - exact OK'.
  - now apply split_ok.
  - intros e He. rewrite (edge_count_unique _ _ _ He (edges_first _ _ SF)). split; [exact LV|]. now apply edges_new.
  - intros a b L. destruct (edge_point_ex m ev od a b L) as (x & X). exists x. split; [exact X|]. split.
    + intros y Y. now apply (edge_point_unique m ev od SF a b).
    + now apply (edge_point_facts m ev od SF OK FE FO a b).
  - intros x X. now apply (new_is_edge_point m ev od FE FO).
  - intros a b x L X. destruct (edge_point_facts m ev od SF OK FE FO a b x L X) as (A & B & C & D).
    pose proof (proj1 (proj2 (proj2 OK')) x A) as E. rewrite E in C. split; [exact B|]. split; [exact C|].
    destruct (vbnd _); split; intros H; auto; exfalso; [apply H; now apply E|rewrite <- E in H; discriminate].
  - now apply link_old.
  - apply border_old_out.
  - apply border_old_in.
  - intros v k Hv. now apply (old_degree m ev od SF OK FE FO).
  - intros v Hv. destruct (old_rule m ev od OK FE v Hv) as [A _]. rewrite <- (proj1 (proj2 (proj2 OK)) v Hv), <- A.
    apply (proj1 (proj2 (proj2 OK'))). rewrite LV. lia.
  - intros v Hv. now apply (old_rule m ev od OK FE v Hv).
Qed.

Lemma surface_edges ts nv : surface ts nv -> exists e, edge_count ts e.
Proof. intros SF. eexists. now apply (edges_first ts nv). Qed.
Lemma levels_ok fuel : (forall i, (i <= fuel i)%nat) -> forall n m, surface (tris m) (length (mV m)) -> mesh_ok m ->
  exists m', levels n fuel m = ret m' /\ surface (tris m') (length (mV m')) /\ mesh_ok m' /\
    length (tris m') = (4 ^ n * length (tris m))%nat /\
    (forall e e', edge_count (tris m) e -> edge_count (tris m') e' ->
       (length (mV m') + length (tris m') + e = length (mV m) + length (tris m) + e')%nat).
Proof.
  intros FU n. induction n as [|n IH]; intros m SF OK.
  - exists m. cbn [levels]. split; [reflexivity|]. split; [exact SF|]. split; [exact OK|]. split; [cbn [Nat.pow]; lia|]. intros e e' A B. rewrite (edge_count_unique _ _ _ A B). lia.
  - destruct (refine1_ok m (fuel (length (mF m))) SF OK) as (m1 & Q & L); [rewrite tris_len; apply FU|].
    destruct (IH m1 (lo_surface _ _ L) (lo_ok _ _ L)) as (m' & Q' & A & B & C & D). exists m'. cbn [levels]. rewrite Q. cbn [rbind ret]. split; [exact Q'|].
    split; [exact A|]. split; [exact B|]. pose proof (proj1 (lo_split _ _ L)) as C1. split; [rewrite C, C1; cbn [Nat.pow]; lia|].
    intros e e' E E'. destruct (lo_count _ _ L e E) as [V1 E1]. pose proof (D _ _ E1 E'). lia.
Qed.
