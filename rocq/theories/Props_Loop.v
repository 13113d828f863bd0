(** Property theorems C40, C114-C120 (Loop subdivision).  Vocabulary: S_Loop.v. *)
From Coq Require Import Reals Lra List Bool Arith Lia Relations.
From Verif Require Import Base M_Geometry S_Geometry P_Geometry M_Loop S_Loop P_Loop1 P_Loop2 P_Loop6 P_Loop7 P_Loop8 P_Loop9 P_Loop10 P_Loop11 P_Loop12.
Import ListNotations.
Open Scope R_scope.

(** two surfaces the hypotheses hold for: a tetrahedron (closed) and a single triangle (all border) *)
Definition tetra : list (V3 nat) := [mkV 0 1 2; mkV 0 2 3; mkV 0 3 1; mkV 1 3 2]%nat.
Definition single : list (V3 nat) := [mkV 0 1 2]%nat.
Ltac faces H := repeat match type of H with (_ < S _)%nat => apply Nat.lt_succ_r in H; apply le_lt_eq_dec in H; destruct H as [H|H] end.
Lemma lt4 F : (F < 4)%nat -> F = 0%nat \/ F = 1%nat \/ F = 2%nat \/ F = 3%nat. Proof. lia. Qed.
Lemma lt3 F : (F < 3)%nat -> F = 0%nat \/ F = 1%nat \/ F = 2%nat. Proof. lia. Qed.
Example tetra_surface : surface tetra 4.
Proof.
  split; [|split; [|split; [|split; [|split]]]].
  - intros F k H. cbn [tetra length] in H. apply lt4 in H as [-> |[-> |[-> | ->]]]; destruct k; cbn; lia.
  - intros F j k H. cbn [tetra length] in H. apply lt4 in H as [-> |[-> |[-> | ->]]]; destruct j, k; cbn; intros; try reflexivity; lia.
  - intros a b F G (HF & j & A & B) (HG & k & C & D). cbn [tetra length] in HF, HG. subst a b.
    apply lt4 in HF as [-> |[-> |[-> | ->]]]; apply lt4 in HG as [-> |[-> |[-> | ->]]]; destruct j, k; cbn in *; try reflexivity; lia.
  - intros F G HF HG H. cbn [tetra length] in HF, HG. pose proof (H k0) as (x & _ & X). pose proof (H k1) as (y & _ & Y). pose proof (H k2) as (z & _ & Z). clear H.
    apply lt4 in HF as [-> |[-> |[-> | ->]]]; apply lt4 in HG as [-> |[-> |[-> | ->]]]; destruct x, y, z; cbn in *; try reflexivity; lia.
  - intros v H. apply lt4 in H as [-> |[-> |[-> | ->]]]; [exists 0%nat, k0|exists 0%nat, k1|exists 0%nat, k2|exists 1%nat, k2]; split; cbn; auto; lia.
  - intros v F G (j & HF & A) (k & HG & B). cbn [tetra length] in HF, HG. subst v.
    assert (ST : forall F j G k, (F < 4)%nat -> (G < 4)%nat -> tri_at tetra F j = tri_at tetra G (NEXT k) -> tri_at tetra F (NEXT j) = tri_at tetra G k -> around tetra (tri_at tetra F j) F G).
    { intros F' j' G' k' HF' HG' Q1 Q2. exists (tri_at tetra F' (NEXT j')). split; [now apply dedge_mk|]. rewrite Q1, Q2. now apply dedge_mk. }
    revert B. apply lt4 in HF as [-> |[-> |[-> | ->]]]; apply lt4 in HG as [-> |[-> |[-> | ->]]]; destruct j, k; cbn; intros B; try lia; try apply rst_refl;
      solve [ apply rst_step; exists 0%nat; split; (split; [cbn; lia|first [now exists k0|now exists k1|now exists k2]])
            | apply rst_step; exists 1%nat; split; (split; [cbn; lia|first [now exists k0|now exists k1|now exists k2]])
            | apply rst_step; exists 2%nat; split; (split; [cbn; lia|first [now exists k0|now exists k1|now exists k2]])
            | apply rst_step; exists 3%nat; split; (split; [cbn; lia|first [now exists k0|now exists k1|now exists k2]])
            | apply rst_sym, rst_step; exists 0%nat; split; (split; [cbn; lia|first [now exists k0|now exists k1|now exists k2]])
            | apply rst_sym, rst_step; exists 1%nat; split; (split; [cbn; lia|first [now exists k0|now exists k1|now exists k2]])
            | apply rst_sym, rst_step; exists 2%nat; split; (split; [cbn; lia|first [now exists k0|now exists k1|now exists k2]])
            | apply rst_sym, rst_step; exists 3%nat; split; (split; [cbn; lia|first [now exists k0|now exists k1|now exists k2]]) ].
Qed.
Example single_surface : surface single 3.
Proof.
  split; [|split; [|split; [|split; [|split]]]].
  - intros F k H. cbn [single length] in H. assert (F = 0)%nat as -> by lia. destruct k; cbn; lia.
  - intros F j k H. cbn [single length] in H. assert (F = 0)%nat as -> by lia. destruct j, k; cbn; intros; try reflexivity; lia.
  - intros a b F G (HF & _) (HG & _). cbn [single length] in HF, HG. lia.
  - intros F G HF HG _. cbn [single length] in HF, HG. lia.
  - intros v H. apply lt3 in H as [-> |[-> | ->]]; [exists 0%nat, k0|exists 0%nat, k1|exists 0%nat, k2]; split; cbn; auto.
  - intros v F G (j & HF & A) (k & HG & B). cbn [single length] in HF, HG. assert (F = G) as -> by lia. apply rst_refl.
Qed.
Example single_border : on_border single 0.
Proof.
  exists 1%nat. split.
  - exists 0%nat. split; [cbn; lia|]. now exists k0.
  - intros (G & HG & k & A & B). cbn [single length] in HG. assert (G = 0)%nat as -> by lia. destruct k; cbn in *; lia.
Qed.
Example tetra_closed v : ~ on_border tetra v.
Proof.
  intros (w & (F & HF & k & A & B) & NR). apply NR. subst. cbn [tetra length] in HF.
  apply lt4 in HF as [-> |[-> |[-> | ->]]]; destruct k; cbn;
    solve [ exists 0%nat; split; [cbn; lia|first [now exists k0|now exists k1|now exists k2]]
          | exists 1%nat; split; [cbn; lia|first [now exists k0|now exists k1|now exists k2]]
          | exists 2%nat; split; [cbn; lia|first [now exists k0|now exists k1|now exists k2]]
          | exists 3%nat; split; [cbn; lia|first [now exists k0|now exists k1|now exists k2]] ].
Qed.
Example enough_id : enough (fun i => i). Proof. intros i. apply le_n. Qed.

(** C40: every level succeeds and yields a surface again; triangles are multiplied by 4, V - E + F never changes, each
    level splits every triangle into four through one new vertex per edge *)
Theorem C40_every_level_is_a_surface (fuel : nat -> nat) (ts : list (V3 nat)) (ps : list vec) (n : nat) :
  surface ts (length ps) -> enough fuel ->
  exists m, mesh_at fuel ts ps n m /\ surface (tris m) (length (mV m)) /\ length (tris m) = (4 ^ n * length ts)%nat /\
    (forall e e', edge_count ts e -> edge_count (tris m) e' ->
       (Z.of_nat (length (mV m)) - Z.of_nat e' + Z.of_nat (length (tris m)) = Z.of_nat (length ps) - Z.of_nat e + Z.of_nat (length ts))%Z).
Proof.
  intros SF FU. destruct (at_ex fuel ts ps SF FU n) as (m & H). exists m. split; [exact H|].
  destruct (at_ok fuel ts ps SF FU n m H) as (A & _ & C & D & _). split; [exact A|]. split; [exact C|]. intros e e' E E'. specialize (D e e' E E'). lia.
Qed.
Print Assumptions C40_every_level_is_a_surface.
Theorem C40_one_level_splits_every_triangle (fuel : nat -> nat) (ts : list (V3 nat)) (ps : list vec) (n : nat) (m m' : mesh) :
  surface ts (length ps) -> enough fuel -> mesh_at fuel ts ps n m -> mesh_at fuel ts ps (S n) m' ->
  split4 (tris m) (tris m') (length (mV m)) /\
  (forall e, edge_count (tris m) e -> length (mV m') = (length (mV m) + e)%nat) /\
  (forall a b, linked (tris m) a b -> exists x, edge_point (length (mV m)) (tris m') a b x /\
     forall y, edge_point (length (mV m)) (tris m') a b y -> y = x) /\
  (forall x, (length (mV m) <= x < length (mV m'))%nat -> exists a b, linked (tris m) a b /\ edge_point (length (mV m)) (tris m') a b x).
Proof.
  intros SF FU H H'. destruct (at_step fuel ts ps SF FU n m m' H H') as (_ & L). split; [apply (lo_split _ _ L)|]. split; [|split].
  - intros e He. now apply (lo_count _ _ L).
  - intros a b X. destruct (lo_point _ _ L a b X) as (x & A & B & _). exists x. auto.
  - apply (lo_new _ _ L).
Qed.
Print Assumptions C40_one_level_splits_every_triangle.
Theorem C40_edges_exist (ts : list (V3 nat)) (nv : nat) : surface ts nv -> exists e, edge_count ts e /\ forall e', edge_count ts e' -> e' = e.
Proof. intros SF. destruct (surface_edges ts nv SF) as (e & He). exists e. split; [exact He|]. intros e' He'. now apply (edge_count_unique ts). Qed.
Print Assumptions C40_edges_exist.
Example C40_meets : exists m, mesh_at (fun i => i) tetra (repeat vzero 4) 2 m /\ length (tris m) = 64%nat.
Proof. destruct (C40_every_level_is_a_surface (fun i => i) tetra (repeat vzero 4) 2 tetra_surface enough_id) as (m & A & _ & B & _). exists m. split; [exact A|exact B]. Qed.

(** C114: the constructor's references are exactly the adjacency of the triangles, and every level keeps it so *)
Theorem C114_constructor_builds_adjacency (fuel : nat -> nat) (ts : list (V3 nat)) (ps : list vec) :
  surface ts (length ps) -> enough fuel ->
  exists m, loop_make (fuel (length ts)) ts ps = ret m /\ tris m = ts /\ map vP (mV m) = ps /\ mesh_ok m.
Proof. intros SF FU. apply make_ok; [exact SF|apply FU]. Qed.
Print Assumptions C114_constructor_builds_adjacency.
Theorem C114_adjacency_at_every_level (fuel : nat -> nat) (ts : list (V3 nat)) (ps : list vec) (n : nat) (m : mesh) :
  surface ts (length ps) -> enough fuel -> mesh_at fuel ts ps n m -> mesh_ok m.
Proof. intros SF FU H. now apply (at_ok fuel ts ps SF FU n m H). Qed.
Print Assumptions C114_adjacency_at_every_level.
Theorem C114_unused_vertices_are_refused (fuel : nat) (ts : list (V3 nat)) (ps : list vec) (v : nat) (m : mesh) :
  (v < length ps)%nat -> (forall F, ~ touches ts F v) -> loop_make fuel ts ps <> ret m.
Proof. intros Hv H Q. destruct (make_used fuel ts ps m v Q Hv) as (F & T). exact (H F T). Qed.
Print Assumptions C114_unused_vertices_are_refused.
Example C114_meets : exists m, loop_make 4 tetra (repeat vzero 4) = ret m /\ mesh_ok m.
Proof. destruct (C114_constructor_builds_adjacency (fun i => i) tetra (repeat vzero 4) tetra_surface enough_id) as (m & A & _ & _ & B). exists m. auto. Qed.

(** C115: Loop's position rules *)
Theorem C115_positions_follow_Loops_rules (fuel : nat -> nat) (ts : list (V3 nat)) (ps : list vec) (n : nat) (m m' : mesh) :
  surface ts (length ps) -> enough fuel -> mesh_at fuel ts ps n m -> mesh_at fuel ts ps (S n) m' ->
  (forall v, (v < length (mV m))%nat -> on_border (tris m) v -> border_rule (tris m) (posn m) (1/8) v (posn m' v)) /\
  (forall v, (v < length (mV m))%nat -> ~ on_border (tris m) v -> inner_rule (tris m) (posn m) loop_beta v (posn m' v)) /\
  (forall a b x, linked (tris m) a b -> edge_point (length (mV m)) (tris m') a b x -> edge_rule (tris m) (posn m) a b (posn m' x)).
Proof.
  intros SF FU H H'. destruct (at_step fuel ts ps SF FU n m m' H H') as (_ & L). split; [|split].
  - intros v Hv. now apply (lo_old _ _ L).
  - intros v Hv. now apply (lo_old _ _ L).
  - intros a b x A B. now apply (lo_edge _ _ L).
Qed.
Print Assumptions C115_positions_follow_Loops_rules.
Theorem C115_limit_step_rule (fuel : nat -> nat) (ts : list (V3 nat)) (ps : list vec) (n : nat) (m : mesh) :
  surface ts (length ps) -> enough fuel -> mesh_at fuel ts ps n m ->
  exists m2, to_limit (fuel (length (mF m))) m = ret m2 /\ tris m2 = tris m /\ length (mV m2) = length (mV m) /\
    forall v, (v < length (mV m))%nat -> (on_border (tris m) v -> border_rule (tris m) (posn m) (1/5) v (posn m2 v)) /\
      (~ on_border (tris m) v -> inner_rule (tris m) (posn m) (fun k => 1 / (INR k + 3 / (8 + loop_beta k))) v (posn m2 v)).
Proof.
  intros SF FU H. destruct (at_ok fuel ts ps SF FU n m H) as (A & B & _).
  destruct (to_limit_ok m (fuel (length (mF m))) A B) as (m2 & Q & L); [rewrite tris_len; apply FU|]. exists m2. split; [exact Q|].
  split; [unfold tris; now rewrite (li_F _ _ L)|]. split; [apply (li_V _ _ L)|]. intros v Hv. destruct (li_rule _ _ L v Hv) as [R1 R2]. split; [exact R1|].
  intros X. destruct (R2 X) as (ws & N1 & N2 & ->). exists ws. split; [exact N1|]. split; [exact N2|]. unfold gamma. now rewrite P_Loop4.beta_loop.
Qed.
Print Assumptions C115_limit_step_rule.
Example C115_meets : exists m m', mesh_at (fun i => i) tetra (repeat vzero 4) 1 m /\ mesh_at (fun i => i) tetra (repeat vzero 4) 2 m' /\ (0 < length (tris m))%nat.
Proof.
  destruct (at_ex (fun i => i) tetra (repeat vzero 4) tetra_surface enough_id 1) as (m & H). destruct (at_ex (fun i => i) tetra (repeat vzero 4) tetra_surface enough_id 2) as (m' & H').
  exists m, m'. split; [exact H|]. split; [exact H'|]. destruct (at_ok (fun i => i) tetra (repeat vzero 4) tetra_surface enough_id 1 m H) as (_ & _ & -> & _). cbn. lia.
Qed.

(** C116: new vertices are regular, old vertices keep their degree, the border stays the border *)
Theorem C116_valences (fuel : nat -> nat) (ts : list (V3 nat)) (ps : list vec) (n : nat) (m m' : mesh) :
  surface ts (length ps) -> enough fuel -> mesh_at fuel ts ps n m -> mesh_at fuel ts ps (S n) m' ->
  (forall v k, (v < length (mV m))%nat -> (degree (tris m) v k <-> degree (tris m') v k)) /\
  (forall v, (v < length (mV m))%nat -> (on_border (tris m) v <-> on_border (tris m') v)) /\
  (forall x, (length (mV m) <= x < length (mV m'))%nat ->
     (on_border (tris m') x -> degree (tris m') x 4) /\ (~ on_border (tris m') x -> degree (tris m') x 6)) /\
  (forall a b x, linked (tris m) a b -> edge_point (length (mV m)) (tris m') a b x ->
     (on_border (tris m') x <-> border (tris m) a b \/ border (tris m) b a)).
Proof.
  intros SF FU H H'. destruct (at_step fuel ts ps SF FU n m m' H H') as (_ & L). split; [apply (lo_deg _ _ L)|]. split; [apply (lo_bnd _ _ L)|]. split.
  - intros x Hx. destruct (lo_new _ _ L x Hx) as (a & b & A & B). now apply (lo_edge _ _ L a b x A B).
  - intros a b x A B. now apply (lo_edge _ _ L a b x A B).
Qed.
Print Assumptions C116_valences.

(** C117: every position of every level, and the limit positions, stay in the convex hull of the control positions and
    in the reported bound of the control mesh *)
Theorem C117_hull (fuel : nat -> nat) (ts : list (V3 nat)) (ps : list vec) (n : nat) (m m2 : mesh) :
  surface ts (length ps) -> enough fuel -> mesh_at fuel ts ps n m -> to_limit (fuel (length (mF m))) m = ret m2 ->
  (forall v, (v < length (mV m))%nat -> in_hull ps (posn m v)) /\ (forall v, (v < length (mV m))%nat -> in_hull ps (posn m2 v)).
Proof.
  intros SF FU H Q. destruct (at_ok fuel ts ps SF FU n m H) as (A & B & _ & _ & D).
  destruct (to_limit_ok m (fuel (length (mF m))) A B) as (m2' & Q2 & L); [rewrite tris_len; apply FU|]. rewrite Q in Q2. injection Q2 as <-. split.
  - intros v Hv. apply D. now apply posn_in.
  - intros v Hv. apply (hull_trans ps (map vP (mV m))); [exact D|]. apply (limit_hull m m2 A B L). apply posn_in. rewrite (li_V _ _ L). exact Hv.
Qed.
Print Assumptions C117_hull.
Theorem C117_object_bound (fuel : nat -> nat) (ts : list (V3 nat)) (ps : list vec) (n : nat) (m0 m m2 : mesh) :
  surface ts (length ps) -> enough fuel -> loop_make (fuel (length ts)) ts ps = ret m0 -> mesh_at fuel ts ps n m -> to_limit (fuel (length (mF m))) m = ret m2 ->
  forall v, (v < length (mV m))%nat -> in_box (loop_object_bound m0) (posn m v) /\ in_box (loop_object_bound m0) (posn m2 v).
Proof.
  intros SF FU Q0 H Q v Hv. destruct (C117_hull fuel ts ps n m m2 SF FU H Q) as [A B].
  destruct (at_zero fuel ts ps SF FU m0) as (_ & _ & P & _); [exists m0; auto|].
  split; apply (hull_in_box _ ps); auto; intros q Hq; apply bound_in; now rewrite P.
Qed.
Print Assumptions C117_object_bound.

(** C118: subdividing commutes with every affine map of the control points *)
Theorem C118_affine_invariance (A : vec -> vec) (fuel : nat -> nat) (ts : list (V3 nat)) (ps : list vec) (n : nat) (m m2 m' : mesh) :
  affine A -> surface ts (length ps) -> enough fuel ->
  mesh_at fuel ts ps n m -> to_limit (fuel (length (mF m))) m = ret m2 ->
  mesh_at fuel ts (map A ps) n m' ->
  tris m' = tris m /\ map vP (mV m') = map A (map vP (mV m)) /\
  exists m2', to_limit (fuel (length (mF m'))) m' = ret m2' /\ tris m2' = tris m2 /\ map vP (mV m2') = map A (map vP (mV m2)).
Proof.
  intros AF SF FU H Q H'.
  assert (SF' : surface ts (length (map A ps))) by (now rewrite map_length).
  destruct H as (m0 & Q0 & L0). destruct (at_zero fuel ts ps SF FU m0) as (_ & T0 & P0 & OK0); [exists m0; auto|].
  assert (SF0 : surface (tris m0) (length (mV m0))) by (rewrite T0, <- (map_length vP), P0; exact SF).
  destruct (at_ok fuel ts ps SF FU n m) as (SFm & OKm & _); [exists m0; auto|].
  assert (MM : loop_make (fuel (length ts)) ts (map A ps) = ret (move A m0)).
  { apply (make_move A ts ps (fuel (length ts)) m0 SF (FU _) Q0). }
  pose proof (levels_move A AF fuel FU n m0 m SF0 OK0 L0) as LM.
  assert (E : m' = move A m) by (apply (at_det fuel ts (map A ps) n); [exact H'|exists (move A m0); auto]). subst m'.
  split; [reflexivity|]. split; [unfold move; cbn [mV]; now rewrite !map_map|].
  exists (move A m2). split; [|split; [reflexivity|unfold move; cbn [mV]; now rewrite !map_map]].
  change (mF (move A m)) with (mF m). apply (to_limit_move A AF m _ m2 SFm OKm); [rewrite tris_len; apply FU|exact Q].
Qed.
Print Assumptions C118_affine_invariance.
Example C118_meets : affine (fun p => vadd (vscale 2 p) (mkV 1 0 0)) /\ exists m, mesh_at (fun i => i) tetra (repeat vzero 4) 3 m.
Proof.
  split.
  - exists (mkV 2 0 0), (mkV 0 2 0), (mkV 0 0 2), (mkV 1 0 0). intros p. unfold vdot, vadd, vscale, vmap, vmap2; cbn. f_equal; ring.
  - apply (at_ex (fun i => i) tetra (repeat vzero 4) tetra_surface enough_id).
Qed.

(** C119: the limit position of a control vertex should not depend on how many levels are subdivided before the limit
    rule is applied.  It does, at every vertex of every surface. *)
Theorem C119_limit_position_depends_on_levels_refuted (fuel : nat -> nat) (ts : list (V3 nat)) (nv v : nat) :
  surface ts nv -> enough fuel -> (v < nv)%nat ->
  exists ps, length ps = nv /\ forall m0 m1 l0 l1, mesh_at fuel ts ps 0 m0 -> mesh_at fuel ts ps 1 m1 ->
    to_limit (fuel (length (mF m0))) m0 = ret l0 -> to_limit (fuel (length (mF m1))) m1 = ret l1 -> posn l0 v <> posn l1 v.
Proof.
  intros SF FU Hv. exists (spike v nv). assert (LS : length (spike v nv) = nv) by (unfold spike; now rewrite map_length, seq_length). split; [exact LS|].
  intros m0 m1 l0 l1 H0 H1 Q0 Q1. assert (SFs : surface ts (length (spike v nv))) by (rewrite LS; exact SF).
  destruct (at_step fuel ts _ SFs FU 0 m0 m1 H0 H1) as (_ & LV). destruct (at_ok fuel ts _ SFs FU 0 m0 H0) as (A & B & _).
  destruct (at_zero fuel ts _ SFs FU m0 H0) as (_ & T & P & _).
  assert (LM : length (mV m0) = nv) by (now rewrite <- (map_length vP), P).
  destruct (to_limit_ok m0 (fuel (length (mF m0))) A B) as (x & QX & LX); [rewrite tris_len; apply FU|]. rewrite Q0 in QX. injection QX as <-.
  destruct (to_limit_ok m1 (fuel (length (mF m1))) (lo_surface _ _ LV) (lo_ok _ _ LV)) as (y & QY & LY); [rewrite tris_len; apply FU|]. rewrite Q1 in QY. injection QY as <-.
  assert (PO : forall u, posn m0 u = if Nat.eqb u v then e1 else vzero).
  { intros u. destruct (lt_dec u nv) as [Hu|Hu].
    - unfold posn, getV. rewrite <- (map_nth vP). cbn [vP]. rewrite P. unfold spike. set (g := fun u => if Nat.eqb u v then e1 else vzero).
      rewrite nth_indep with (d' := g 0%nat) by (now rewrite map_length, seq_length). rewrite (map_nth g). now rewrite P_Loop5.nth_seq0.
    - unfold posn, getV. rewrite nth_overflow by lia. cbn. destruct (Nat.eqb_spec u v); [lia|reflexivity]. }
  assert (A1 : posn m0 v = e1) by (now rewrite PO, Nat.eqb_refl).
  assert (A2 : forall u, u <> v -> posn m0 u = vzero) by (intros u N; rewrite PO; destruct (Nat.eqb_spec u v); [contradiction|reflexivity]).
  assert (A3 : (v < length (mV m0))%nat) by (rewrite LM; exact Hv).
  destruct (border_dec _ v B A3) as [X|X].
  - apply (drift_border m0 m1 l0 l1 v A A3 A1 A2 LV LX LY X).
  - apply (drift_inner m0 m1 l0 l1 v A B A3 A1 A2 LV LX LY X).
Qed.
Print Assumptions C119_limit_position_depends_on_levels_refuted.

(** C120: refine() hands over a triangle mesh.  It never does when vertex 0 is not on a border, so never for a closed
    mesh; otherwise it does, with the refined triangles, the limit positions and one normal per vertex. *)
Theorem C120_no_closed_mesh_is_refined_refuted (fuel : nat -> nat) (nl : nat) (ts : list (V3 nat)) (ps : list vec) (m0 : mesh) :
  surface ts (length ps) -> (0 < length ps)%nat -> enough fuel -> ~ on_border ts 0 ->
  loop_make (fuel (length ts)) ts ps = ret m0 -> refine fuel nl m0 = Some (Err UnboundLocalError).
Proof.
  intros SF H0 FU NB Q0. destruct (at_zero fuel ts ps SF FU m0) as (_ & T & P & OK); [exists m0; auto|].
  assert (LP : length (mV m0) = length ps) by (now rewrite <- (map_length vP), P).
  apply refine_no_normals; auto; rewrite ?T, ?LP; auto.
Qed.
Print Assumptions C120_no_closed_mesh_is_refined_refuted.
Theorem C120_open_mesh_is_refined_partial (fuel : nat -> nat) (nl : nat) (ts : list (V3 nat)) (ps : list vec) (m0 : mesh) :
  surface ts (length ps) -> (0 < length ps)%nat -> enough fuel -> on_border ts 0 ->
  loop_make (fuel (length ts)) ts ps = ret m0 ->
  exists m m2 ns, mesh_at fuel ts ps nl m /\ to_limit (fuel (length (mF m))) m = ret m2 /\
    refine fuel nl m0 = ret (flat_map (fun t => [vx t; vy t; vz t]) (tris m), map vP (mV m2), ns) /\
    length ns = length (mV m) /\ (forall i, In i (flat_map (fun t => [vx t; vy t; vz t]) (tris m)) -> (i < length (map vP (mV m2)))%nat).
Proof.
  intros SF H0 FU BD Q0. destruct (at_ex fuel ts ps SF FU nl) as (m & H). destruct (at_ok fuel ts ps SF FU nl m H) as (A & B & _).
  destruct (to_limit_ok m (fuel (length (mF m))) A B) as (m2 & Q2 & L); [rewrite tris_len; apply FU|].
  destruct (limit_mesh_ok m m2 B L) as [T2 OK2]. pose proof (li_V _ _ L) as LV.
  assert (SF2 : surface (tris m2) (length (mV m2))) by (rewrite T2, LV; exact A).
  assert (X : forall k mk, mesh_at fuel ts ps k mk -> (0 < length (mV mk))%nat /\ on_border (tris mk) 0).
  { induction k as [|k IH]; intros mk Hk.
    - destruct (at_zero fuel ts ps SF FU mk Hk) as (_ & T & P & _). rewrite T, <- (map_length vP), P. auto.
    - destruct (at_ex fuel ts ps SF FU k) as (mp & Hp). destruct (IH mp Hp) as [I1 I2]. destruct (at_step fuel ts ps SF FU k mp mk Hp Hk) as (_ & Lk).
      split; [|now apply (lo_bnd _ _ Lk)]. destruct (surface_edges _ _ (proj1 (at_ok fuel ts ps SF FU k mp Hp))) as (e & He). destruct (lo_count _ _ Lk e He) as [-> _]. lia. }
  destruct (X nl m H) as [P0 B0]. clear X.
  destruct (normals_run m2 (fuel (length (mF m))) SF2 OK2) with (vs := seq 0 (length (mV m2))) (st := @None (vec * vec)) as (ns & QN & LN).
  - rewrite T2, tris_len. apply FU.
  - intros v Hv. apply in_seq in Hv. lia.
  - right. left. rewrite LV. destruct (length (mV m)) as [|k]; [lia|]. exists 0%nat, (seq 1 k). rewrite T2. auto.
  - exists m, m2, ns. split; [exact H|]. split; [exact Q2|]. split.
    + unfold refine. assert (QL : levels nl fuel m0 = ret m). { destruct H as (m0' & Q0' & L0). rewrite Q0 in Q0'. injection Q0' as <-. exact L0. }
      rewrite QL. cbn [rbind ret]. rewrite Q2. cbn [rbind ret]. rewrite QN. cbn [rbind ret]. now rewrite T2.
    + split; [rewrite LN, seq_length; exact LV|]. rewrite map_length, LV. intros i Hi. apply in_flat_map in Hi as (t & Ht & Hi).
      apply In_nth_error in Ht as (F & HF). destruct t as [a b c]. apply nth_error_tri in HF as (LF & Q1' & Q2' & Q3'). destruct A as (RG & _).
      pose proof (RG F k0 LF). pose proof (RG F k1 LF). pose proof (RG F k2 LF). cbn in Hi. destruct Hi as [<-|[<-|[<-|[]]]]; lia.
Qed.
Print Assumptions C120_open_mesh_is_refined_partial.
Example C120_meets_closed : surface tetra 4 /\ ~ on_border tetra 0. Proof. split; [apply tetra_surface|apply tetra_closed]. Qed.
Example C120_meets_open : surface single 3 /\ on_border single 0. Proof. split; [apply single_surface|apply single_border]. Qed.
