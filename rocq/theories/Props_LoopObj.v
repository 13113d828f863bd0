(** C239-C242: subdivision surfaces as objects: creation from parameters, bound in the world, refining twice, scenes *)
From Coq Require Import Reals Lra Lia List ZArith Bool Permutation Arith.
From Verif Require Import Base M_Geometry S_Geometry P_Geometry M_Transform S_Transform P_Transform P_Transform2
  M_Shapes S_Shapes P_Mesh M_BVH S_BVH P_BVH P_BVHTrav M_Primitive S_Scene P_Scene P_SceneOf.
From Verif Require Import M_LoopObj.
From Verif Require M_Loop S_Loop P_Loop8 P_Loop9 P_Loop11 P_Loop12 Props_Loop.
Import ListNotations.
Open Scope R_scope.

(** ** C239 *)
Lemma triples_len {A} n : forall l : list A, length l = (3 * n)%nat -> length (triples l) = n.
Proof. induction n as [|n IH]; intros [|a [|b [|c l]]] H; cbn in *; try lia. rewrite IH; [reflexivity|lia]. Qed.
Lemma triples_nth {A} (d : A) n : forall l : list A, length l = (3 * n)%nat -> forall i, (i < n)%nat ->
  nth_error (triples l) i = Some (mkV (nth (3 * i) l d) (nth (3 * i + 1) l d) (nth (3 * i + 2) l d)).
Proof.
  induction n as [|n IH]; intros [|a [|b [|c l]]] H i Hi; cbn [length] in H; try lia. cbn [triples].
  destruct i as [|i]; [reflexivity|]. cbn [nth_error]. rewrite (IH l) by lia.
  replace (3 * S i)%nat with (S (S (S (3 * i)))) by lia. reflexivity.
Qed.
Lemma mod3 n : (n mod 3 = 0)%nat -> exists k, n = (3 * k)%nat.
Proof. intros H. exists (n / 3)%nat. pose proof (Nat.div_mod n 3 ltac:(lia)). lia. Qed.
(** A parameter set without indices or positions, or with a wrong number of them, gives no surface; an index that names
    no vertex raises. *)
Theorem C239_refused (fuel : nat -> nat) (nl : option nat) (vi : option (list nat)) (P : option (list R)) :
  (vi = None \/ P = None -> create_loop_subdiv fuel nl vi P = M_Loop.ret None) /\
  (forall l p, vi = Some l -> P = Some p -> (length l mod 3 <> 0 \/ length p mod 3 <> 0)%nat ->
     create_loop_subdiv fuel nl vi P = M_Loop.ret None) /\
  (forall l p i, vi = Some l -> P = Some p -> (length l mod 3 = 0)%nat -> (length p mod 3 = 0)%nat -> In i l -> (length p <= 3 * i)%nat ->
     create_loop_subdiv fuel nl vi P = Some (Err IndexError)).
Proof.
  split; [|split].
  - intros [->| ->]; [reflexivity|destruct vi; reflexivity].
  - intros l p -> -> H. unfold create_loop_subdiv. destruct (Nat.eqb_spec (length p mod 3) 0) as [E1|E1]; [|reflexivity].
    destruct (Nat.eqb_spec (length l mod 3) 0) as [E2|E2]; [|reflexivity]. exfalso. destruct H; contradiction.
  - intros l p i -> -> H1 H2 Hi HL. unfold create_loop_subdiv. rewrite H1, H2. cbn [Nat.eqb negb].
    destruct (mod3 _ H2) as (k & Hk). rewrite (triples_len k p Hk).
    replace (existsb _ l) with true; [reflexivity|]. symmetry. apply existsb_exists. exists i. split; [exact Hi|]. apply Nat.leb_le. lia.
Qed.
Print Assumptions C239_refused.
(** Otherwise triangle f joins the vertices indices[3f], indices[3f+1], indices[3f+2], vertex i lies at
    P[3i], P[3i+1], P[3i+2], and three levels are made unless another number is given. *)
Theorem C239_created (fuel : nat -> nat) (nl : option nat) (nt nv : nat) (vi : list nat) (P : list R) :
  length vi = (3 * nt)%nat -> length P = (3 * nv)%nat -> S_Loop.surface (triples vi) nv -> S_Loop.enough fuel ->
  exists m, create_loop_subdiv fuel nl (Some vi) (Some P) = M_Loop.ret (Some (m, match nl with Some n => n | None => 3%nat end)) /\
    S_Loop.mesh_ok m /\ length (M_Loop.tris m) = nt /\ length (M_Loop.mV m) = nv /\
    (forall f, (f < nt)%nat -> nth_error (M_Loop.tris m) f = Some (mkV (nth (3 * f) vi 0%nat) (nth (3 * f + 1) vi 0%nat) (nth (3 * f + 2) vi 0%nat))) /\
    (forall i, (i < nv)%nat -> M_Loop.posn m i = mkV (nth (3 * i) P 0) (nth (3 * i + 1) P 0) (nth (3 * i + 2) P 0)).
Proof.
  intros LV LP SF FU. pose proof (triples_len nt vi LV) as TV. pose proof (triples_len nv P LP) as TP.
  rewrite <- TP in SF.
  destruct (P_Loop12.at_ex fuel (triples vi) (triples P) SF FU 0) as (m & H).
  destruct (P_Loop12.at_zero fuel (triples vi) (triples P) SF FU m H) as (Q & T & V & OK).
  exists m. assert (LM : length (M_Loop.mV m) = nv) by (rewrite <- TP, <- V, map_length; reflexivity).
  split; [|split; [exact OK|split; [now rewrite T|split; [exact LM|split]]]].
  - unfold create_loop_subdiv. rewrite LV, LP, TP. rewrite !(Nat.mul_comm 3), !Nat.mod_mul by lia. cbn [Nat.eqb negb].
    replace (existsb _ vi) with false.
    + rewrite Q. reflexivity.
    + symmetry. apply not_true_is_false. intros E. apply existsb_exists in E. destruct E as (i & Hi & E). apply Nat.leb_le in E.
      apply In_nth with (d := 0%nat) in Hi. destruct Hi as (n & Hn & <-). rewrite TP in SF.
      pose proof (Nat.div_mod n 3 ltac:(lia)) as DM. pose proof (Nat.mod_upper_bound n 3 ltac:(lia)) as MB.
      assert (HF : (n / 3 < nt)%nat) by (apply Nat.div_lt_upper_bound; lia).
      pose proof (triples_nth 0%nat nt vi LV _ HF) as TN.
      destruct SF as (RG & _). assert (L : (n / 3 < length (triples vi))%nat) by lia.
      pose proof (RG _ M_Loop.k0 L) as R0. pose proof (RG _ M_Loop.k1 L) as R1. pose proof (RG _ M_Loop.k2 L) as R2.
      unfold M_Loop.tri_at in *. rewrite (nth_error_nth _ _ _ TN) in R0, R1, R2. cbn [M_Loop.at3 vx vy vz] in R0, R1, R2.
      assert (C : n = (3 * (n / 3))%nat \/ n = (3 * (n / 3) + 1)%nat \/ n = (3 * (n / 3) + 2)%nat) by lia.
      destruct C as [C|[C|C]]; rewrite C in E; lia.
  - intros f Hf. rewrite T. now apply (triples_nth 0%nat nt).
  - intros i Hi. unfold M_Loop.posn, M_Loop.getV. rewrite <- (map_nth M_Loop.vP), V. apply nth_error_nth. now apply (triples_nth 0 nv).
Qed.
Print Assumptions C239_created.
Example C239_meets : let vi := [0; 1; 2]%nat in length vi = (3 * 1)%nat /\ S_Loop.surface (triples vi) 3 /\ S_Loop.enough (fun n => n).
Proof. split; [reflexivity|]. split; [exact Props_Loop.single_surface|]. intros n. lia. Qed.

(** ** C240 *)
Lemma wb_spec (o2w : transform) (ps : list vec) (B := fold_left (fun b p => union_pt b (vmap Fin (t_point o2w p))) ps bbox_empty) :
  (forall p, In p ps -> in_box B (t_point o2w p)) /\
  (forall B', box_ok B' -> (forall p, In p ps -> in_box B' (t_point o2w p)) -> box_le B B').
Proof.
  set (L := map (fun p => GP (vmap Fin (t_point o2w p))) ps).
  assert (EB : B = accumulate bbox_empty L).
  { unfold B, L, accumulate. generalize bbox_empty. clear. induction ps as [|p l IH]; intros b; cbn [fold_left map]; [reflexivity|]. rewrite IH. reflexivity. }
  assert (OK : Forall S_Geometry.geom_ok L).
  { unfold L. apply Forall_forall. intros g Hg. apply in_map_iff in Hg. destruct Hg as (p & <- & _). apply nonan_Fin. }
  pose proof (accumulate_lub L bbox_empty) as LUB.
  assert (OKB : box_ok (accumulate bbox_empty L)) by (apply accumulate_ok; auto; apply empty_ok).
  rewrite EB. split.
  - intros p Hp. rewrite <- le3_Fin_in.
    assert (F := proj1 (LUB (accumulate bbox_empty L) empty_ok OK) (box_le_refl _ OKB)).
    destruct F as [_ F]. apply (proj1 (Forall_forall _ _) F). unfold L. apply in_map_iff. eauto.
  - intros B' OB HB. apply LUB; auto; [apply empty_ok|]. split; [now apply empty_le|].
    apply Forall_forall. intros g Hg. unfold L in Hg. apply in_map_iff in Hg.
    destruct Hg as (p & <- & Hp). rewrite le3_Fin_in. auto.
Qed.
Lemma wb_map o2w m : loop_world_bound o2w m = fold_left (fun b p => union_pt b (vmap Fin (t_point o2w p))) (map M_Loop.vP (M_Loop.mV m)) bbox_empty.
Proof. unfold loop_world_bound. generalize bbox_empty. induction (M_Loop.mV m) as [|x l IH]; intros b; cbn [fold_left map]; [reflexivity|]. apply IH. Qed.
(** The reported box is the smallest one around the placed control vertices. *)
Theorem C240_tight (fuel : nat -> nat) (o2w : transform) (ts : list (V3 nat)) (ps : list vec) (m0 : M_Loop.mesh) :
  S_Loop.surface ts (length ps) -> S_Loop.enough fuel -> M_Loop.loop_make (fuel (length ts)) ts ps = M_Loop.ret m0 ->
  (forall p, In p ps -> in_box (loop_world_bound o2w m0) (t_point o2w p)) /\
  (forall B, box_ok B -> (forall p, In p ps -> in_box B (t_point o2w p)) -> box_le (loop_world_bound o2w m0) B).
Proof.
  intros SF FU Q0. destruct (P_Loop12.at_zero fuel ts ps SF FU m0) as (_ & _ & P & _); [exists m0; auto|].
  rewrite wb_map, P. apply wb_spec.
Qed.
Lemma hull_affine (m : M4) ps p : S_Loop.in_hull ps p -> S_Loop.in_hull (map (apt m) ps) (apt m p).
Proof.
  intros H a c HC.
  set (a' := mkV (vx a * q0 (row0 m) + vy a * q0 (row1 m) + vz a * q0 (row2 m))
                 (vx a * q1 (row0 m) + vy a * q1 (row1 m) + vz a * q1 (row2 m))
                 (vx a * q2 (row0 m) + vy a * q2 (row1 m) + vz a * q2 (row2 m))).
  set (c' := c - (vx a * q3 (row0 m) + vy a * q3 (row1 m) + vz a * q3 (row2 m))).
  assert (EQ : forall q, vdot a (apt m q) = vdot a' q + (vx a * q3 (row0 m) + vy a * q3 (row1 m) + vz a * q3 (row2 m))).
  { intros q. unfold apt, vdot, dot4, a'; cbn. ring. }
  rewrite EQ. assert (X : vdot a' p <= c'); [|unfold c' in X; lra].
  apply H. intros q Hq. specialize (HC (apt m q) (in_map _ _ _ Hq)). rewrite EQ in HC. unfold c'. lra.
Qed.
(** Under an affine placement it also contains every vertex of every refined mesh and of the limit meshes. *)
Theorem C240_refined (fuel : nat -> nat) (o2w : transform) (ts : list (V3 nat)) (ps : list vec) (n : nat) (m0 m m2 : M_Loop.mesh) :
  affine (tm o2w) -> S_Loop.surface ts (length ps) -> S_Loop.enough fuel -> M_Loop.loop_make (fuel (length ts)) ts ps = M_Loop.ret m0 ->
  S_Loop.mesh_at fuel ts ps n m -> M_Loop.to_limit (fuel (length (M_Loop.mF m))) m = M_Loop.ret m2 ->
  forall v, (v < length (M_Loop.mV m))%nat ->
    in_box (loop_world_bound o2w m0) (t_point o2w (M_Loop.posn m v)) /\ in_box (loop_world_bound o2w m0) (t_point o2w (M_Loop.posn m2 v)).
Proof.
  intros AF SF FU Q0 HM QL v Hv. destruct (Props_Loop.C117_hull fuel ts ps n m m2 SF FU HM QL) as [A B].
  destruct (C240_tight fuel o2w ts ps m0 SF FU Q0) as [T _].
  assert (W : forall q, S_Loop.in_hull ps q -> in_box (loop_world_bound o2w m0) (t_point o2w q)).
  { intros q Hq. rewrite t_point_affine by auto. apply (P_Loop9.hull_in_box _ (map (apt (tm o2w)) ps)); [|now apply hull_affine].
    intros x Hx. apply in_map_iff in Hx. destruct Hx as (y & <- & Hy). rewrite <- t_point_affine by auto. auto. }
  split; apply W; auto.
Qed.
Print Assumptions C240_tight.
Print Assumptions C240_refined.

(** ** C241 *)
(** With at least one level, a surface refined any number of times gives the same mesh each time and keeps its bounds. *)
Theorem C241_levels_partial (fuel : nat -> nat) (nl k : nat) (o2w : transform) (m : M_Loop.mesh) : (1 <= nl)%nat ->
  let '(rs, m') := loop_refine_times k fuel nl m in
  length rs = k /\ (forall r, In r rs -> r = M_Loop.refine fuel nl m) /\
  M_Loop.loop_object_bound m' = M_Loop.loop_object_bound m /\ loop_world_bound o2w m' = loop_world_bound o2w m.
Proof.
  intros H. destruct nl as [|nl]; [lia|]. clear H. assert (E : loop_refine_times k fuel (S nl) m = (repeat (M_Loop.refine fuel (S nl) m) k, m)).
  { induction k as [|k IH]; [reflexivity|]. cbn [loop_refine_times loop_refine repeat]. rewrite IH. reflexivity. }
  rewrite E. split; [apply repeat_length|]. split; [intros r Hr; now apply repeat_spec in Hr|]. split; reflexivity.
Qed.
Print Assumptions C241_levels_partial.
Lemma single_edges a b : S_Loop.border Props_Loop.single a b -> (a = 0 /\ b = 1 \/ a = 1 /\ b = 2 \/ a = 2 /\ b = 0)%nat.
Proof.
  intros ((F & HF & k & A & B) & _). cbn [Props_Loop.single length] in HF. assert (F = 0%nat) as -> by lia.
  destruct k; cbn in A, B; subst; auto.
Qed.
Lemma single_on v : (v < 3)%nat -> S_Loop.on_border Props_Loop.single v.
Proof.
  intros H. assert (C : v = 0%nat \/ v = 1%nat \/ v = 2%nat) by lia.
  assert (W : forall k a b, M_Loop.tri_at Props_Loop.single 0 k = a -> M_Loop.tri_at Props_Loop.single 0 (M_Loop.NEXT k) = b -> S_Loop.on_border Props_Loop.single a).
  { intros k a b HA HB. exists b. split; [exists 0%nat; split; [cbn; lia|now exists k]|].
    intros (G & HG & j & A & B). cbn [Props_Loop.single length] in HG. assert (G = 0)%nat as -> by lia. destruct k, j; cbn in *; lia. }
  destruct C as [->|[->| ->]]; [apply (W M_Loop.k0 _ 1%nat)|apply (W M_Loop.k1 _ 2%nat)|apply (W M_Loop.k2 _ 0%nat)]; reflexivity.
Qed.
Section Zero.
Variables (fuel : nat -> nat) (FU : S_Loop.enough fuel).
Lemma zero_run m : M_Loop.tris m = Props_Loop.single -> length (M_Loop.mV m) = 3%nat -> S_Loop.mesh_ok m ->
  exists m2 ns, M_Loop.to_limit (fuel (length (M_Loop.mF m))) m = M_Loop.ret m2 /\
    loop_refine fuel 0 m = (M_Loop.ret ([0; 1; 2]%nat, map M_Loop.vP (M_Loop.mV m2), ns), m2) /\
    M_Loop.tris m2 = Props_Loop.single /\ length (M_Loop.mV m2) = 3%nat /\ S_Loop.mesh_ok m2 /\
    vx (M_Loop.posn m2 0) = 3 / 5 * vx (M_Loop.posn m 0) + 1 / 5 * (vx (M_Loop.posn m 1) + vx (M_Loop.posn m 2)) /\
    vx (M_Loop.posn m2 1) = 3 / 5 * vx (M_Loop.posn m 1) + 1 / 5 * (vx (M_Loop.posn m 2) + vx (M_Loop.posn m 0)) /\
    vx (M_Loop.posn m2 2) = 3 / 5 * vx (M_Loop.posn m 2) + 1 / 5 * (vx (M_Loop.posn m 0) + vx (M_Loop.posn m 1)).
Proof.
  intros T L OK. assert (SF : S_Loop.surface (M_Loop.tris m) (length (M_Loop.mV m))) by (rewrite T, L; apply Props_Loop.single_surface).
  destruct (P_Loop8.to_limit_ok m (fuel (length (M_Loop.mF m))) SF OK) as (m2 & Q2 & LI); [rewrite P_Loop2.tris_len; apply FU|].
  destruct (P_Loop8.limit_mesh_ok m m2 OK LI) as [T2 OK2]. pose proof (P_Loop8.li_V _ _ LI) as LV.
  assert (SF2 : S_Loop.surface (M_Loop.tris m2) (length (M_Loop.mV m2))) by (rewrite T2, LV; exact SF).
  destruct (P_Loop9.normals_run m2 (fuel (length (M_Loop.mF m))) SF2 OK2) with (vs := seq 0 (length (M_Loop.mV m2))) (st := @None (vec * vec)) as (ns & QN & LN).
  { rewrite T2, P_Loop2.tris_len. apply FU. }
  { intros v Hv. apply in_seq in Hv. lia. }
  { right. left. rewrite LV, L. exists 0%nat, (seq 1 2). split; [reflexivity|]. rewrite T2, T. apply Props_Loop.single_border. }
  exists m2, ns. split; [exact Q2|]. split.
  { unfold loop_refine, M_Loop.refine. cbn [M_Loop.levels M_Loop.rbind M_Loop.ret]. rewrite Q2. cbn [M_Loop.rbind M_Loop.ret]. rewrite QN. cbn [M_Loop.rbind M_Loop.ret].
    rewrite T2, T. reflexivity. }
  split; [congruence|]. split; [congruence|]. split; [exact OK2|].
  assert (R : forall v a b, (v < 3)%nat -> (forall x, S_Loop.border Props_Loop.single v x -> x = a) -> (forall x, S_Loop.border Props_Loop.single x v -> x = b) ->
     vx (M_Loop.posn m2 v) = 3 / 5 * vx (M_Loop.posn m v) + 1 / 5 * (vx (M_Loop.posn m a) + vx (M_Loop.posn m b))).
  { intros v a b Hv HA HB. destruct (P_Loop8.li_rule _ _ LI v) as [BR _]; [lia|]. rewrite T in BR.
    destruct (BR (single_on v Hv)) as (x & y & X & Y & ->). rewrite (HA x X), (HB y Y). unfold vadd, vscale, vmap, vmap2; cbn [vx vy vz]. field. }
  split; [|split]; apply R; try lia; intros x X; apply single_edges in X; lia.
Qed.
End Zero.
(** With no level, refining moves the surface's own vertices: the second refinement gives other positions. *)
Theorem C241_zero_refuted (fuel : nat -> nat) : S_Loop.enough fuel -> exists ps m0 P1 N1 P2 N2 m1 m2,
  S_Loop.surface Props_Loop.single (length ps) /\ M_Loop.loop_make (fuel (length Props_Loop.single)) Props_Loop.single ps = M_Loop.ret m0 /\
  loop_refine fuel 0 m0 = (M_Loop.ret ([0; 1; 2]%nat, P1, N1), m1) /\
  loop_refine fuel 0 m1 = (M_Loop.ret ([0; 1; 2]%nat, P2, N2), m2) /\ P1 <> P2.
Proof.
  intros FU. set (ps := [mkV 1 0 0; mkV 0 0 0; mkV 0 0 0]). exists ps.
  assert (SF : S_Loop.surface Props_Loop.single (length ps)) by apply Props_Loop.single_surface.
  destruct (P_Loop12.at_ex fuel Props_Loop.single ps SF FU 0) as (m0 & H).
  destruct (P_Loop12.at_zero fuel Props_Loop.single ps SF FU m0 H) as (Q & T & V & OK).
  assert (L : length (M_Loop.mV m0) = 3%nat) by (rewrite <- (map_length M_Loop.vP), V; reflexivity).
  destruct (zero_run fuel FU m0 T L OK) as (m1 & N1 & _ & R1 & T1 & L1 & OK1 & A0 & A1 & A2).
  destruct (zero_run fuel FU m1 T1 L1 OK1) as (m2 & N2 & _ & R2 & T2 & L2 & OK2 & B0 & B1 & B2).
  exists m0, (map M_Loop.vP (M_Loop.mV m1)), N1, (map M_Loop.vP (M_Loop.mV m2)), N2, m1, m2.
  split; [exact SF|]. split; [exact Q|]. split; [exact R1|]. split; [exact R2|]. intros EQ.
  assert (E0 : M_Loop.posn m1 0 = M_Loop.posn m2 0).
  { unfold M_Loop.posn, M_Loop.getV. rewrite <- !(map_nth M_Loop.vP). now rewrite EQ. }
  assert (P : forall i, M_Loop.posn m0 i = nth i ps vzero) by (intros i; unfold M_Loop.posn, M_Loop.getV; rewrite <- (map_nth M_Loop.vP), V; reflexivity).
  rewrite !P in A0, A1, A2. cbn in A0, A1, A2.
  apply (f_equal vx) in E0. rewrite B0, A0, A1, A2 in E0. lra.
Qed.
Print Assumptions C241_zero_refuted.

(** ** C242 *)
(** The object a primitive of the list is rendered as: itself, or, for a subdivision surface, the mesh its refinement
    hands over, with the same placement, material and light. *)
Definition stands_for (fuel : nat -> nat) (it : item2) (it' : item) : Prop :=
  it_material it' = it2_material it /\ it_light it' = it2_light it /\
  match it2_geom it with
  | G1 g => it_geom it' = g
  | GLoop b m nl => exists vi P N, M_Loop.refine fuel nl m = M_Loop.ret (vi, P, N) /\ length N = length P /\ P <> [] /\
      it_geom it' = GMesh b (map Z.of_nat vi) P (Some N) None None
  end.
Lemma belongs_same it it' g p : it_geom it = it_geom it' -> it_material it = it_material it' -> it_light it = it_light it' ->
  belongs it g p -> belongs it' g p.
Proof. unfold belongs. intros <- <- <-. auto. Qed.
Lemma refine2_item fuel it it' ns np : stands_for fuel it it' -> S_Scene.geom_ok (it_geom it') ->
  exists it1 ns' np' ns1 np1, full_refine_item2 fuel it ns np = M_Loop.ret (full_refine_item it1 ns1 np1) /\
    it_geom it1 = it_geom it' /\ it_material it1 = it_material it' /\ it_light it1 = it_light it' /\
    full_refine_item it1 ns1 np1 = (map snd (pairs_of it1 ns1 np1), ns', np').
Proof.
  intros (M & LI & G) OK. unfold full_refine_item2. destruct (it2_geom it) as [g|b m nl].
  - set (it1 := mkItem g _ _ _ _). exists it1. pose proof (pairs_snd it1 ns np) as PS.
    destruct (full_refine_item it1 ns np) as [[ps ns'] np'] eqn:E. exists ns', np', ns, np. rewrite E. cbn [fst] in PS.
    split; [reflexivity|]. cbn. rewrite PS. auto.
  - destruct G as (vi & P & N & Q & LN & NE & EG). unfold loop_geom. rewrite Q. cbn [M_Loop.rbind M_Loop.ret].
    rewrite EG in OK. destruct OK as (O1 & O2 & _).
    destruct (create_mesh_total b (map Z.of_nat vi) P (Some N) None None) as (tm' & CM); auto.
    { intros i Hi. red in O2. rewrite Forall_forall in O2. apply O2 in Hi. lia. }
    { intros l [= <-]. exact LN. }
    { discriminate. } { discriminate. }
    rewrite CM. cbn [M_Loop.lift M_Loop.rbind M_Loop.ret].
    set (it1 := mkItem _ _ _ _ _). exists it1. pose proof (pairs_snd it1 (ns + 1) (np + 1)) as PS.
    destruct (full_refine_item it1 (ns + 1) (np + 1)) as [[ps ns'] np'] eqn:E. exists ns', np', (ns + 1)%Z, (np + 1)%Z.
    rewrite E. cbn [fst] in PS. split; [reflexivity|]. rewrite PS. cbn. auto.
Qed.
Lemma refine2_items fuel r0 l items : Forall2 (stands_for fuel) l items -> Forall (fun it => S_Scene.geom_ok (it_geom it)) items ->
  forall ns np, exists ps, full_refine_items2 fuel l ns np = M_Loop.ret (map snd ps) /\
    (forall g p, In (g, p) ps -> exists it, In it items /\ belongs it g p) /\
    (forall it t, In it items -> S_Scene.geom_ok (it_geom it) -> touches (it_geom it) r0 t -> exists g p, In (g, p) ps /\ p_touches g r0 t).
Proof.
  intros F. induction F as [|it it' l items ST F IH]; intros OK ns np.
  - exists []. split; [reflexivity|]. split; [intros g p []|intros it t []].
  - inversion OK as [|? ? O1 O2]; subst.
    destruct (refine2_item fuel it it' ns np ST O1) as (it1 & ns' & np' & ns1 & np1 & R1 & E1 & E2 & E3 & FR).
    destruct (IH O2 ns' np') as (ps & R2 & B & C).
    exists (pairs_of it1 ns1 np1 ++ ps). split; [|split].
    + cbn [full_refine_items2]. rewrite R1, FR. cbn [M_Loop.rbind M_Loop.ret]. rewrite R2. cbn [M_Loop.rbind M_Loop.ret]. now rewrite map_app.
    + intros g p H. apply in_app_or in H. destruct H as [H|H].
      * exists it'. split; [now left|]. apply (belongs_same it1); auto. eapply pairs_belong; eauto.
      * destruct (B g p H) as (x & Hx & BX). exists x. split; [now right|exact BX].
    + intros x t [<-|Hx] HO HT.
      * rewrite <- E1 in HO, HT. destruct (pairs_cover it1 ns1 np1 r0 t HO HT) as (g & p & H & K). exists g, p. split; [apply in_or_app; now left|exact K].
      * destruct (C x t Hx HO HT) as (g & p & H & K). exists g, p. split; [apply in_or_app; now right|exact K].
Qed.
(** An open surface whose vertex 0 lies on a border is rendered as the triangles of its last level at their limit
    positions: it stands for a proper mesh. *)
Theorem C242_open (fuel : nat -> nat) (nl : nat) (ts : list (V3 nat)) (ps : list vec) (m0 : M_Loop.mesh) (b : base) (it : item2) :
  S_Loop.surface ts (length ps) -> (0 < length ps)%nat -> S_Loop.enough fuel -> S_Loop.on_border ts 0 ->
  M_Loop.loop_make (fuel (length ts)) ts ps = M_Loop.ret m0 -> it2_geom it = GLoop b m0 nl ->
  exists it' m m2 N, stands_for fuel it it' /\ S_Scene.geom_ok (it_geom it') /\
    S_Loop.mesh_at fuel ts ps nl m /\ M_Loop.to_limit (fuel (length (M_Loop.mF m))) m = M_Loop.ret m2 /\
    it_geom it' = GMesh b (map Z.of_nat (flat_map (fun t => [vx t; vy t; vz t]) (M_Loop.tris m))) (map M_Loop.vP (M_Loop.mV m2)) (Some N) None None.
Proof.
  intros SF H0 FU BD Q0 EG.
  destruct (Props_Loop.C120_open_mesh_is_refined_partial fuel nl ts ps m0 SF H0 FU BD Q0) as (m & m2 & ns & HM & QL & QR & LN & RG).
  set (vi := flat_map (fun t : V3 nat => [vx t; vy t; vz t]) (M_Loop.tris m)) in *.
  exists (mkItem (GMesh b (map Z.of_nat vi) (map M_Loop.vP (M_Loop.mV m2)) (Some ns) None None) 0 0 (it2_material it) (it2_light it)), m, m2, ns.
  destruct (P_Loop12.at_ok fuel ts ps SF FU nl m HM) as (A & B & _).
  destruct (P_Loop8.to_limit_ok m (fuel (length (M_Loop.mF m))) A B) as (m2' & Q2' & LI); [rewrite P_Loop2.tris_len; apply FU|].
  rewrite QL in Q2'. injection Q2' as <-. pose proof (P_Loop8.li_V _ _ LI) as LV.
  assert (L3 : exists k, length vi = (3 * k)%nat).
  { unfold vi. generalize (M_Loop.tris m). intros l. exists (length l). induction l as [|t l IH]; [reflexivity|]. cbn [flat_map]. rewrite app_length, IH. cbn [length]. lia. }
  assert (NZ : (0 < length (M_Loop.mV m))%nat).
  { destruct (M_Loop.mV m) eqn:EV; [|cbn; lia]. exfalso.
    assert (length (M_Loop.tris m) = (4 ^ nl * length ts)%nat) as LT by apply (P_Loop12.at_ok fuel ts ps SF FU nl m HM).
    destruct BD as (w & (F & (HF & _)) & _). assert (0 < length (M_Loop.tris m))%nat.
    { rewrite LT. assert (0 < 4 ^ nl)%nat by (apply Nat.neq_0_lt_0, Nat.pow_nonzero; lia). nia. }
    destruct A as (RG' & _). specialize (RG' 0%nat M_Loop.k0 H). cbn in RG'. lia. }
  split; [|split; [|split; [exact HM|split; [exact QL|reflexivity]]]].
  - split; [reflexivity|]. split; [reflexivity|]. rewrite EG. exists vi, (map M_Loop.vP (M_Loop.mV m2)), ns.
    split; [exact QR|]. split; [rewrite map_length; lia|]. split; [|reflexivity].
    destruct (M_Loop.mV m2) eqn:E2; [cbn in LV; lia|discriminate].
  - cbn [it_geom S_Scene.geom_ok]. rewrite map_length. destruct L3 as (k & ->). split; [rewrite Nat.mul_comm; now apply Nat.mod_mul|].
    split; [|discriminate]. apply Forall_forall. intros i Hi. apply in_map_iff in Hi. destruct Hi as (j & <- & Hj). specialize (RG j Hj). lia.
Qed.
Print Assumptions C242_open.
(** A scene of meshes, spheres, disks and such surfaces: both queries see every one of them. *)
Theorem C242_scene (mp : nat) (fuel : nat -> nat) (l : list item2) (items : list item) (ns np : Z) (r0 : ray) :
  (mp <= 4)%nat -> Forall2 (stands_for fuel) l items -> Forall (fun it => S_Scene.geom_ok (it_geom it)) items ->
  Forall (fun it => avoids_centre r0 (it_geom it)) items -> pos_zero r0 -> notnan (rmint r0) -> notnan (rmaxt r0) ->
  exists prims, full_refine_items2 fuel l ns np = M_Loop.ret prims /\
    ((forall p b, In p prims -> shape_bound (gp_shape p) = Ok b -> off_x_faces r0 (fst b) (snd b)) ->
     ((length prims <= 65)%nat \/ forall bounds t o n, prim_bounds prims = Ok bounds -> bvh_build SAH mp bounds = Ok (t, o, n) -> (theight t <= 64)%nat) ->
     exists sc steps, scene_make mp prims = Ok sc /\ forall fu, (steps <= fu)%nat ->
       (forall i0, exists found r' i', scene_intersect fu sc r0 i0 = Ok (Some (found, r', i')) /\ scene_nearest items r0 i0 found r' i') /\
       (exists b, scene_intersect_p fu sc r0 = Ok (Some b) /\ scene_any items r0 b)).
Proof.
  intros Hmp F OK AV Z1 N1 N2. destruct (refine2_items fuel r0 l items F OK ns np) as (ps & R & B & C).
  exists (map snd ps). split; [exact R|]. intros HF HB.
  destruct (x_scene_nearest_main mp items ps r0 B C Hmp OK AV Z1 N1 N2 HF HB) as (sc & st & S1 & Q1).
  destruct (x_scene_any_main mp items ps r0 B C Hmp OK AV Z1 N1 N2 HF HB) as (sc' & st' & S2 & Q2).
  rewrite S1 in S2. injection S2 as <-. exists sc, (Nat.max st st'). split; [exact S1|]. intros fu Hfu. split; [intros i0; apply Q1; lia|apply Q2; lia].
Qed.
Print Assumptions C242_scene.
Example C242_meets : exists m0 b it', let it := mkItem2 (GLoop b m0 1) 1 1 7 None in
  stands_for (fun n => n) it it' /\ S_Scene.geom_ok (it_geom it') /\ Forall2 (stands_for (fun n => n)) [it] [it'].
Proof.
  set (ps := [mkV 1 0 0; mkV 0 1 0; mkV 0 0 1]). assert (FU : S_Loop.enough (fun n => n)) by (intros n; lia).
  assert (SF : S_Loop.surface Props_Loop.single (length ps)) by apply Props_Loop.single_surface.
  destruct (P_Loop12.at_ex (fun n => n) Props_Loop.single ps SF FU 0) as (m0 & H).
  destruct (P_Loop12.at_zero (fun n => n) Props_Loop.single ps SF FU m0 H) as (Q & _).
  set (b := mkBase t_identity t_identity false).
  destruct (C242_open (fun n => n) 1 Props_Loop.single ps m0 b (mkItem2 (GLoop b m0 1) 1 1 7 None) SF ltac:(cbn; lia) FU Props_Loop.single_border Q eq_refl)
    as (it' & _ & _ & _ & ST & OK & _).
  exists m0, b, it'. split; [exact ST|]. split; [exact OK|]. constructor; [exact ST|constructor].
Qed.
