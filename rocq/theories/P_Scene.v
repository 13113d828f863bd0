(** Proofs about geometric primitives and scenes (C207 ...). *)
From Coq Require Import Reals Lra Lia List ZArith Bool Permutation.
From Verif Require Import Base M_Geometry S_Geometry P_Geometry M_Transform S_Transform P_Transform P_Transform2
  M_Shapes S_Shapes P_Quadrics P_Triangle P_Mesh P_ShapesMore P_ShapesMore2 M_BVH S_BVH P_BVH P_BVHTrav P_BVHWit M_Primitive S_Scene.
Import ListNotations.
Open Scope R_scope.

(** One primitive: its geometry alone. *)
Inductive pgeom :=
| PTri (b : base) (vi : list Z) (P : list vec) (N S : option (list vec)) (uv : option (list R)) (f : nat)
| PSph (b : base) (rad z0 z1 pm : R)
| PDisk (b : base) (h rad ri pm : R).
Definition p_shape (g : pgeom) : shape :=
  match g with
  | PTri b vi P N T uv f => STri (mesh_make b (length vi / 3) (length P) vi P N T uv None) (3 * Z.of_nat f)
  | PSph b rad z0 z1 pm => SSph (sphere_make b rad z0 z1 pm)
  | PDisk b h rad ri pm => SDisk (disk_make b h rad ri pm)
  end.
Definition p_touches (g : pgeom) (r : ray) (t : R) : Prop :=
  match g with
  | PTri b vi P _ _ _ f =>
        let a := S_Shapes.corner (b_o2w b) vi P f 0 in let c := S_Shapes.corner (b_o2w b) vi P f 1 in let d := S_Shapes.corner (b_o2w b) vi P f 2 in
        vdot (rd r) (tri_normal a c d) <> 0 /\ in_triangle a c d (ray_at r t)
  | PSph b rad z0 z1 pm => touches (GSphere b rad z0 z1 pm) r t
  | PDisk b h rad ri pm => touches (GDisk b h rad ri pm) r t
  end.
Definition p_ok (g : pgeom) : Prop :=
  match g with
  | PTri b vi P _ _ uv f => faces_ok vi (length P) /\ (3 * f + 2 < length vi)%nat /\ uv_ok uv f
  | PSph b rad z0 z1 pm => geom_ok (GSphere b rad z0 z1 pm)
  | PDisk b h rad ri pm => geom_ok (GDisk b h rad ri pm)
  end.
Definition p_avoids (r : ray) (g : pgeom) : Prop :=
  match g with PDisk b h rad ri pm => avoids_centre r (GDisk b h rad ri pm) | _ => True end.
Definition p_point (g : pgeom) (r : ray) (t : R) (p : vec) : Prop :=
  match g with PSph b rad z0 z1 pm => reported_point (GSphere b rad z0 z1 pm) r t p | _ => p = ray_at r t end.

(** What one primitive's tests do on a ray with the end of its range moved. *)
Definition p_contract (g : pgeom) (r0 : ray) : Prop :=
  forall m, notnan m -> let r := ray_set_maxt r0 m in
  match shape_intersect (p_shape g) r with
  | Err _ => False
  | Ok (Some h) => p_touches g r0 (h_t h) /\ ele (rmint r0) (Fin (h_t h)) /\ ele (Fin (h_t h)) m /\
      (forall t', p_touches g r0 t' -> ele (rmint r0) (Fin t') -> h_t h <= t') /\ p_point g r0 (h_t h) (dg_p (h_dg h)) /\
      shape_intersect_p (p_shape g) r = Ok true
  | Ok None => (forall t', p_touches g r0 t' -> ele (rmint r0) (Fin t') -> ele (Fin t') m -> False) /\
      shape_intersect_p (p_shape g) r = Ok false
  end.

Lemma ray_at_set r m t : ray_at (ray_set_maxt r m) t = ray_at r t. Proof. reflexivity. Qed.
Lemma beyond m t t' : notnan m -> ele (Fin t) m -> ~ ele (Fin t') m -> t <= t'.
Proof.
  intros Nm H1 H2. destruct (ele_total (Fin t') m) as [Q|Q]; [discriminate|exact Nm|contradiction|].
  apply ele_Fin. eapply ele_trans; eauto.
Qed.
Lemma ele_dec a b : {ele a b} + {~ ele a b}.
Proof. unfold ele. destruct (eleb a b); auto. Qed.

Lemma tri_no_err b nt nv vi P N S uv f r : faces_ok vi (length P) -> (3 * f + 2 < length vi)%nat -> uv_ok uv f ->
  exists o, tri_intersect (mesh_make b nt nv vi P N S uv None) (3 * Z.of_nat f) r = Ok o.
Proof.
  intros HF Hl HU. rewrite (tri_intersect_unfold b nt nv vi P N S uv None f r HF Hl). cbv zeta.
  destruct (tri_uvs_ok b nt nv vi P N S uv None f HU) as [t ->]. cbn [bind].
  repeat (match goal with |- context [if ?c then _ else _] => destruct c end); eauto.
Qed.
Lemma tri_hit_normal b nt nv vi P N S uv f r h : faces_ok vi (length P) -> (3 * f + 2 < length vi)%nat ->
  tri_intersect (mesh_make b nt nv vi P N S uv None) (3 * Z.of_nat f) r = Ok (Some h) ->
  vdot (rd r) (tri_normal (S_Shapes.corner (b_o2w b) vi P f 0) (S_Shapes.corner (b_o2w b) vi P f 1) (S_Shapes.corner (b_o2w b) vi P f 2)) <> 0.
Proof.
  intros HF Hl. rewrite (tri_intersect_unfold b nt nv vi P N S uv None f r HF Hl).
  destruct (Reqb _ 0) eqn:E; [discriminate|]. Rb. intros _ H. apply E. rewrite mt_div_normal. lra.
Qed.

Lemma sphere_hit_disc s r h : sphere_intersect s r = Some h -> EPS < sdisc s r.
Proof.
  unfold sphere_intersect. rewrite sphere_find_search. cbv zeta.
  pose proof (sdisc_eq s r) as HD. cbv zeta in HD. rewrite HD.
  destruct (Rleb _ _) eqn:E; [discriminate|]. Rb. intros _. lra.
Qed.

Lemma p_contract_ok g r0 : p_ok g -> notnan (rmint r0) -> p_avoids r0 g -> p_contract g r0.
Proof.
  destruct g as [b vi P N S uv f|b rad z0 z1 pm|b h rad ri pm]; cbn [p_ok p_avoids]; intros Hok Hm HA m Nm; cbv zeta;
    cbn [p_shape shape_intersect shape_intersect_p p_touches p_point].
  - destruct Hok as (HF & Hl & HU). set (r := ray_set_maxt r0 m).
    destruct (tri_no_err b (length vi / 3) (length P) vi P N S uv f r HF Hl HU) as [o E].
    rewrite (tri_intersect_p_unfold b (length vi / 3) (length P) vi P N S uv None f r HF Hl). rewrite E.
    destruct o as [h|].
    + destruct (tri_hit_sound b _ _ vi P N S uv None f r HF Hl h Hm Nm E) as ([R1 R2] & T & D & U).
      pose proof (tri_hit_normal _ _ _ _ _ _ _ _ _ _ _ HF Hl E) as Nz.
      split; [split; [exact Nz|exact T]|]. split; [exact R1|]. split; [exact R2|].
      split; [intros t' [_ Q] _; rewrite (U t' Q); lra|]. split; [exact D|reflexivity].
    + split; [|reflexivity]. intros t' [Q1 Q2] L1 L2.
      destruct (tri_hit_complete b (length vi / 3) (length P) vi P N S uv None f r HF Hl t' eq_refl HU Hm Nm Q1 (conj L1 L2) Q2) as (h & E' & _).
      congruence.
  - destruct Hok as (Hb & Hn & Hr). set (s := sphere_make b rad z0 z1 pm). set (r := ray_set_maxt r0 m).
    pose proof (sphere_intersect_spec s r (sphere_make_ok b rad z0 z1 pm Hr) Hb Hm Nm) as F. cbv zeta in F.
    assert (SP : sphere_intersect_p s r = match sphere_intersect s r with Some _ => true | None => false end).
    { rewrite sphere_p_find. unfold sphere_intersect. destruct (sphere_find s r) as [[t q]|]; reflexivity. }
    rewrite SP.
    pose proof (sphere_hit_disc s r) as HD.
    destruct (sphere_intersect s r) as [h|].
    + destruct F as ([R1 R2] & O & U & D1 & D2).
      split; [split; [exact (HD h eq_refl)|exact O]|]. split; [exact R1|]. split; [exact R2|]. split; [|split; [|reflexivity]].
      * intros t' [_ Q] L. destruct (ele_dec (Fin t') m) as [L2|L2]; [apply U; [split; auto|exact Q]|]. now apply (beyond m).
      * cbn [reported_point]. cbv zeta. change (ray_at r) with (ray_at r0) in *.
        set (q := t_point (b_w2o b) (ray_at r0 (h_t h))) in *.
        destruct (Req_dec (vx q) 0) as [X|X]; [destruct (Req_dec (vy q) 0) as [Y|Y]|].
        -- right. split; [exact X|]. split; [exact Y|]. exact (D2 X Y).
        -- left. apply D1. now right.
        -- left. apply D1. now left.
    + split; [|reflexivity]. intros t' [Q1 Q2] L1 L2. apply (F Q1 t'); [split; auto|exact Q2].
  - destruct Hok as (Hb & Hn & Hr). set (d := disk_make b h rad ri pm). set (r := ray_set_maxt r0 m).
    pose proof (disk_full_spec d r (phi_max_range pm) Hb Hm Nm) as F. cbv zeta in F.
    pose proof (disk_find_spec d r (phi_max_range pm) Hm Nm) as G. cbv zeta in G.
    assert (DP := disk_p_find d r).
    assert (HT : forall t, touches (GDisk b h rad ri pm) r0 t <->
       EPS <= Rabs (vz (t_vector (b_w2o b) (rd r0))) /\ disk_on d (t_point (b_w2o b) (ray_at r0 t))) by (intros; reflexivity).
    assert (HR : forall t, ray_at (t_ray (b_w2o (dk_base d)) r) t = t_point (b_w2o b) (ray_at r0 t)) by (intros t; change (ray_at r0 t) with (ray_at r t); now apply base_ray).
    destruct (disk_find d r) as [[t0 q0]|] eqn:DF.
    + destruct G as (G1 & G2 & G3 & G4 & G5).
      assert (T0 : touches (GDisk b h rad ri pm) r0 t0).
      { apply HT. split; [exact G4|]. rewrite <- HR, <- G2. exact G3. }
      unfold disk_intersect in *. rewrite DF in *.
      destruct (disk_dg d q0) as [g|e] eqn:DG; cbn [bind] in *.
      * destruct F as (F1 & [R1 R2] & F3 & F4). cbn [h_t h_dg] in *.
        split; [exact T0|]. split; [exact R1|]. split; [exact R2|]. split; [|split; [exact F3|now rewrite F1]].
        intros t' T' _. apply HT in T'. destruct T' as [_ T']. rewrite <- HR in T'. rewrite (G5 t' T'). lra.
      * destruct F as (_ & _ & t & R1 & O & L). specialize (HA t0 T0). cbv zeta in HA.
        assert (t = t0). { apply G5. rewrite HR. exact O. } subst t. cbn in L, HA. change (ray_at r) with (ray_at r0) in L. lra.
    + unfold disk_intersect in *. rewrite DF in *. cbn in F. split; [|now rewrite F].
      intros t' T' L1 L2. apply HT in T'. destruct T' as [T1 T2]. apply (G T1 t'); [split; auto|]. rewrite HR. exact T2.
Qed.

(** Bounds *)
Lemma in_corners_between lo hi p : in_corners (lo, hi) p -> between lo p hi /\ vle lo hi.
Proof. unfold in_corners, between, vle; cbn. lra. Qed.
Lemma p_bound_ok g r0 : p_ok g -> exists b, shape_bound (p_shape g) = Ok b /\
  forall t, p_touches g r0 t -> between (fst b) (ray_at r0 t) (snd b).
Proof.
  destruct g as [b vi P N S uv f|b rad z0 z1 pm|b h rad ri pm]; cbn [p_ok p_shape shape_bound p_touches]; intros Hok.
  - destruct Hok as (HF & Hl & HU).
    destruct (tri_bound_spec b (length vi / 3) (length P) vi P N S uv None f HF Hl) as (B & E & O & I & L).
    rewrite E. cbn [bind]. eexists. split; [reflexivity|]. intros t [_ T]. cbn [fst snd].
    specialize (I _ T). revert I. unfold tri_world_bound in E.
    destruct (tri_verts_ok b (length vi / 3) (length P) vi P N S uv None f HF Hl) as (E0 & E1 & E2).
    rewrite E0, E1, E2 in E. cbn [bind] in E. injection E as <-.
    unfold in_box, between, vle, union_pt, bbox_of, vmap2, vmap; cbn [bmin bmax vx vy vz].
    repeat (rewrite ?emin_Fin, ?emax_Fin). cbn [M_BVH.corner].
    intros H. repeat match goal with H : _ /\ _ |- _ => destruct H end.
    repeat match goal with H : ele (Fin _) (Fin _) |- _ => apply ele_Fin in H end. cbn [M_BVH.corner] in *. tauto.
  - destruct Hok as (Hb & Hn & Hr). eexists. split; [reflexivity|]. intros t [_ T].
    pose proof (proj1 quadric_bounds (sphere_make b rad z0 z1 pm) _ (Rlt_le _ _ Hr) T) as I.
    destruct (in_corners_between _ _ _ I) as [B1 B2].
    pose proof (bbox_image_in (b_o2w b) _ _ (proj2 (base_affine b Hb)) B2 Hn _ B1) as K.
    rewrite base_round in K by auto. exact K.
  - destruct Hok as (Hb & Hn & Hr). eexists. split; [reflexivity|]. intros t [_ T].
    pose proof (proj2 (proj2 quadric_bounds) (disk_make b h rad ri pm) _ (Rlt_le _ _ Hr) T) as I.
    destruct (in_corners_between _ _ _ I) as [B1 B2].
    pose proof (bbox_image_in (b_o2w b) _ _ (proj2 (base_affine b Hb)) B2 Hn _ B1) as K.
    rewrite base_round in K by auto. exact K.
Qed.

(** ** The traversal over geometric primitives simulates the traversal of [M_BVH] *)
Section Sim.
Variables (prims : list (pgeom * gprim)) (r0 : ray) (i0 : isect) (ordered : list nat) (dfl : gprim).
Hypothesis Hsh : forall g p, In (g, p) prims -> gp_shape p = p_shape g.
Hypothesis Hct : forall g p, In (g, p) prims -> p_contract g r0.
Hypothesis Hord : forall k, In k ordered -> (k < length prims)%nat.

Definition s_surf (k : nat) (t : R) : Prop := exists g p, nth_error prims k = Some (g, p) /\ p_touches g r0 t.
Definition s_pi : prim_isect := fun k r =>
  match nth_error prims k with
  | Some (g, _) => match shape_intersect (p_shape g) r with Ok (Some h) => Some (h_t h) | _ => None end
  | None => None
  end.
Definition s_pp (k : nat) (r : ray) : bool :=
  match nth_error prims k with
  | Some (g, _) => match shape_intersect_p (p_shape g) r with Ok b => b | _ => false end
  | None => false
  end.

Lemma s_nearest : nearest_contract s_surf s_pi r0.
Proof.
  intros k m Nm. cbv zeta. unfold s_pi. destruct (nth_error prims k) as [[g p]|] eqn:E.
  - pose proof (Hct g p (nth_error_In _ _ E) m Nm) as C. cbv zeta in C.
    destruct (shape_intersect (p_shape g) _) as [[h|]|]; [| |contradiction].
    + destruct C as (C1 & C2 & C3 & C4 & _). split; [exists g, p; auto|]. split; [exact C2|]. split; [exact C3|].
      intros t' (g' & p' & E' & T) L. rewrite E in E'. injection E' as <- <-. now apply C4.
    + destruct C as (C & _). intros t' (g' & p' & E' & T) L1 L2. rewrite E in E'. injection E' as <- <-. now apply (C t').
  - intros t' (g' & p' & E' & T). congruence.
Qed.
Lemma s_any : notnan (rmaxt r0) -> any_contract s_surf s_pp r0.
Proof.
  intros Nm k. unfold s_pp. destruct (nth_error prims k) as [[g p]|] eqn:E.
  - pose proof (Hct g p (nth_error_In _ _ E) (rmaxt r0) Nm) as C. cbv zeta in C.
    replace (ray_set_maxt r0 (rmaxt r0)) with r0 in C by (destruct r0; reflexivity).
    destruct (shape_intersect (p_shape g) _) as [[h|]|]; [| |contradiction].
    + destruct C as (C1 & C2 & C3 & C4 & _ & ->). split; auto. intros _. exists (h_t h). split; [exists g, p; auto|auto].
    + destruct C as (C & ->). split; [discriminate|]. intros (t' & (g' & p' & E' & T) & L1 & L2).
      rewrite E in E'. injection E' as <- <-. exfalso. now apply (C t').
  - split; [discriminate|]. intros (t' & (g' & p' & E' & T) & _). congruence.
Qed.

Definition stored_prims : list gprim := map (fun k => nth k (map snd prims) dfl) ordered.
Lemma stored_at k : (k < length ordered)%nat -> exists g p,
  nth_error prims (nth k ordered 0%nat) = Some (g, p) /\ prim_at stored_prims k = Ok p /\ In (g, p) prims.
Proof.
  intros H. set (j := nth k ordered 0%nat).
  assert (Hj : (j < length prims)%nat) by (apply Hord; now apply nth_In).
  destruct (nth_error prims j) as [[g p]|] eqn:E; [|apply nth_error_None in E; lia].
  exists g, p. split; [reflexivity|]. split; [|now apply nth_error_In in E].
  unfold prim_at, stored_prims. rewrite nth_error_map.
  rewrite (nth_error_nth' ordered 0%nat H). cbn [option_map]. fold j.
  f_equal. apply nth_error_nth. rewrite nth_error_map, E. reflexivity.
Qed.

Definition srel (st : bool * ray * isect) (s : ray * option nat) : Prop :=
  let '(b, r, i) := st in r = fst s /\ (exists m, notnan m /\ r = ray_set_maxt r0 m) /\
  match snd s with
  | None => b = false /\ i = i0 /\ r = r0
  | Some k => b = true /\ exists g p h m, nth_error prims (nth k ordered 0%nat) = Some (g, p) /\ In (g, p) prims /\ notnan m /\
      shape_intersect (p_shape g) (ray_set_maxt r0 m) = Ok (Some h) /\ r = ray_set_maxt r0 (Fin (h_t h)) /\
      i = record_hit p h
  end.

Lemma sim_leaf l : forall st s, (forall k, In k l -> (k < length ordered)%nat) -> srel st s ->
  exists st', sc_leaf (prim_at stored_prims) l st = Ok st' /\
    srel st' (leaf_loop (fun k => s_pi (nth k ordered 0%nat)) l s).
Proof.
  induction l as [|k l IH]; intros [[b r] i] [r1 hit] Hl HR; cbn [sc_leaf leaf_loop].
  { eauto. }
  destruct HR as (HR1 & (m & Nm & HR2) & HR3). cbn [fst snd] in *. subst r1.
  destruct (stored_at k ltac:(apply Hl; now left)) as (g & p & E & EP & Hin).
  rewrite EP. cbn [bind]. unfold gp_intersect. rewrite (Hsh g p Hin).
  unfold s_pi at 1. rewrite E.
  pose proof (Hct g p Hin m Nm) as C. cbv zeta in C. rewrite <- HR2 in C.
  destruct (shape_intersect (p_shape g) r) as [[h|]|] eqn:SI; [| |contradiction]; cbn [bind].
  - apply IH; [intros; apply Hl; now right|].
    split; [reflexivity|]. split; [exists (Fin (h_t h)); split; [discriminate|rewrite HR2; reflexivity]|].
    cbn [snd]. split; [reflexivity|]. exists g, p, h, m. rewrite <- HR2.
    repeat (split; [solve [auto]|]). rewrite HR2. split; reflexivity.
  - apply IH; [intros; apply Hl; now right|]. split; [reflexivity|]. split; [exists m; auto|].
    destruct b; exact HR3.
Qed.

Variable nodes : list lnode.
Hypothesis Hidx : forall j nd, nth_error nodes j = Some nd -> (0 < l_nprim nd)%nat ->
  (l_offset nd + l_nprim nd <= length ordered)%nat.

Lemma sim_traverse fuel : forall idx todo st s s', srel st s ->
  traverse fuel (fun k => s_pi (nth k ordered 0%nat)) nodes idx todo s = Ok (Some s') ->
  exists st', sc_traverse fuel (prim_at stored_prims) nodes idx todo st = Ok (Some st') /\ srel st' s'.
Proof.
  induction fuel as [|fuel IH]; intros idx todo [[b r] i] s s' HR HT; [discriminate|].
  cbn [traverse] in HT. cbn [sc_traverse].
  destruct (nth_error nodes idx) as [nd|] eqn:EN; [|discriminate].
  assert (HR1 := HR). destruct HR1 as (HR1 & _). rewrite <- HR1 in HT.
  destruct (box_test (l_bounds nd) r).
  - destruct (Nat.ltb_spec 0 (l_nprim nd)) as [Hp|Hp].
    + destruct (sim_leaf (seq (l_offset nd) (l_nprim nd)) (b, r, i) s) as (st' & E & HR'); auto.
      { intros k Hk. apply in_seq in Hk. specialize (Hidx idx nd EN Hp). lia. }
      rewrite E. cbn [bind]. destruct todo as [|j todo'].
      * injection HT as <-. eauto.
      * eapply IH; eauto.
    + destruct (64 <=? length todo)%nat; [discriminate|].
      destruct (Rltb _ 0); eapply IH; eauto.
  - destruct todo as [|j todo'].
    + injection HT as <-. eauto.
    + eapply IH; eauto.
Qed.

Lemma sim_leaf_p l : notnan (rmaxt r0) -> (forall k, In k l -> (k < length ordered)%nat) ->
  sc_leaf_p (prim_at stored_prims) l r0 = Ok (existsb (fun k => s_pp (nth k ordered 0%nat) r0) l).
Proof.
  intros Nm. induction l as [|k l IH]; intros Hl; [reflexivity|]. cbn [sc_leaf_p existsb].
  destruct (stored_at k ltac:(apply Hl; now left)) as (g & p & E & EP & Hin).
  rewrite EP. cbn [bind]. unfold gp_intersect_p. rewrite (Hsh g p Hin).
  unfold s_pp at 1. rewrite E.
  pose proof (Hct g p Hin (rmaxt r0) Nm) as C. cbv zeta in C.
  replace (ray_set_maxt r0 (rmaxt r0)) with r0 in C by (destruct r0; reflexivity).
  assert (exists bb, shape_intersect_p (p_shape g) r0 = Ok bb) as [bb EB].
  { destruct (shape_intersect (p_shape g) r0) as [[h|]|]; [| |contradiction]; eexists; apply C. }
  rewrite EB. cbn [bind]. destruct bb; [reflexivity|]. cbn [orb]. apply IH. intros; apply Hl; now right.
Qed.
Lemma sim_traverse_p fuel : notnan (rmaxt r0) -> forall idx todo s',
  traverse_p fuel (fun k => s_pp (nth k ordered 0%nat)) nodes idx todo r0 = Ok (Some s') ->
  sc_traverse_p fuel (prim_at stored_prims) nodes idx todo r0 = Ok (Some s').
Proof.
  intros Nm. induction fuel as [|fuel IH]; intros idx todo s' HT; [discriminate|].
  cbn [traverse_p] in HT. cbn [sc_traverse_p].
  destruct (nth_error nodes idx) as [nd|] eqn:EN; [|discriminate].
  destruct (box_test (l_bounds nd) r0).
  - destruct (Nat.ltb_spec 0 (l_nprim nd)) as [Hp|Hp].
    + rewrite sim_leaf_p; auto.
      2:{ intros k Hk. apply in_seq in Hk. specialize (Hidx idx nd EN Hp). lia. }
      cbn [bind]. destruct (existsb _ _); [exact HT|]. destruct todo; auto.
    + destruct (64 <=? length todo)%nat; [discriminate|]. destruct (Rltb _ 0); auto.
  - destruct todo; auto.
Qed.
End Sim.

(** ** From the scene description to primitives *)
Definition pairs_of (it : item) (ns np : Z) : list (pgeom * gprim) :=
  match it_geom it with
  | GMesh b vi P N T uv =>
      let nt := (length vi / 3)%nat in
      let m := mesh_make b nt (length P) vi P N T uv None in
      rev (map (fun k => (PTri b vi P N T uv k, mkGP (STri m (3 * Z.of_nat k)) (ns + Z.of_nat k) (np + Z.of_nat k)
                               (it_material it) (it_light it))) (seq 0 nt))
  | GSphere b rad z0 z1 pm =>
      [(PSph b rad z0 z1 pm, mkGP (SSph (sphere_make b rad z0 z1 pm)) (it_shape_id it) (it_id it) (it_material it) (it_light it))]
  | GDisk b h rad ri pm =>
      [(PDisk b h rad ri pm, mkGP (SDisk (disk_make b h rad ri pm)) (it_shape_id it) (it_id it) (it_material it) (it_light it))]
  end.
Fixpoint all_pairs (l : list item) (ns np : Z) : list (pgeom * gprim) :=
  match l with
  | [] => []
  | it :: l => let '(_, ns', np') := full_refine_item it ns np in pairs_of it ns np ++ all_pairs l ns' np'
  end.
Lemma pairs_snd it ns np : map snd (pairs_of it ns np) = fst (fst (full_refine_item it ns np)).
Proof.
  unfold pairs_of, full_refine_item. destruct (it_geom it); try reflexivity.
  cbn [fst]. rewrite map_rev, map_map. reflexivity.
Qed.
Lemma all_pairs_snd l : forall ns np, map snd (all_pairs l ns np) = full_refine_items l ns np.
Proof.
  induction l as [|it l IH]; intros ns np; [reflexivity|]. cbn [all_pairs full_refine_items].
  pose proof (pairs_snd it ns np) as E. destruct (full_refine_item it ns np) as [[ps ns'] np']. cbn [fst] in E.
  rewrite map_app, IH, E. reflexivity.
Qed.

Definition belongs (it : item) (g : pgeom) (p : gprim) : Prop :=
  gp_shape p = p_shape g /\ gp_material p = it_material it /\ gp_light p = it_light it /\
  (geom_ok (it_geom it) -> p_ok g) /\ (forall r, avoids_centre r (it_geom it) -> p_avoids r g) /\
  (forall r t, (length (match it_geom it with GMesh _ vi _ _ _ _ => vi | _ => [] end) mod 3 = 0)%nat ->
     p_touches g r t -> touches (it_geom it) r t) /\
  (forall r t p, p_point g r t p -> reported_point (it_geom it) r t p).
Lemma div3 n k : (k < n / 3)%nat -> (3 * k + 2 < n)%nat.
Proof. intros H. pose proof (Nat.div_mod n 3 ltac:(lia)). lia. Qed.
Lemma div3_inv n k : (n mod 3 = 0)%nat -> (3 * k + 2 < n)%nat -> (k < n / 3)%nat.
Proof. intros E H. pose proof (Nat.div_mod n 3 ltac:(lia)). lia. Qed.
Lemma pairs_belong it ns np g p : In (g, p) (pairs_of it ns np) -> belongs it g p.
Proof.
  unfold pairs_of, belongs. destruct (it_geom it) as [b vi P N T uv|b rad z0 z1 pm|b h rad ri pm].
  - intros H. apply in_rev in H. apply in_map_iff in H. destruct H as (k & E & Hk). injection E as <- <-. apply in_seq in Hk.
    cbn [gp_shape gp_material gp_light]. repeat (split; [reflexivity|]).
    assert (D : (3 * k + 2 < length vi)%nat) by (apply div3; lia).
    split; [|split; [|split]].
    + intros (_ & HF & HU). split; [exact HF|]. split; [exact D|]. unfold uv_ok. destruct uv as [l|]; [|exact I].
      specialize (HU l eq_refl). lia.
    + intros; exact I.
    + intros r t _ H. exists k. split; [exact D|exact H].
    + intros r t q H; exact H.
  - intros [E|[]]. injection E as <- <-. cbn [gp_shape gp_material gp_light p_shape].
    do 3 (split; [reflexivity|]). split; [exact (fun H => H)|]. split; [intros r H; first [exact I|exact H]|].
    split; [intros r t _ H; exact H|intros r t q H; exact H].
  - intros [E|[]]. injection E as <- <-. cbn [gp_shape gp_material gp_light p_shape].
    do 3 (split; [reflexivity|]). split; [exact (fun H => H)|]. split; [intros r H; first [exact I|exact H]|].
    split; [intros r t _ H; exact H|intros r t q H; exact H].
Qed.
Lemma all_belong l : forall ns np g p, In (g, p) (all_pairs l ns np) -> exists it, In it l /\ belongs it g p.
Proof.
  induction l as [|it l IH]; intros ns np g p H; [destruct H|]. cbn [all_pairs] in H.
  destruct (full_refine_item it ns np) as [[ps ns'] np']. apply in_app_or in H. destruct H as [H|H].
  - exists it. split; [now left|]. eapply pairs_belong; eauto.
  - destruct (IH _ _ _ _ H) as (it' & Hi & B). exists it'. split; [now right|exact B].
Qed.
Lemma pairs_cover it ns np r t : geom_ok (it_geom it) -> touches (it_geom it) r t ->
  exists g p, In (g, p) (pairs_of it ns np) /\ p_touches g r t.
Proof.
  unfold pairs_of. destruct (it_geom it) as [b vi P N T uv|b rad z0 z1 pm|b h rad ri pm]; intros Hok HT.
  - destruct HT as (f & Hf & HT). destruct Hok as (Hm & _). eexists _, _. split.
    + rewrite <- in_rev. apply in_map_iff. exists f. split; [reflexivity|]. apply in_seq. pose proof (div3_inv _ _ Hm Hf). lia.
    + exact HT.
  - eexists _, _. split; [now left|exact HT].
  - eexists _, _. split; [now left|exact HT].
Qed.
Lemma all_cover l r t it : forall ns np, In it l -> geom_ok (it_geom it) -> touches (it_geom it) r t ->
  exists g p, In (g, p) (all_pairs l ns np) /\ p_touches g r t.
Proof.
  induction l as [|it' l IH]; intros ns np Hi Hok HT; [destruct Hi|]. cbn [all_pairs].
  destruct (full_refine_item it' ns np) as [[ps ns'] np']. destruct Hi as [->|Hi].
  - destruct (pairs_cover it ns np r t Hok HT) as (g & p & H & K). exists g, p. split; [apply in_or_app; now left|exact K].
  - destruct (IH ns' np' Hi Hok HT) as (g & p & H & K). exists g, p. split; [apply in_or_app; now right|exact K].
Qed.

Lemma prim_bounds_ok (prims : list (pgeom * gprim)) : (forall g p, In (g, p) prims -> gp_shape p = p_shape g /\ p_ok g) ->
  exists bounds, prim_bounds (map snd prims) = Ok bounds /\ length bounds = length prims /\
    forall k g p, nth_error prims k = Some (g, p) -> shape_bound (p_shape g) = Ok (nth k bounds (vzero, vzero)).
Proof.
  induction prims as [|[g p] l IH]; intros H; cbn [map prim_bounds].
  - exists []. repeat split. intros [|k] g p E; discriminate.
  - destruct IH as (bs & E & L & K). { intros g' p' Hi. apply H. now right. }
    destruct (H g p (or_introl eq_refl)) as [S O]. cbn [snd]. rewrite S.
    destruct (p_bound_ok g (mkRay vzero vzero (mkV false false false) NaN NaN 0%Z 0) O) as (b & EB & _).
    rewrite EB, E. cbn [bind]. exists (b :: bs). split; [reflexivity|]. split; [cbn; lia|].
    intros [|k] g' p' E'; cbn in E'; [injection E' as <- <-; exact EB|]. cbn [nth]. eapply K; eauto.
Qed.

Section Scene.
Variables (mp : nat) (items : list item) (ns np : Z) (r0 : ray).
Hypothesis Hmp : (mp <= 4)%nat.
Hypothesis Hok : Forall (fun it => geom_ok (it_geom it)) items.
Hypothesis Hav : Forall (fun it => avoids_centre r0 (it_geom it)) items.
Hypothesis Hz : pos_zero r0.
Hypothesis Hm : notnan (rmint r0).
Hypothesis HM : notnan (rmaxt r0).
Let prims := full_refine_items items ns np.
Hypothesis Hface : forall p b, In p prims -> shape_bound (gp_shape p) = Ok b -> off_x_faces r0 (fst b) (snd b).
Hypothesis Hfit : (length prims <= 65)%nat \/ forall bounds t o n, prim_bounds prims = Ok bounds ->
  bvh_build SAH mp bounds = Ok (t, o, n) -> (theight t <= 64)%nat.
Let ps := all_pairs items ns np.

Lemma ps_prims : map snd ps = prims. Proof. apply all_pairs_snd. Qed.
Lemma ps_item g p : In (g, p) ps -> exists it, In it items /\ belongs it g p /\ geom_ok (it_geom it) /\ p_ok g /\ p_avoids r0 g.
Proof.
  intros H. destruct (all_belong _ _ _ _ _ H) as (it & Hi & B). exists it.
  rewrite Forall_forall in Hok, Hav. pose proof (Hok it Hi) as O. pose proof (Hav it Hi) as A.
  split; [exact Hi|]. split; [exact B|]. split; [exact O|]. destruct B as (_ & _ & _ & B1 & B2 & _). auto.
Qed.
Lemma ps_shape g p : In (g, p) ps -> gp_shape p = p_shape g.
Proof. intros H. destruct (ps_item g p H) as (it & _ & B & _). apply B. Qed.
Lemma ps_contract g p : In (g, p) ps -> p_contract g r0.
Proof. intros H. destruct (ps_item g p H) as (it & _ & _ & _ & O & A). now apply p_contract_ok. Qed.
Lemma belongs_touch it g p t : belongs it g p -> geom_ok (it_geom it) -> p_touches g r0 t -> touches (it_geom it) r0 t.
Proof.
  intros (_ & _ & _ & _ & _ & B & _) O. apply B. destruct (it_geom it); try reflexivity. apply O.
Qed.

Lemma scene_setup : prims <> [] -> exists bounds nodes ordered dfl, prim_bounds prims = Ok bounds /\ length bounds = length ps /\
   bvh_make SAH mp bounds = Ok (Some (nodes, ordered)) /\
   scene_make mp prims = Ok (Some (nodes, stored_prims ps ordered dfl)) /\
   (forall t o n, bvh_build SAH mp bounds = Ok (t, o, n) -> (theight t <= 64)%nat) /\
   (forall b, In b bounds -> off_x_faces r0 (fst b) (snd b)) /\
   within_bounds (s_surf ps r0) (fun i => nth i bounds (vzero, vzero)) r0 (length bounds) /\
   Permutation ordered (seq 0 (length ps)).
Proof.
  intros NE. destruct (prim_bounds_ok ps) as (bounds & EB & LB & KB).
  { intros g p H. split; [now apply ps_shape|]. now destruct (ps_item g p H) as (it & _ & _ & _ & O & _). }
  rewrite ps_prims in EB.
  assert (LP : length prims = length ps) by (rewrite <- ps_prims; apply map_length).
  destruct bounds as [|b0 bl].
  { exfalso. apply NE. destruct prims; [reflexivity|]. cbn in *. lia. }
  destruct (bvh_make_total mp b0 bl Hmp) as (r & M & _). 
  destruct r as [[nodes ordered]|].
  2:{ exfalso. unfold bvh_make in M. destruct (bvh_build _ _ _) as [[[t o] n]|]; [|discriminate]. cbn [bind] in M.
      destruct (bvh_flatten t n); discriminate. }
  set (bounds := b0 :: bl) in *.
  exists bounds, nodes, ordered. eexists. split; [exact EB|]. split; [exact LB|]. split; [exact M|].
  split; [unfold scene_make; rewrite EB; cbn [bind]; rewrite M; cbn [bind]; unfold stored_prims; rewrite ps_prims; reflexivity|].
  split; [|split; [|split]].
  - destruct Hfit as [H|H]; [|intros; eapply H; eauto].
    intros t o n. apply bvh_height_small. rewrite LB. lia.
  - intros b Hb. apply In_nth with (d := (vzero, vzero)) in Hb. destruct Hb as (k & Hk & <-). rewrite LB in Hk.
    destruct (nth_error ps k) as [[g p]|] eqn:E; [|apply nth_error_None in E; lia].
    apply (Hface p).
    + rewrite <- ps_prims. apply in_map_iff. exists (g, p). split; [reflexivity|]. now apply nth_error_In in E.
    + rewrite (ps_shape g p (nth_error_In _ _ E)). now apply (KB k g p).
  - intros k t Hk (g & p & E & T).
    destruct (ps_item g p (nth_error_In _ _ E)) as (it & _ & _ & _ & O & _).
    destruct (p_bound_ok g r0 O) as (b & EB' & I). rewrite (KB k g p E) in EB'. injection EB' as <-. now apply I.
  - destruct (bvh_make_inv _ _ _ _ _ M) as (t & q & _ & _ & _ & _ & _ & _ & PO & _). now rewrite LB in PO.
Qed.

Lemma ps_nil : prims = [] -> forall it t, In it items -> touches (it_geom it) r0 t -> False.
Proof.
  intros E it t Hi T. rewrite Forall_forall in Hok.
  destruct (all_cover items r0 t it ns np Hi (Hok it Hi) T) as (g & p & H & _).
  pose proof ps_prims as P. rewrite E in P. fold ps in H. apply map_eq_nil in P. rewrite P in H. destruct H.
Qed.
Lemma surf_items it t : In it items -> touches (it_geom it) r0 t -> exists k, (k < length ps)%nat /\ s_surf ps r0 k t.
Proof.
  intros Hi T. rewrite Forall_forall in Hok.
  destruct (all_cover items r0 t it ns np Hi (Hok it Hi) T) as (g & p & H & T'). fold ps in H.
  apply In_nth_error in H. destruct H as (k & E). exists k. split; [|exists g, p; auto].
  apply nth_error_Some. congruence.
Qed.

Lemma prims_nil_dec : prims = [] \/ prims <> []. Proof. destruct prims; [now left|right; discriminate]. Qed.

Theorem scene_nearest_sized : exists sc, scene_make mp prims = Ok sc /\
  forall i0 fuel, (scene_size sc <= fuel)%nat -> exists found r' i',
    scene_intersect fuel sc r0 i0 = Ok (Some (found, r', i')) /\ scene_nearest items r0 i0 found r' i'.
Proof.
  destruct prims_nil_dec as [E|NE].
  { exists None. split; [rewrite E; reflexivity|]. intros i0 fuel _. exists false, r0, i0. split; [reflexivity|].
    cbn. split; [reflexivity|]. split; [reflexivity|]. intros it t Hi T _ _. exact (ps_nil E it t Hi T). }
  destruct (scene_setup NE) as (bounds & nodes & ordered & dfl & EB & LB & M & SM & HH & HF & HW & PO).
  exists (Some (nodes, stored_prims ps ordered dfl)). split; [exact SM|]. cbn [scene_size]. intros i0 fuel Hfu.
  destruct (bvh_nearest_height SAH mp bounds nodes ordered (s_surf ps r0) (s_pi ps) r0 fuel M HH Hz HF HM HW
     (s_nearest ps r0 ps_contract) Hfu) as (r' & hit & HT & HN).
  unfold bvh_intersect in HT.
  destruct (sim_traverse ps r0 i0 ordered dfl ps_shape ps_contract) with (nodes := nodes) (fuel := fuel) (idx := 0%nat)
    (todo := @nil nat) (st := (false, r0, i0)) (s := (r0, @None nat)) (s' := (r', hit)) as ([[b' r1] i'] & HS & HR); auto.
  { intros k Hk. apply (Permutation_in _ PO) in Hk. apply in_seq in Hk. lia. }
  { intros j nd EN Hp. pose proof (bvh_indices _ _ _ _ _ M j nd EN) as B.
    apply Nat.ltb_lt in Hp. rewrite Hp in B. exact B. }
  { split; [reflexivity|]. split; [exists (rmaxt r0); split; [exact HM|destruct r0; reflexivity]|]. cbn. auto. }
  exists b', r1, i'. split; [exact HS|]. rewrite LB in HN.
  destruct HR as (HR1 & _ & HR3). cbn [fst snd] in *. subst r1.
  destruct hit as [k|]; cbn [option_map nearest_hit] in HN.
  - destruct HR3 as (-> & g & p & h & m & E & Hin & Nm & SI & HR' & ->).
    destruct HN as (Hk & t & HR'' & _ & L1 & L2 & Hmin).
    assert (Et : t = h_t h). { rewrite HR' in HR''. apply (f_equal rmaxt) in HR''. cbn in HR''. congruence. } subst t.
    destruct (ps_item g p Hin) as (it & Hi & B & O & PO' & PA).
    pose proof (p_contract_ok g r0 PO' Hm PA m Nm) as C. cbv zeta in C. rewrite SI in C.
    destruct C as (C1 & _ & _ & _ & C5 & _).
    cbn [scene_nearest]. exists it, (h_t h), (h_dg h). split; [exact Hi|]. split; [exact HR'|].
    split; [eapply belongs_touch; eauto|]. split; [exact L1|]. split; [exact L2|]. split; [|split; [reflexivity|split]].
    + intros it' t' Hi' T' Lt. destruct (surf_items it' t' Hi' T') as (j & Hj & Sj). exact (Hmin j t' Hj Sj Lt).
    + apply B. exact C5.
    + exists p. split; [reflexivity|]. destruct B as (_ & B1 & B2 & _). repeat split; auto.
  - destruct HR3 as (-> & -> & ->). destruct HN as (_ & HN). cbn [scene_nearest].
    split; [reflexivity|]. split; [reflexivity|]. intros it t Hi T G1 G2.
    destruct (surf_items it t Hi T) as (j & Hj & Sj). exact (HN j t Hj Sj G1 G2).
Qed.

Theorem scene_nearest_main : exists sc steps, scene_make mp prims = Ok sc /\
  forall i0 fuel, (steps <= fuel)%nat -> exists found r' i',
    scene_intersect fuel sc r0 i0 = Ok (Some (found, r', i')) /\ scene_nearest items r0 i0 found r' i'.
Proof. destruct scene_nearest_sized as (sc & A & B). exists sc, (scene_size sc). auto. Qed.

Theorem scene_any_sized : exists sc, scene_make mp prims = Ok sc /\
  forall fuel, (scene_size sc <= fuel)%nat -> exists b, scene_intersect_p fuel sc r0 = Ok (Some b) /\ scene_any items r0 b.
Proof.
  destruct prims_nil_dec as [E|NE].
  { exists None. split; [rewrite E; reflexivity|]. intros fuel _. exists false. split; [reflexivity|].
    cbn. intros it t Hi T _ _. exact (ps_nil E it t Hi T). }
  destruct (scene_setup NE) as (bounds & nodes & ordered & dfl & EB & LB & M & SM & HH & HF & HW & PO).
  exists (Some (nodes, stored_prims ps ordered dfl)). split; [exact SM|]. cbn [scene_size]. intros fuel Hfu.
  destruct (bvh_any_height SAH mp bounds nodes ordered (s_surf ps r0) (s_pp ps) r0 fuel M HH Hz HF HW
     (s_any ps r0 ps_contract HM) Hfu) as (b & HT & HN).
  unfold bvh_intersect_p in HT. exists b.
  assert (Ho : forall k, In k ordered -> (k < length ps)%nat).
  { intros k Hk. apply (Permutation_in _ PO) in Hk. apply in_seq in Hk. lia. }
  assert (Hx : forall j nd, nth_error nodes j = Some nd -> (0 < l_nprim nd)%nat -> (l_offset nd + l_nprim nd <= length ordered)%nat).
  { intros j nd EN Hp. pose proof (bvh_indices _ _ _ _ _ M j nd EN) as B.
    apply Nat.ltb_lt in Hp. rewrite Hp in B. exact B. }
  split; [exact (sim_traverse_p ps r0 ordered dfl ps_shape ps_contract Ho nodes Hx fuel HM 0%nat [] b HT)|].
  rewrite LB in HN. destruct b; cbn [any_hit scene_any] in *.
  - destruct HN as (k & t & Hk & (g & p & E & T) & L1 & L2). apply nth_error_In in E.
    destruct (ps_item g p E) as (it & Hi & B & O & _). exists it, t. split; [exact Hi|].
    split; [eapply belongs_touch; eauto|]. auto.
  - intros it t Hi T G1 G2. destruct (surf_items it t Hi T) as (j & Hj & Sj). exact (HN j t Hj Sj G1 G2).
Qed.
Theorem scene_any_main : exists sc steps, scene_make mp prims = Ok sc /\
  forall fuel, (steps <= fuel)%nat -> exists b, scene_intersect_p fuel sc r0 = Ok (Some b) /\ scene_any items r0 b.
Proof. destruct scene_any_sized as (sc & A & B). exists sc, (scene_size sc). auto. Qed.
End Scene.

(** ** Nearest-hit and any-hit queries agree, whatever the ray and the scene *)
Lemma shape_p_agrees s r o : shape_intersect s r = Ok o ->
  shape_intersect_p s r = Ok (match o with Some _ => true | None => false end).
Proof.
  destruct s as [m v|s|d]; cbn [shape_intersect shape_intersect_p].
  - unfold tri_intersect, tri_intersect_p.
    destruct (tri_vert m v 0); cbn [bind]; [|discriminate]. destruct (tri_vert m v 1); cbn [bind]; [|discriminate].
    destruct (tri_vert m v 2); cbn [bind]; [|discriminate]. cbv zeta.
    destruct (Reqb _ 0); [intros [= <-]; reflexivity|].
    match goal with |- (if ?c then _ else _) = _ -> _ => destruct c; [intros [= <-]; reflexivity|] end.
    match goal with |- (if ?c then _ else _) = _ -> _ => destruct c; [intros [= <-]; reflexivity|] end.
    match goal with |- (if ?c then _ else _) = _ -> _ => destruct c; [intros [= <-]; reflexivity|] end.
    destruct (tri_uvs m v); cbn [bind]; [|discriminate].
    match goal with |- (if ?c then _ else _) = _ -> _ => destruct c end; intros [= <-]; reflexivity.
  - intros [= <-]. rewrite sphere_p_find. unfold sphere_intersect. destruct (sphere_find s r) as [[t q]|]; reflexivity.
  - unfold disk_intersect. rewrite disk_p_find. destruct (disk_find d r) as [[t q]|].
    + destruct (disk_dg d q); cbn [bind]; [|discriminate]. intros [= <-]. reflexivity.
    + intros [= <-]. reflexivity.
Qed.
Lemma leaf_true ps l : forall r i st, sc_leaf ps l (true, r, i) = Ok st -> fst (fst st) = true.
Proof.
  induction l as [|k l IH]; intros r i st; cbn [sc_leaf]; [intros [= <-]; reflexivity|].
  destruct (ps k) as [g|]; cbn [bind]; [|discriminate]. destruct (gp_intersect g r i) as [[[f r'] i']|]; cbn [bind]; [|discriminate].
  destruct f; apply IH.
Qed.
Lemma leaf_agrees ps l : forall r i st, sc_leaf ps l (false, r, i) = Ok st ->
  sc_leaf_p ps l r = Ok (fst (fst st)) /\ (fst (fst st) = false -> st = (false, r, i)).
Proof.
  induction l as [|k l IH]; intros r i st; cbn [sc_leaf sc_leaf_p].
  { intros [= <-]. split; auto. }
  destruct (ps k) as [p|]; cbn [bind]; [|discriminate]. unfold gp_intersect, gp_intersect_p.
  destruct (shape_intersect (gp_shape p) r) as [o|] eqn:E; cbn [bind]; [|discriminate].
  rewrite (shape_p_agrees _ _ _ E). cbn [bind]. destruct o as [h|]; cbn [bind].
  - intros H. apply leaf_true in H. rewrite H. split; [reflexivity|discriminate].
  - intros H. now apply IH.
Qed.
Lemma traverse_true fuel ps nodes : forall idx todo r i st, sc_traverse fuel ps nodes idx todo (true, r, i) = Ok (Some st) ->
  fst (fst st) = true.
Proof.
  induction fuel as [|fuel IH]; intros idx todo r i st; cbn [sc_traverse]; [discriminate|].
  destruct (nth_error nodes idx) as [nd|]; [|discriminate].
  destruct (box_test _ r).
  - destruct (0 <? l_nprim nd)%nat.
    + destruct (sc_leaf ps _ _) as [[[b r'] i']|] eqn:E; cbn [bind]; [|discriminate]. apply leaf_true in E. cbn in E. subst b.
      destruct todo; [intros [= <-]; reflexivity|apply IH].
    + destruct (64 <=? length todo)%nat; [discriminate|]. destruct (Rltb _ 0); apply IH.
  - destruct todo; [intros [= <-]; reflexivity|apply IH].
Qed.
Lemma traverse_agrees fuel ps nodes r i : forall idx todo st, sc_traverse fuel ps nodes idx todo (false, r, i) = Ok (Some st) ->
  sc_traverse_p fuel ps nodes idx todo r = Ok (Some (fst (fst st))) /\ (fst (fst st) = false -> st = (false, r, i)).
Proof.
  induction fuel as [|fuel IH]; intros idx todo st; cbn [sc_traverse sc_traverse_p]; [discriminate|].
  destruct (nth_error nodes idx) as [nd|]; [|discriminate].
  destruct (box_test _ r).
  - destruct (0 <? l_nprim nd)%nat.
    + destruct (sc_leaf ps _ _) as [[[b r'] i']|] eqn:E; cbn [bind]; [|discriminate].
      apply leaf_agrees in E. cbn [fst] in E. destruct E as [E1 E2]. rewrite E1. cbn [bind].
      destruct b.
      * intros H. assert (fst (fst st) = true) as ->; [|split; [reflexivity|discriminate]].
        destruct todo; [injection H as <-; reflexivity|]. now apply traverse_true in H.
      * specialize (E2 eq_refl). injection E2 as -> ->. destruct todo; [intros [= <-]; auto|apply IH].
    + destruct (64 <=? length todo)%nat; [discriminate|]. destruct (Rltb _ 0); apply IH.
  - destruct todo; [intros [= <-]; auto|apply IH].
Qed.
Theorem scene_agrees fuel sc r i found r' i' : scene_intersect fuel sc r i = Ok (Some (found, r', i')) ->
  scene_intersect_p fuel sc r = Ok (Some found) /\ (found = false -> r' = r /\ i' = i).
Proof.
  unfold scene_intersect, scene_intersect_p. destruct sc as [[nodes ps]|].
  - intros H. destruct (traverse_agrees _ _ _ _ _ _ _ _ H) as [H1 H2]. cbn [fst] in *. split; [exact H1|].
    intros ->. specialize (H2 eq_refl). injection H2 as -> ->. auto.
  - intros [= <- <- <-]. auto.
Qed.
