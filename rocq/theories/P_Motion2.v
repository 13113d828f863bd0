(** Proofs: a scene moved as a whole looks the same. *)
From Coq Require Import Reals Lra Lia List ZArith Bool Psatz.
From Verif Require Import Base M_MonteCarlo M_Film.
From Verif Require Import M_Geometry S_Geometry P_Geometry M_Transform S_Transform P_Transform P_Transform2
  M_Shapes S_Shapes M_Reflection S_Reflection M_Primitive S_Scene M_Material S_Material S_Integrator2 S_World P_Orient S_Motion P_Motion S_Motion2.
Import ListNotations.
Open Scope R_scope.

Lemma in_tri_map A a b c p : affine (tm A) -> in_triangle a b c p -> in_triangle (t_point A a) (t_point A b) (t_point A c) (t_point A p).
Proof.
  intros HA (x & y & z & X & Y & Z0 & E & ->). exists x, y, z. repeat (split; [assumption|]).
  rewrite !t_point_affine by exact HA. destruct A as [[[a0 a1 a2 a3] [b0 b1 b2 b3] [c0 c1 c2 c3] r3] ti]. destruct a, b, c.
  replace x with (1 - y - z) by lra.
  unfold apt, vadd, vscale, vmap, vmap2, dot4; cbn. apply V3_eq; cbn; ring.
Qed.
Section Rigid.
Variable A : transform.
Hypothesis VA : tvalid A.
Let HA : affine (tm A). Proof. apply VA. Qed.
Lemma in_tri_iff a b c p : in_triangle (t_point A a) (t_point A b) (t_point A c) (t_point A p) <-> in_triangle a b c p.
Proof.
  split; [|now apply in_tri_map]. intros H. apply (in_tri_map (t_inverse A)) in H; [|apply (tvalid_inv _ VA)]. now rewrite !inv_point in H.
Qed.
Lemma corner_moved b vi P f k : base_ok b -> corner (b_o2w (moved_base A b)) vi P f k = t_point A (corner (b_o2w b) vi P f k).
Proof. intros [B _]. unfold corner. cbn [moved_base b_o2w]. now rewrite mul_point by (apply VA || apply (built_valid _ B)). Qed.
Lemma back_point b p : base_ok b -> t_point (b_w2o (moved_base A b)) (t_point A p) = t_point (b_w2o b) p.
Proof.
  intros B. pose proof (ray_back A b (mkRay p vzero (mkV false false false) PInf PInf 0%Z 0) VA B) as E.
  exact (f_equal ro E).
Qed.
Lemma back_vector b d : base_ok b -> t_vector (b_w2o (moved_base A b)) (t_vector A d) = t_vector (b_w2o b) d.
Proof.
  intros B. pose proof (ray_back A b (mkRay vzero d (mkV false false false) PInf PInf 0%Z 0) VA B) as E.
  exact (f_equal rd E).
Qed.
Lemma at_moved r t : ray_at (t_ray A r) t = t_point A (ray_at r t).
Proof. unfold ray_at. cbn [t_ray ro rd]. now rewrite tp_at. Qed.
Lemma touches_moved g r t : base_ok (geom_base g) -> (touches (move_geom A g) (t_ray A r) t <-> touches g r t).
Proof.
  destruct g as [b vi P N T uv|b rad z0 z1 pm|b h rad ri pm]; cbn [geom_base move_geom touches]; intros B.
  - assert (K : forall f, (let a := corner (b_o2w (moved_base A b)) vi P f 0 in let c := corner (b_o2w (moved_base A b)) vi P f 1 in let d := corner (b_o2w (moved_base A b)) vi P f 2 in
        vdot (rd (t_ray A r)) (tri_normal a c d) <> 0 /\ in_triangle a c d (ray_at (t_ray A r) t)) <->
      (let a := corner (b_o2w b) vi P f 0 in let c := corner (b_o2w b) vi P f 1 in let d := corner (b_o2w b) vi P f 2 in
        vdot (rd r) (tri_normal a c d) <> 0 /\ in_triangle a c d (ray_at r t))).
    { intros f. cbv zeta. rewrite !corner_moved, at_moved, in_tri_iff by exact B. unfold tri_normal. rewrite !tp_sub by exact HA.
      cbn [t_ray rd]. rewrite (vdot_sym (t_vector A (rd r))), triple by exact VA. rewrite (vdot_sym _ (rd r)).
      pose proof (tvalid_det _ VA) as D. set (x := vdot (rd r) _). split; intros [H1 H2]; (split; [|exact H2]).
      - intros E. apply H1. rewrite E. ring.
      - intros E. apply Rmult_integral in E. tauto. }
    split; intros (f & Hf & H); exists f; (split; [exact Hf|]); now apply K.
  - cbn [t_ray ro rd]. fold (t_ray A r). rewrite at_moved. rewrite !back_point, back_vector by exact B. reflexivity.
  - cbn [t_ray ro rd]. fold (t_ray A r). rewrite at_moved. rewrite !back_point, back_vector by exact B. reflexivity.
Qed.
Hypothesis DOT : forall v w, vdot (t_vector A v) (t_vector A w) = vdot v w.
Lemma unit_moved n : unit (t_vector A n) <-> unit n.
Proof. pose proof (DOT n n) as E. unfold unit. unfold vdot in E. rewrite E. reflexivity. Qed.
Lemma normal_moved g p n : base_ok (geom_base g) -> (surface_normal (move_geom A g) (t_point A p) (t_vector A n) <-> surface_normal g p n).
Proof.
  intros B. unfold surface_normal. rewrite unit_moved. apply and_iff_compat_l.
  destruct g as [b vi P N T uv|b rad z0 z1 pm|b h rad ri pm]; cbn [geom_base move_geom] in *.
  - assert (K : forall f, (let a := corner (b_o2w (moved_base A b)) vi P f 0 in let c := corner (b_o2w (moved_base A b)) vi P f 1 in let d := corner (b_o2w (moved_base A b)) vi P f 2 in
        in_triangle a c d (t_point A p) /\ vdot (t_vector A n) (vsub c a) = 0 /\ vdot (t_vector A n) (vsub d a) = 0) <->
      (let a := corner (b_o2w b) vi P f 0 in let c := corner (b_o2w b) vi P f 1 in let d := corner (b_o2w b) vi P f 2 in
        in_triangle a c d p /\ vdot n (vsub c a) = 0 /\ vdot n (vsub d a) = 0)).
    { intros f. cbv zeta. rewrite !corner_moved, in_tri_iff, !tp_sub, !DOT by (exact B || exact HA). reflexivity. }
    split; intros (f & Hf & H); exists f; (split; [exact Hf|]); now apply K.
  - rewrite back_point by exact B. cbn [moved_base b_o2w].
    split; intros H w Hw; specialize (H w Hw); rewrite mul_vector, DOT in * by apply (built_valid _ (proj1 B)); exact H.
  - cbn [moved_base b_o2w]. split; intros H x y; specialize (H x y); rewrite mul_vector, DOT in * by apply (built_valid _ (proj1 B)); exact H.
Qed.
Lemma dist_moved p q : dist (t_point A p) (t_point A q) = dist p q.
Proof. unfold dist, vlength. rewrite tp_sub by exact HA. f_equal. exact (DOT (vsub q p) (vsub q p)). Qed.
Lemma dir_moved p q : dir (t_point A p) (t_point A q) = t_vector A (dir p q).
Proof. unfold dir. now rewrite dist_moved, tp_sub, tv_scale by exact HA. Qed.
Lemma sight_moved p q eps time : sight (t_point A p) (t_point A q) eps time = t_ray A (sight p q eps time).
Proof. unfold sight, t_ray. cbn [ro rd rmint rmaxt rdepth rtime]. now rewrite dist_moved, dir_moved. Qed.
Lemma diffuse_moved kd p n wo l bl x : diffuse_from kd (t_point A p) (t_vector A n) (t_vector A wo) (move_lamp A l) bl x <-> diffuse_from kd p n wo l bl x.
Proof. unfold diffuse_from. cbn [move_lamp lp_pos lp_i]. rewrite dist_moved, dir_moved. unfold same_side. now rewrite !DOT. Qed.
Lemma offset_moved g t : offset_at (move_geom A g) t = offset_at g t.
Proof. destruct g; reflexivity. Qed.
Variable items : list item.
Hypothesis B : forall it, In it items -> base_ok (geom_base (it_geom it)).
Lemma any_moved r b : scene_any (map (move_item A) items) (t_ray A r) b <-> scene_any items r b.
Proof.
  destruct b; cbn [scene_any t_ray rmint rmaxt]; fold (t_ray A r).
  - split.
    + intros (it & t & Hi & T & G). apply in_map_iff in Hi. destruct Hi as (i0 & <- & Hi). exists i0, t. split; [exact Hi|]. split; [|exact G].
      apply (proj1 (touches_moved (it_geom i0) r _ (B _ Hi))) in T; auto.
    + intros (it & t & Hi & T & G). exists (move_item A it), t. split; [now apply in_map|]. split; [|exact G]. apply touches_moved; auto.
  - split.
    + intros H it t0 Hi T. apply (H (move_item A it) t0); [now apply in_map|]. apply touches_moved; auto.
    + intros H it t0 Hi T. apply in_map_iff in Hi. destruct Hi as (i0 & <- & Hi). apply (H i0 t0 Hi). apply (proj1 (touches_moved (it_geom i0) r _ (B _ Hi))) in T; auto.
Qed.
Lemma tv_neg v : t_vector A (vneg v) = vneg (t_vector A v).
Proof. destruct v. unfold t_vector, vneg, vmap, dot4; cbn. apply V3_eq; cbn; ring. Qed.
Lemma tv_back n : t_vector A (t_vector (t_inverse A) n) = n.
Proof. pose proof (inv_vector (t_inverse A) n (tvalid_inv _ VA)) as E. destruct A; exact E. Qed.
Lemma shown_moved colour lamps r L :
  shown (map (move_item A) items) colour (map (move_lamp A) lamps) (t_ray A r) L <-> shown items colour lamps r L.
Proof.
  unfold shown. cbn [t_ray rmint rmaxt rtime rd]. fold (t_ray A r). 
  assert (E1 : (forall it t, In it (map (move_item A) items) -> touches (it_geom it) (t_ray A r) t -> elt (rmint r) (Fin t) -> elt (Fin t) (rmaxt r) -> False) <->
    (forall it t, In it items -> touches (it_geom it) r t -> elt (rmint r) (Fin t) -> elt (Fin t) (rmaxt r) -> False)).
  { exact (any_moved r false). }
  assert (E2 : forall t, (forall it' t', In it' (map (move_item A) items) -> touches (it_geom it') (t_ray A r) t' -> elt (rmint r) (Fin t') -> t <= t') <->
    (forall it' t', In it' items -> touches (it_geom it') r t' -> elt (rmint r) (Fin t') -> t <= t')).
  { intros t. split.
    - intros H it t' Hi T. apply (H (move_item A it) t'); [now apply in_map|]. apply touches_moved; auto.
    - intros H it t' Hi T. apply in_map_iff in Hi. destruct Hi as (i0 & <- & Hi). apply (H i0 t' Hi). apply (proj1 (touches_moved (it_geom i0) r _ (B _ Hi))) in T; auto. }
  rewrite E1. apply or_iff_compat_l.
  split.
  - intros (it & t & n & xs & Hi & T & G1 & G2 & NE & SN & LX & EL & HX). apply in_map_iff in Hi. destruct Hi as (i0 & <- & Hi).
    cbn [move_item it_geom it_material] in *. apply (proj1 (touches_moved (it_geom i0) r _ (B _ Hi))) in T; auto. rewrite at_moved in SN. rewrite <- (tv_back n) in SN. apply (proj1 (normal_moved _ _ _ (B _ Hi))) in SN.
    exists i0, t, (t_vector (t_inverse A) n), xs. split; [exact Hi|]. split; [exact T|]. split; [exact G1|]. split; [exact G2|]. split; [now apply E2|].
    split; [exact SN|]. split; [rewrite map_length in LX; exact LX|]. split; [exact EL|].
    intros j l x Hl Hx. destruct (HX j (move_lamp A l) x) as (bl & SA & DF); [now apply map_nth_error|exact Hx|]. exists bl.
    rewrite at_moved, offset_moved in SA. cbn [move_lamp lp_pos] in SA. rewrite sight_moved in SA. apply (proj1 (any_moved _ _)) in SA. split; [exact SA|].
    rewrite at_moved, <- tv_neg, <- (tv_back n) in DF. exact (proj1 (diffuse_moved _ _ _ _ _ _ _) DF).
  - intros (it & t & n & xs & Hi & T & G1 & G2 & NE & SN & LX & EL & HX).
    exists (move_item A it), t, (t_vector A n), xs. cbn [move_item it_geom it_material]. split; [now apply in_map|]. split; [apply touches_moved; auto|].
    split; [exact G1|]. split; [exact G2|]. split; [now apply E2|]. rewrite at_moved. split; [apply normal_moved; auto|].
    split; [now rewrite map_length|]. split; [exact EL|]. intros j l x Hl Hx. rewrite nth_error_map in Hl.
    destruct (nth_error lamps j) as [l0|] eqn:EJ; [|discriminate]. cbn in Hl. injection Hl as <-.
    destruct (HX j l0 x EJ Hx) as (bl & SA & DF). exists bl. rewrite offset_moved. cbn [move_lamp lp_pos]. rewrite sight_moved. split; [now apply (proj2 (any_moved _ _))|].
    rewrite <- tv_neg. now apply (proj2 (diffuse_moved _ _ _ _ _ _ _)).
Qed.
End Rigid.
