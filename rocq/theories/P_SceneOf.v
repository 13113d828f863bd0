(** Scenes given by any list of primitives that belongs to a list of items (P_Scene with the identifiers left open), and
    subdivision surfaces in scenes. *)
From Coq Require Import Reals Lra Lia List ZArith Bool Permutation.
From Verif Require Import Base M_Geometry S_Geometry P_Geometry M_Transform S_Transform P_Transform P_Transform2
  M_Shapes S_Shapes P_Quadrics P_Triangle P_Mesh P_ShapesMore P_ShapesMore2 M_BVH S_BVH P_BVH P_BVHTrav P_BVHWit M_Primitive S_Scene P_Scene.
Import ListNotations.
Open Scope R_scope.
Section SceneOf.
Variables (mp : nat) (items : list item) (ps : list (pgeom * gprim)) (r0 : ray).
Hypothesis Hbel : forall g p, In (g, p) ps -> exists it, In it items /\ belongs it g p.
Hypothesis Hcov : forall it t, In it items -> geom_ok (it_geom it) -> touches (it_geom it) r0 t ->
  exists g p, In (g, p) ps /\ p_touches g r0 t.
Hypothesis Hmp : (mp <= 4)%nat.
Hypothesis Hok : Forall (fun it => geom_ok (it_geom it)) items.
Hypothesis Hav : Forall (fun it => avoids_centre r0 (it_geom it)) items.
Hypothesis Hz : pos_zero r0.
Hypothesis Hm : notnan (rmint r0).
Hypothesis HM : notnan (rmaxt r0).
Let prims := map snd ps.
Hypothesis Hface : forall p b, In p prims -> shape_bound (gp_shape p) = Ok b -> off_x_faces r0 (fst b) (snd b).
Hypothesis Hfit : (length prims <= 65)%nat \/ forall bounds t o n, prim_bounds prims = Ok bounds ->
  bvh_build SAH mp bounds = Ok (t, o, n) -> (theight t <= 64)%nat.

Lemma x_ps_prims : map snd ps = prims. Proof. reflexivity. Qed.
Lemma x_ps_item g p : In (g, p) ps -> exists it, In it items /\ belongs it g p /\ geom_ok (it_geom it) /\ p_ok g /\ p_avoids r0 g.
Proof.
  intros H. destruct (Hbel _ _ H) as (it & Hi & B). exists it.
  rewrite Forall_forall in Hok, Hav. pose proof (Hok it Hi) as O. pose proof (Hav it Hi) as A.
  split; [exact Hi|]. split; [exact B|]. split; [exact O|]. destruct B as (_ & _ & _ & B1 & B2 & _). auto.
Qed.
Lemma x_ps_shape g p : In (g, p) ps -> gp_shape p = p_shape g.
Proof. intros H. destruct (x_ps_item g p H) as (it & _ & B & _). apply B. Qed.
Lemma x_ps_contract g p : In (g, p) ps -> p_contract g r0.
Proof. intros H. destruct (x_ps_item g p H) as (it & _ & _ & _ & O & A). now apply p_contract_ok. Qed.
Lemma x_belongs_touch it g p t : belongs it g p -> geom_ok (it_geom it) -> p_touches g r0 t -> touches (it_geom it) r0 t.
Proof.
  intros (_ & _ & _ & _ & _ & B & _) O. apply B. destruct (it_geom it); try reflexivity. apply O.
Qed.

Lemma x_scene_setup : prims <> [] -> exists bounds nodes ordered dfl, prim_bounds prims = Ok bounds /\ length bounds = length ps /\
   bvh_make SAH mp bounds = Ok (Some (nodes, ordered)) /\
   scene_make mp prims = Ok (Some (nodes, stored_prims ps ordered dfl)) /\
   (forall t o n, bvh_build SAH mp bounds = Ok (t, o, n) -> (theight t <= 64)%nat) /\
   (forall b, In b bounds -> off_x_faces r0 (fst b) (snd b)) /\
   within_bounds (s_surf ps r0) (fun i => nth i bounds (vzero, vzero)) r0 (length bounds) /\
   Permutation ordered (seq 0 (length ps)).
Proof.
  intros NE. destruct (prim_bounds_ok ps) as (bounds & EB & LB & KB).
  { intros g p H. split; [now apply x_ps_shape|]. now destruct (x_ps_item g p H) as (it & _ & _ & _ & O & _). }
  rewrite x_ps_prims in EB.
  assert (LP : length prims = length ps) by (rewrite <- x_ps_prims; apply map_length).
  destruct bounds as [|b0 bl].
  { exfalso. apply NE. destruct prims; [reflexivity|]. cbn in *. lia. }
  destruct (bvh_make_total mp b0 bl Hmp) as (r & M & _). 
  destruct r as [[nodes ordered]|].
  2:{ exfalso. unfold bvh_make in M. destruct (bvh_build _ _ _) as [[[t o] n]|]; [|discriminate]. cbn [bind] in M.
      destruct (bvh_flatten t n); discriminate. }
  set (bounds := b0 :: bl) in *.
  exists bounds, nodes, ordered. eexists. split; [exact EB|]. split; [exact LB|]. split; [exact M|].
  split; [unfold scene_make; rewrite EB; cbn [bind]; rewrite M; cbn [bind]; unfold stored_prims; rewrite x_ps_prims; reflexivity|].
  split; [|split; [|split]].
  - destruct Hfit as [H|H]; [|intros; eapply H; eauto].
    intros t o n. apply bvh_height_small. rewrite LB. lia.
  - intros b Hb. apply In_nth with (d := (vzero, vzero)) in Hb. destruct Hb as (k & Hk & <-). rewrite LB in Hk.
    destruct (nth_error ps k) as [[g p]|] eqn:E; [|apply nth_error_None in E; lia].
    apply (Hface p).
    + rewrite <- x_ps_prims. apply in_map_iff. exists (g, p). split; [reflexivity|]. now apply nth_error_In in E.
    + rewrite (x_ps_shape g p (nth_error_In _ _ E)). now apply (KB k g p).
  - intros k t Hk (g & p & E & T).
    destruct (x_ps_item g p (nth_error_In _ _ E)) as (it & _ & _ & _ & O & _).
    destruct (p_bound_ok g r0 O) as (b & EB' & I). rewrite (KB k g p E) in EB'. injection EB' as <-. now apply I.
  - destruct (bvh_make_inv _ _ _ _ _ M) as (t & q & _ & _ & _ & _ & _ & _ & PO & _). now rewrite LB in PO.
Qed.

Lemma x_ps_nil : prims = [] -> forall it t, In it items -> touches (it_geom it) r0 t -> False.
Proof.
  intros E it t Hi T. rewrite Forall_forall in Hok.
  destruct (Hcov it t Hi (Hok it Hi) T) as (g & p & H & _).
  pose proof x_ps_prims as P. rewrite E in P. apply map_eq_nil in P. rewrite P in H. destruct H.
Qed.
Lemma x_surf_items it t : In it items -> touches (it_geom it) r0 t -> exists k, (k < length ps)%nat /\ s_surf ps r0 k t.
Proof.
  intros Hi T. rewrite Forall_forall in Hok.
  destruct (Hcov it t Hi (Hok it Hi) T) as (g & p & H & T').
  apply In_nth_error in H. destruct H as (k & E). exists k. split; [|exists g, p; auto].
  apply nth_error_Some. congruence.
Qed.

Lemma x_prims_nil_dec : prims = [] \/ prims <> []. Proof. destruct prims; [now left|right; discriminate]. Qed.

Theorem x_scene_nearest_main : exists sc steps, scene_make mp prims = Ok sc /\
  forall i0 fuel, (steps <= fuel)%nat -> exists found r' i',
    scene_intersect fuel sc r0 i0 = Ok (Some (found, r', i')) /\ scene_nearest items r0 i0 found r' i'.
Proof.
  destruct x_prims_nil_dec as [E|NE].
  { exists None, 0%nat. split; [rewrite E; reflexivity|]. intros i0 fuel _. exists false, r0, i0. split; [reflexivity|].
    cbn. split; [reflexivity|]. split; [reflexivity|]. intros it t Hi T _ _. exact (x_ps_nil E it t Hi T). }
  destruct (x_scene_setup NE) as (bounds & nodes & ordered & dfl & EB & LB & M & SM & HH & HF & HW & PO).
  exists (Some (nodes, stored_prims ps ordered dfl)), (length nodes). split; [exact SM|]. intros i0 fuel Hfu.
  destruct (bvh_nearest_height SAH mp bounds nodes ordered (s_surf ps r0) (s_pi ps) r0 fuel M HH Hz HF HM HW
     (s_nearest ps r0 x_ps_contract) Hfu) as (r' & hit & HT & HN).
  unfold bvh_intersect in HT.
  destruct (sim_traverse ps r0 i0 ordered dfl x_ps_shape x_ps_contract) with (nodes := nodes) (fuel := fuel) (idx := 0%nat)
    (todo := @nil nat) (st := (false, r0, i0)) (s := (r0, @None nat)) (s' := (r', hit)) as ([[b' r1] i'] & HS & HR); auto.
  { intros k Hk. apply (Permutation_in _ PO) in Hk. apply in_seq in Hk. lia. }
  { intros j nd EN Hp. pose proof (bvh_indices _ _ _ _ _ M j nd EN) as B.
    apply Nat.ltb_lt in Hp. rewrite Hp in B. exact B. }
  { split; [reflexivity|]. split; [exists (rmaxt r0); split; [exact HM|destruct r0; reflexivity]|]. cbn. auto. }
  exists b', r1, i'. split; [exact HS|]. rewrite LB in HN.
  destruct HR as (HR1 & _ & HR3). cbn [fst snd] in *. subst r1.
  destruct hit as [k|]; cbn [option_map nearest_hit] in HN.
  - destruct HR3 as (-> & g & p & h & m & E & Hin & Nm & SI & HR' & ->).
    destruct HN as (Hk & t & HR'' & _ & L1 & L2 & Hmin).
    assert (Et : t = h_t h). { rewrite HR' in HR''. apply (f_equal rmaxt) in HR''. cbn in HR''. congruence. } subst t.
    destruct (x_ps_item g p Hin) as (it & Hi & B & O & PO' & PA).
    pose proof (p_contract_ok g r0 PO' Hm PA m Nm) as C. cbv zeta in C. rewrite SI in C.
    destruct C as (C1 & _ & _ & _ & C5 & _).
    cbn [scene_nearest]. exists it, (h_t h), (h_dg h). split; [exact Hi|]. split; [exact HR'|].
    split; [eapply x_belongs_touch; eauto|]. split; [exact L1|]. split; [exact L2|]. split; [|split; [reflexivity|split]].
    + intros it' t' Hi' T' Lt. destruct (x_surf_items it' t' Hi' T') as (j & Hj & Sj). exact (Hmin j t' Hj Sj Lt).
    + apply B. exact C5.
    + exists p. split; [reflexivity|]. destruct B as (_ & B1 & B2 & _). repeat split; auto.
  - destruct HR3 as (-> & -> & ->). destruct HN as (_ & HN). cbn [scene_nearest].
    split; [reflexivity|]. split; [reflexivity|]. intros it t Hi T G1 G2.
    destruct (x_surf_items it t Hi T) as (j & Hj & Sj). exact (HN j t Hj Sj G1 G2).
Qed.

Theorem x_scene_any_main : exists sc steps, scene_make mp prims = Ok sc /\
  forall fuel, (steps <= fuel)%nat -> exists b, scene_intersect_p fuel sc r0 = Ok (Some b) /\ scene_any items r0 b.
Proof.
  destruct x_prims_nil_dec as [E|NE].
  { exists None, 0%nat. split; [rewrite E; reflexivity|]. intros fuel _. exists false. split; [reflexivity|].
    cbn. intros it t Hi T _ _. exact (x_ps_nil E it t Hi T). }
  destruct (x_scene_setup NE) as (bounds & nodes & ordered & dfl & EB & LB & M & SM & HH & HF & HW & PO).
  exists (Some (nodes, stored_prims ps ordered dfl)), (length nodes). split; [exact SM|]. intros fuel Hfu.
  destruct (bvh_any_height SAH mp bounds nodes ordered (s_surf ps r0) (s_pp ps) r0 fuel M HH Hz HF HW
     (s_any ps r0 x_ps_contract HM) Hfu) as (b & HT & HN).
  unfold bvh_intersect_p in HT. exists b.
  assert (Ho : forall k, In k ordered -> (k < length ps)%nat).
  { intros k Hk. apply (Permutation_in _ PO) in Hk. apply in_seq in Hk. lia. }
  assert (Hx : forall j nd, nth_error nodes j = Some nd -> (0 < l_nprim nd)%nat -> (l_offset nd + l_nprim nd <= length ordered)%nat).
  { intros j nd EN Hp. pose proof (bvh_indices _ _ _ _ _ M j nd EN) as B.
    apply Nat.ltb_lt in Hp. rewrite Hp in B. exact B. }
  split; [exact (sim_traverse_p ps r0 ordered dfl x_ps_shape x_ps_contract Ho nodes Hx fuel HM 0%nat [] b HT)|].
  rewrite LB in HN. destruct b; cbn [any_hit scene_any] in *.
  - destruct HN as (k & t & Hk & (g & p & E & T) & L1 & L2). apply nth_error_In in E.
    destruct (x_ps_item g p E) as (it & Hi & B & O & _). exists it, t. split; [exact Hi|].
    split; [eapply x_belongs_touch; eauto|]. auto.
  - intros it t Hi T G1 G2. destruct (x_surf_items it t Hi T) as (j & Hj & Sj). exact (HN j t Hj Sj G1 G2).
Qed.
End SceneOf.
