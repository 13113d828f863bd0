(** Proofs: the scene's bound, and queries after the scene constructor enlarged the root box. *)
From Coq Require Import Reals Lra Lia List ZArith Bool Arith Permutation.
From Verif Require Import Base M_Geometry S_Geometry P_Geometry M_Transform S_Transform M_Shapes S_Shapes M_BVH S_BVH P_BVH P_BVHTrav P_BVHWit M_Reflection M_Light M_Primitive S_Scene P_Scene M_Scene.
Import ListNotations.
Open Scope R_scope.

Lemma laid_out_tail n n' l t : forall j, laid_out (n :: l) (S j) t -> laid_out (n' :: l) (S j) t.
Proof.
  induction t as [b f m|b ax c0 IH0 c1 IH1]; intros j; cbn [laid_out].
  - cbn. auto.
  - intros (H & L0 & L1). split; [exact H|]. split; [now apply IH0|].
    change (S (S j) + tsize c0)%nat with (S (S j + tsize c0)) in *. now apply IH1.
Qed.

Section Grown.
  Variables (surf : nat -> R -> Prop) (t : tree) (ps : list bprim) (nodes : list lnode) (r0 : ray) (lo' hi' : vec).
  Hypothesis HD : describes t ps 0.
  Hypothesis HL : laid_out nodes 0 t.
  Hypothesis HH : (theight t <= 64)%nat.
  Hypothesis HZ : pos_zero r0.
  Hypothesis HF : forall q, In q ps -> off_x_faces r0 (bp_lo q) (bp_hi q).
  Hypothesis HI : forall i tt, (i < length ps)%nat -> surf i tt ->
    between (bp_lo (nth i ps dflt)) (ray_at r0 tt) (bp_hi (nth i ps dflt)).
  Hypothesis Hgrow : forall q, In q ps -> vle lo' (bp_lo q) /\ vle (bp_hi q) hi'.
  Let nodes' := set_root nodes (fbox lo' hi').

  Lemma grown_test i tt : (i < length ps)%nat -> surf i tt -> elt (rmint r0) (Fin tt) -> elt (Fin tt) (rmaxt r0) ->
    box_test (fbox lo' hi') r0 = true.
  Proof.
    intros Hi Hs H1 H2. rewrite box_test_fbox.
    pose proof (HI i tt Hi Hs) as B. destruct (Hgrow (nth i ps dflt) (nth_In _ _ Hi)) as [A C].
    apply bvh_box_test_conservative with tt; auto.
    - intros Z. pose proof (HF (nth i ps dflt) (nth_In _ _ Hi) Z) as [F1 F2].
      destruct B as [(B1 & _) (B2 & _)]. unfold ray_at, vadd, vscale, vmap2, vmap in B1, B2. cbn [vx] in B1, B2. rewrite Z in B1, B2.
      destruct A as (A & _), C as (C & _). split; lra.
    - unfold between, vle in *. lra.
  Qed.

  Lemma nearest_of_state r' hit : notnan (rmaxt r0) -> state_ok surf ps r0 (fun _ => False) (r', hit) -> nearest_hit surf (length ps) r0 r' hit.
  Proof.
    intros HM (A&A'&B&C&D). destruct hit as [i|]; cbn.
    + destruct B as (Hi&tt&B1&B2&B3&B4). split; auto. exists tt.
      split; [congruence|]. repeat split; auto.
      intros j t' Hj Hs Hm. rewrite B1 in D.
      destruct (eltb (Fin t') (rmaxt r0)) eqn:LT.
      * apply ele_Fin. apply (D j t'); auto.
      * assert (LT' : ele (rmaxt r0) (Fin t')) by (apply eltb_false_ele; auto; discriminate). apply ele_Fin. eapply ele_trans; eauto.
    + split.
      * rewrite A, B. destruct r0; reflexivity.
      * intros i tt Hi Hs H1 H2. specialize (D i tt Hi Hs H1 H2 (fun x => x)). rewrite B in D.
        apply (elt_not_ele _ _ H2 D).
  Qed.

  Lemma grown_nearest pi fuel : notnan (rmaxt r0) -> nearest_contract surf pi r0 -> (tsize t <= fuel)%nat ->
    exists r' hit, traverse fuel pi nodes' 0 [] (r0, None) = Ok (Some (r', hit)) /\ nearest_hit surf (length ps) r0 r' hit.
  Proof.
    intros HM HC Hfu. destruct fuel as [|f]; [pose proof (tsize_pos t); lia|].
    assert (S0 : forall P : nat -> Prop, (forall i, (i < length ps)%nat -> P i) -> state_ok surf ps r0 P (r0, None)).
    { intros P HP. cbn. split; [destruct r0; reflexivity|]. split; auto. split; auto. split; [now apply ele_refl|].
      intros i tt Hi Hs H1 H2 H3. exfalso. apply H3. now apply HP. }
    destruct t as [b first n|b ax c0 c1]; cbn [laid_out] in HL.
    - unfold nodes'. destruct nodes as [|n0 l]; [discriminate|]. cbn in HL. injection HL as ->.
      cbn [set_root l_offset l_nprim l_axis]. unfold traverse at 1; fold traverse. cbn [nth_error l_bounds l_nprim l_offset l_axis fst].
      inversion HD; subst.
      assert (Hpos : (0 < length ps)%nat) by (destruct ps; cbn; [congruence|lia]).
      apply Nat.ltb_lt in Hpos as Hpos'. rewrite Hpos'.
      destruct (box_test (fbox lo' hi') r0) eqn:BT.
      + destruct (leaf_loop pi (seq 0 (length ps)) (r0, None)) as [r' hit] eqn:EL. exists r', hit. split; [reflexivity|].
        apply nearest_of_state; auto. rewrite <- EL.
        eapply state_ok_weaken; [|apply (leaf_ok surf ps r0 pi HC _ (fun i => (i < length ps)%nat))].
        * cbn. intros i [A B]. apply B. apply in_seq. lia.
        * intros i Hi. apply in_seq in Hi. lia.
        * apply S0. auto.
      + exists r0, None. split; [reflexivity|]. split; [reflexivity|]. intros i tt Hi Hs H1 H2.
        pose proof (grown_test i tt Hi Hs H1 H2). congruence.
    - destruct HL as (Hn & L0 & L1). unfold nodes'. destruct nodes as [|n0 l]; [discriminate|]. cbn in Hn. injection Hn as ->.
      cbn [set_root l_offset l_nprim l_axis]. unfold traverse at 1; fold traverse. cbn [nth_error l_bounds l_nprim l_offset l_axis fst].
      destruct (box_test (fbox lo' hi') r0) eqn:BT.
      2:{ exists r0, None. split; [reflexivity|]. split; [reflexivity|]. intros i tt Hi Hs H1 H2.
        pose proof (grown_test i tt Hi Hs H1 H2). congruence. }
      change (0 <? 0)%nat with false. cbn iota. change (64 <=? length (@nil nat))%nat with false. cbn iota.
      apply laid_out_tail with (n' := mkL (fbox lo' hi') (S (tsize c0)) 0 ax) in L0.
      change (1 + tsize c0)%nat with (S (tsize c0)) in L1.
      apply laid_out_tail with (n' := mkL (fbox lo' hi') (S (tsize c0)) 0 ax) in L1.
      set (nn := mkL (fbox lo' hi') (S (tsize c0)) 0 ax :: l) in *.
      destruct (child_ranges ps b ax c0 c1 0 (covers_root _ _ HD)) as (off1 & C0 & C1 & Hsplit).
      cbn [theight tsize] in HH, Hfu.
      assert (Hp : forall i, (i < length ps)%nat -> in_range c0 0 i \/ in_range c1 off1 i).
      { intros i Hi. apply Hsplit. exists ps. split; [exact HD|lia]. }
      destruct (Rltb _ 0).
      + destruct (traverse_ok surf ps r0 HZ HF HI pi HC nn f (S (tsize c0), c1, off1) [(1%nat, c0, 0%nat)] (r0, None))
          as ([r' hit] & HT & HS).
        * constructor; [split; auto|constructor; [split; auto|constructor]].
        * cbn. lia.
        * cbn. lia.
        * apply S0. intros i Hi. destruct (Hp i Hi) as [A|A].
          -- exists (1%nat, c0, 0%nat). split; [right; now left|exact A].
          -- exists (S (tsize c0), c1, off1). split; [now left|exact A].
        * exists r', hit. split; [exact HT|]. now apply nearest_of_state.
      + destruct (traverse_ok surf ps r0 HZ HF HI pi HC nn f (1%nat, c0, 0%nat) [(S (tsize c0), c1, off1)] (r0, None))
          as ([r' hit] & HT & HS).
        * constructor; [split; auto|constructor; [split; auto|constructor]].
        * cbn. lia.
        * cbn. lia.
        * apply S0. intros i Hi. destruct (Hp i Hi) as [A|A].
          -- exists (1%nat, c0, 0%nat). split; [now left|exact A].
          -- exists (S (tsize c0), c1, off1). split; [right; now left|exact A].
        * exists r', hit. split; [exact HT|]. now apply nearest_of_state.
  Qed.

  Lemma grown_any pp fuel : any_contract surf pp r0 -> (tsize t <= fuel)%nat ->
    exists b, traverse_p fuel pp nodes' 0 [] r0 = Ok (Some b) /\ p_result surf ps r0 b.
  Proof.
    intros HC Hfu. destruct fuel as [|f]; [pose proof (tsize_pos t); lia|].
    destruct t as [b first n|b ax c0 c1]; cbn [laid_out] in HL.
    - unfold nodes'. destruct nodes as [|n0 l]; [discriminate|]. cbn in HL. injection HL as ->.
      cbn [set_root l_offset l_nprim l_axis]. unfold traverse_p at 1; fold traverse_p. cbn [nth_error l_bounds l_nprim l_offset l_axis].
      inversion HD; subst.
      assert (Hpos : (0 < length ps)%nat) by (destruct ps; cbn; [congruence|lia]).
      apply Nat.ltb_lt in Hpos as Hpos'. rewrite Hpos'.
      destruct (box_test (fbox lo' hi') r0) eqn:BT.
      + destruct (existsb _ _) eqn:EX.
        * exists true. split; auto. apply existsb_exists in EX. destruct EX as (i&Hi&Hp).
          apply in_seq in Hi. apply HC in Hp. destruct Hp as (tt&A&B&C).
          exists i, tt. repeat split; auto. lia.
        * exists false. split; [reflexivity|]. intros i tt A B C D.
          assert (X : existsb (fun i => pp i r0) (seq 0 (length ps)) = true); [|congruence].
          apply existsb_exists. exists i. split; [apply in_seq; lia|].
          apply HC. exists tt. repeat split; auto using elt_ele.
      + exists false. split; [reflexivity|]. intros i tt Hi Hs H1 H2.
        pose proof (grown_test i tt Hi Hs H1 H2). congruence.
    - destruct HL as (Hn & L0 & L1). unfold nodes'. destruct nodes as [|n0 l]; [discriminate|]. cbn in Hn. injection Hn as ->.
      cbn [set_root l_offset l_nprim l_axis]. unfold traverse_p at 1; fold traverse_p. cbn [nth_error l_bounds l_nprim l_offset l_axis].
      destruct (box_test (fbox lo' hi') r0) eqn:BT.
      2:{ exists false. split; [reflexivity|]. intros i tt Hi Hs H1 H2.
        pose proof (grown_test i tt Hi Hs H1 H2). congruence. }
      change (0 <? 0)%nat with false. cbn iota. change (64 <=? length (@nil nat))%nat with false. cbn iota.
      apply laid_out_tail with (n' := mkL (fbox lo' hi') (S (tsize c0)) 0 ax) in L0.
      change (1 + tsize c0)%nat with (S (tsize c0)) in L1.
      apply laid_out_tail with (n' := mkL (fbox lo' hi') (S (tsize c0)) 0 ax) in L1.
      set (nn := mkL (fbox lo' hi') (S (tsize c0)) 0 ax :: l) in *.
      destruct (child_ranges ps b ax c0 c1 0 (covers_root _ _ HD)) as (off1 & C0 & C1 & Hsplit).
      cbn [theight tsize] in HH, Hfu.
      assert (Hp : forall i, (i < length ps)%nat -> in_range c0 0 i \/ in_range c1 off1 i).
      { intros i Hi. apply Hsplit. exists ps. split; [exact HD|lia]. }
      destruct (Rltb _ 0).
      + apply (traverse_p_ok surf ps r0 HZ HF HI nn pp HC f (S (tsize c0), c1, off1) [(1%nat, c0, 0%nat)]).
        * constructor; [split; auto|constructor; [split; auto|constructor]].
        * cbn. lia.
        * cbn. lia.
        * intros i tt Hi _ _ _. destruct (Hp i Hi) as [A|A].
          -- exists (1%nat, c0, 0%nat). split; [right; now left|exact A].
          -- exists (S (tsize c0), c1, off1). split; [now left|exact A].
      + apply (traverse_p_ok surf ps r0 HZ HF HI nn pp HC f (1%nat, c0, 0%nat) [(S (tsize c0), c1, off1)]).
        * constructor; [split; auto|constructor; [split; auto|constructor]].
        * cbn. lia.
        * cbn. lia.
        * intros i tt Hi _ _ _. destruct (Hp i Hi) as [A|A].
          -- exists (1%nat, c0, 0%nat). split; [now left|exact A].
          -- exists (S (tsize c0), c1, off1). split; [right; now left|exact A].
  Qed.
End Grown.

Lemma grown_root nodes b j nd : nth_error (set_root nodes b) j = Some nd ->
  exists nd0, nth_error nodes j = Some nd0 /\ l_offset nd = l_offset nd0 /\ l_nprim nd = l_nprim nd0.
Proof.
  destruct nodes as [|n l]; [destruct j; discriminate|]. destruct j; cbn.
  - intros [= <-]. exists n. auto.
  - intros H. exists nd. auto.
Qed.
Lemma union_fbox a b c d : union_bb (fbox a b) (fbox c d) = fbox (vmap2 Rmin a c) (vmap2 Rmax b d).
Proof.
  assert (Mi : forall x y, emin (Fin x) (Fin y) = Fin (Rmin x y)).
  { intros x y. unfold emin, eltb. destruct (Rltb y x) eqn:E; Rb; f_equal.
    - rewrite Rmin_right; lra.
    - rewrite Rmin_left; lra. }
  assert (Ma : forall x y, emax (Fin x) (Fin y) = Fin (Rmax x y)).
  { intros x y. unfold emax, eltb. destruct (Rltb x y) eqn:E; Rb; f_equal.
    - rewrite Rmax_right; lra.
    - rewrite Rmax_left; lra. }
  unfold union_bb, fbox, vmap, vmap2. cbn. now rewrite !Mi, !Ma.
Qed.

(** the box of the root after the constructor, for a tree over [bounds] *)
Lemma root_grown method mp bounds nodes ordered vlo vhi :
  bvh_make method mp bounds = Ok (Some (nodes, ordered)) ->
  exists lo hi lo' hi', bvh_world_bound (Some nodes) = Ok (fbox lo hi) /\
    union_bb (fbox lo hi) (fbox vlo vhi) = fbox lo' hi' /\
    (forall b, In b bounds -> vle lo' (fst b) /\ vle (snd b) hi').
Proof.
  intros M. destruct (bvh_make_inv _ _ _ _ _ M) as (t & ps & B & L & LO & D & P & O & PO & NE).
  destruct (laid_out_root _ _ _ LO) as (nd & E & Eb).
  destruct (describes_bounds_finite _ _ _ D) as (lo & hi & Et & Hc & _).
  assert (NI : forall b, In b bounds -> exists q, In q ps /\ b = (bp_lo q, bp_hi q)).
  { intros b Hb. apply In_nth with (d := (vzero, vzero)) in Hb. destruct Hb as (k & Hk & <-).
    assert (In k ordered) as HI. { eapply Permutation_in; [apply Permutation_sym, PO|]. apply in_seq. lia. }
    rewrite O in HI. apply In_nth with (d := 0%nat) in HI. destruct HI as (i & Hi & Ei). rewrite map_length in Hi.
    destruct (ps_nth bounds ps i P Hi) as [Hk' En]. rewrite Ei in En. exists (nth i ps dflt). split; [now apply nth_In|].
    rewrite En. cbn. now rewrite <- surjective_pairing. }
  exists lo, hi, (vmap2 Rmin lo vlo), (vmap2 Rmax hi vhi).
  split; [cbn [bvh_world_bound]; rewrite E, Eb, Et; reflexivity|]. split; [apply union_fbox|].
  intros b Hb. destruct (NI b Hb) as (q & Hq & ->). cbn [fst snd]. destruct (Hc q Hq) as [[A1 [A2 A3]] [B1 [B2 B3]]].
    unfold vle, vmap2; cbn [vx vy vz].
    pose proof (Rmin_l (vx lo) (vx vlo)). pose proof (Rmin_l (vy lo) (vy vlo)). pose proof (Rmin_l (vz lo) (vz vlo)).
    pose proof (Rmax_l (vx hi) (vx vhi)). pose proof (Rmax_l (vy hi) (vy vhi)). pose proof (Rmax_l (vz hi) (vz vhi)). lra.
Qed.

Section GrownBVH.
  Variables (mp : nat) (bounds : list (vec * vec)) (nodes : list lnode) (ordered : list nat) (surf : nat -> R -> Prop) (r0 : ray).
  Variables (lo' hi' : vec) (fuel : nat).
  Hypothesis M : bvh_make SAH mp bounds = Ok (Some (nodes, ordered)).
  Hypothesis Hh : forall t o n, bvh_build SAH mp bounds = Ok (t, o, n) -> (theight t <= 64)%nat.
  Hypothesis HZ : pos_zero r0.
  Hypothesis HF : forall b, In b bounds -> off_x_faces r0 (fst b) (snd b).
  Hypothesis HG : forall b, In b bounds -> vle lo' (fst b) /\ vle (snd b) hi'.
  Hypothesis HW : within_bounds surf (fun i => nth i bounds (vzero, vzero)) r0 (length bounds).
  Hypothesis Hfu : (length nodes <= fuel)%nat.

  Lemma grown_ps ps : Permutation ps (build_data bounds) -> forall q, In q ps -> vle lo' (bp_lo q) /\ vle (bp_hi q) hi'.
  Proof.
    intros P q Hq. apply In_nth with (d := dflt) in Hq. destruct Hq as (i & Hi & <-).
    destruct (ps_nth bounds ps i P Hi) as [Hk ->]. cbn. apply HG. now apply nth_In.
  Qed.

  Lemma grown_bvh_nearest pi : notnan (rmaxt r0) -> nearest_contract surf pi r0 ->
    exists r' hit, traverse fuel (fun k => pi (nth k ordered 0%nat)) (set_root nodes (fbox lo' hi')) 0 [] (r0, None)
        = Ok (Some (r', hit)) /\
      nearest_hit surf (length bounds) r0 r' (option_map (fun k => nth k ordered 0%nat) hit).
  Proof.
    intros HM HC. destruct (bvh_make_inv _ _ _ _ _ M) as (t & ps & B & L & LO & D & P & O & PO & _).
    destruct (grown_nearest (fun k => surf (nth k ordered 0%nat)) t ps nodes r0 lo' hi' D LO (Hh _ _ _ B) HZ
      (e2e_faces bounds ps r0 P HF) (e2e_within bounds ordered ps surf r0 P O HW)
      (grown_ps ps P) (fun k => pi (nth k ordered 0%nat)) fuel HM) as (r' & hit & HT & HN); [|lia|].
    { intros i m Nm. apply (HC (nth i ordered 0%nat) m Nm). }
    exists r', hit. split; [exact HT|]. rewrite (e2e_len bounds ps P) in HN. destruct hit as [i|]; cbn in *.
    - destruct HN as (Hi&tt&A&B'&C&D'&F). split; [now apply (e2e_pos bounds ordered ps P O)|]. exists tt. repeat split; auto.
      intros j t' Hj Hs Hm. destruct (e2e_surj bounds ordered t PO (Hh _ _ _ B) j Hj) as (k&Hk&<-). eauto.
    - destruct HN as (A&B'). split; auto. intros j tt Hj Hs H1 H2.
      destruct (e2e_surj bounds ordered t PO (Hh _ _ _ B) j Hj) as (k&Hk&<-). eauto.
  Qed.

  Lemma grown_bvh_any pp : any_contract surf pp r0 ->
    exists b, traverse_p fuel (fun k => pp (nth k ordered 0%nat)) (set_root nodes (fbox lo' hi')) 0 [] r0 = Ok (Some b) /\
      any_hit surf (length bounds) r0 b.
  Proof.
    intros HC. destruct (bvh_make_inv _ _ _ _ _ M) as (t & ps & B & L & LO & D & P & O & PO & _).
    destruct (grown_any (fun k => surf (nth k ordered 0%nat)) t ps nodes r0 lo' hi' D LO (Hh _ _ _ B) HZ
      (e2e_faces bounds ps r0 P HF) (e2e_within bounds ordered ps surf r0 P O HW)
      (grown_ps ps P) (fun k => pp (nth k ordered 0%nat)) fuel) as (b & HT & HN); [|lia|].
    { intros i. apply (HC (nth i ordered 0%nat)). }
    exists b. split; auto. pose proof (e2e_len bounds ps P) as EL. destruct b; cbn in *.
    - destruct HN as (i&tt&Hi&A&B'&C). rewrite EL in Hi. exists (nth i ordered 0%nat), tt. repeat split; auto.
      now apply (e2e_pos bounds ordered ps P O).
    - intros j tt Hj Hs H1 H2. destruct (e2e_surj bounds ordered t PO (Hh _ _ _ B) j Hj) as (k&Hk&<-).
      exact (HN k tt ltac:(now rewrite EL) Hs H1 H2).
  Qed.
End GrownBVH.

(** ** the scene's queries after the constructor *)
Section SceneInit.
Variables (mp : nat) (items : list item) (ns np : Z) (r0 : ray) (vlo vhi : vec).
Hypothesis Hmp : (mp <= 4)%nat.
Hypothesis Hok : Forall (fun it => geom_ok (it_geom it)) items.
Hypothesis Hav : Forall (fun it => avoids_centre r0 (it_geom it)) items.
Hypothesis Hz : pos_zero r0.
Hypothesis Hm : notnan (rmint r0).
Hypothesis HM : notnan (rmaxt r0).
Let prims := full_refine_items items ns np.
Hypothesis Hface : forall p b, In p prims -> shape_bound (gp_shape p) = Ok b -> off_x_faces r0 (fst b) (snd b).
Hypothesis Hfit : (length prims <= 65)%nat \/ forall bounds t o n, prim_bounds prims = Ok bounds ->
  bvh_build SAH mp bounds = Ok (t, o, n) -> (theight t <= 64)%nat.
Let ps := all_pairs items ns np.

Theorem scene_init_nearest : exists sc b sc' steps, scene_make mp prims = Ok sc /\
  scene_init sc (Some (fbox vlo vhi)) = Ok (b, sc') /\
  forall i0 fuel, (steps <= fuel)%nat -> exists found r' i',
    scene_intersect fuel sc' r0 i0 = Ok (Some (found, r', i')) /\ scene_nearest items r0 i0 found r' i'.
Proof.
  assert (DD : full_refine_items items ns np = [] \/ full_refine_items items ns np <> []) by (destruct (full_refine_items items ns np); [now left|right; discriminate]). destruct DD as [E|NE].
  { exists None. eexists _, None, 0%nat. split; [unfold prims; rewrite E; reflexivity|]. split; [reflexivity|].
    intros i0 fuel _. exists false, r0, i0. split; [reflexivity|].
    cbn. split; [reflexivity|]. split; [reflexivity|]. intros it t Hi T _ _.
    exact (ps_nil items ns np r0 Hok E it t Hi T). }
  destruct (scene_setup mp items ns np r0 Hmp Hok Hav Hface Hfit NE) as (bounds & nodes & ordered & dfl & EB & LB & M & SM & HH & HF & HW & PO).
  destruct (root_grown SAH mp bounds nodes ordered vlo vhi M) as (lo & hi & lo' & hi' & WB & UB & HG).
  exists (Some (nodes, stored_prims ps ordered dfl)), (fbox lo' hi'), (Some (set_root nodes (fbox lo' hi'), stored_prims ps ordered dfl)), (length nodes).
  split; [exact SM|]. split; [unfold scene_init; rewrite WB; cbn [bind]; rewrite UB; reflexivity|].
  intros i0 fuel Hfu.
  destruct (grown_bvh_nearest mp bounds nodes ordered (s_surf ps r0) r0 lo' hi' fuel M HH Hz HF HG HW Hfu (s_pi ps) HM
     (s_nearest ps r0 (ps_contract items ns np r0 Hok Hav Hm))) as (r' & hit & HT & HN).
  destruct (sim_traverse ps r0 i0 ordered dfl (ps_shape items ns np r0 Hok Hav) (ps_contract items ns np r0 Hok Hav Hm)) with (nodes := set_root nodes (fbox lo' hi')) (fuel := fuel) (idx := 0%nat)
    (todo := @nil nat) (st := (false, r0, i0)) (s := (r0, @None nat)) (s' := (r', hit)) as ([[b' r1] i'] & HS & HR); auto.
  { intros k Hk. apply (Permutation_in _ PO) in Hk. apply in_seq in Hk. unfold ps. lia. }
  { intros j nd EN Hp. destruct (grown_root _ _ _ _ EN) as (nd0 & EN0 & -> & E2). rewrite E2 in *.
    pose proof (bvh_indices _ _ _ _ _ M j nd0 EN0) as B.
    apply Nat.ltb_lt in Hp. rewrite Hp in B. exact B. }
  { split; [reflexivity|]. split; [exists (rmaxt r0); split; [exact HM|destruct r0; reflexivity]|]. cbn. auto. }
  exists b', r1, i'. split; [exact HS|]. rewrite LB in HN.
  destruct HR as (HR1 & _ & HR3). cbn [fst snd] in *. subst r1.
  destruct hit as [k|]; cbn [option_map nearest_hit] in HN.
  - destruct HR3 as (-> & g & p & h & m & E & Hin & Nm & SI & HR' & ->).
    destruct HN as (Hk & t & HR'' & _ & L1 & L2 & Hmin).
    assert (Et : t = h_t h). { rewrite HR' in HR''. apply (f_equal rmaxt) in HR''. cbn in HR''. congruence. } subst t.
    destruct (ps_item items ns np r0 Hok Hav g p Hin) as (it & Hi & B & O & PO' & PA).
    pose proof (p_contract_ok g r0 PO' Hm PA m Nm) as C. cbv zeta in C. rewrite SI in C.
    destruct C as (C1 & _ & _ & _ & C5 & _).
    cbn [scene_nearest]. exists it, (h_t h), (h_dg h). split; [exact Hi|]. split; [exact HR'|].
    split; [eapply belongs_touch; eauto|]. split; [exact L1|]. split; [exact L2|]. split; [|split; [reflexivity|split]].
    + intros it' t' Hi' T' Lt. destruct (surf_items items ns np r0 Hok it' t' Hi' T') as (j & Hj & Sj). exact (Hmin j t' Hj Sj Lt).
    + apply B. exact C5.
    + exists p. split; [reflexivity|]. destruct B as (_ & B1 & B2 & _). repeat split; auto.
  - destruct HR3 as (-> & -> & ->). destruct HN as (_ & HN). cbn [scene_nearest].
    split; [reflexivity|]. split; [reflexivity|]. intros it t Hi T G1 G2.
    destruct (surf_items items ns np r0 Hok it t Hi T) as (j & Hj & Sj). exact (HN j t Hj Sj G1 G2).
Qed.

Theorem scene_init_any : exists sc b sc' steps, scene_make mp prims = Ok sc /\
  scene_init sc (Some (fbox vlo vhi)) = Ok (b, sc') /\
  forall fuel, (steps <= fuel)%nat -> exists b, scene_intersect_p fuel sc' r0 = Ok (Some b) /\ scene_any items r0 b.
Proof.
  assert (DD : full_refine_items items ns np = [] \/ full_refine_items items ns np <> []) by (destruct (full_refine_items items ns np); [now left|right; discriminate]). destruct DD as [E|NE].
  { exists None. eexists _, None, 0%nat. split; [unfold prims; rewrite E; reflexivity|]. split; [reflexivity|].
    intros fuel _. exists false. split; [reflexivity|].
    cbn. intros it t Hi T _ _. exact (ps_nil items ns np r0 Hok E it t Hi T). }
  destruct (scene_setup mp items ns np r0 Hmp Hok Hav Hface Hfit NE) as (bounds & nodes & ordered & dfl & EB & LB & M & SM & HH & HF & HW & PO).
  destruct (root_grown SAH mp bounds nodes ordered vlo vhi M) as (lo & hi & lo' & hi' & WB & UB & HG).
  exists (Some (nodes, stored_prims ps ordered dfl)), (fbox lo' hi'), (Some (set_root nodes (fbox lo' hi'), stored_prims ps ordered dfl)), (length nodes).
  split; [exact SM|]. split; [unfold scene_init; rewrite WB; cbn [bind]; rewrite UB; reflexivity|].
  intros fuel Hfu.
  destruct (grown_bvh_any mp bounds nodes ordered (s_surf ps r0) r0 lo' hi' fuel M HH Hz HF HG HW Hfu (s_pp ps)
     (s_any ps r0 (ps_contract items ns np r0 Hok Hav Hm) HM)) as (b & HT & HN).
  exists b.
  assert (Ho : forall k, In k ordered -> (k < length ps)%nat).
  { intros k Hk. apply (Permutation_in _ PO) in Hk. apply in_seq in Hk. unfold ps. lia. }
  assert (Hx : forall j nd, nth_error (set_root nodes (fbox lo' hi')) j = Some nd -> (0 < l_nprim nd)%nat -> (l_offset nd + l_nprim nd <= length ordered)%nat).
  { intros j nd EN Hp. destruct (grown_root _ _ _ _ EN) as (nd0 & EN0 & -> & E2). rewrite E2 in *.
    pose proof (bvh_indices _ _ _ _ _ M j nd0 EN0) as B.
    apply Nat.ltb_lt in Hp. rewrite Hp in B. exact B. }
  split; [exact (sim_traverse_p ps r0 ordered dfl (ps_shape items ns np r0 Hok Hav) (ps_contract items ns np r0 Hok Hav Hm) Ho _ Hx fuel HM 0%nat [] b HT)|].
  rewrite LB in HN. destruct b; cbn [any_hit scene_any] in *.
  - destruct HN as (k & t & Hk & (g & p & E & T) & L1 & L2). apply nth_error_In in E.
    destruct (ps_item items ns np r0 Hok Hav g p E) as (it & Hi & B & O & _). exists it, t. split; [exact Hi|].
    split; [eapply belongs_touch; eauto|]. auto.
  - intros it t Hi T G1 G2. destruct (surf_items items ns np r0 Hok it t Hi T) as (j & Hj & Sj). exact (HN j t Hj Sj G1 G2).
Qed.
End SceneInit.

(** ** the bound *)
Lemma fbox_ok lo hi : box_ok (fbox lo hi).
Proof. unfold box_ok, nonan3, fbox, vmap; cbn. repeat split; discriminate. Qed.
Lemma prim_bounds_in prims : forall bounds, prim_bounds prims = Ok bounds ->
  (forall b, In b bounds -> exists p, In p prims /\ shape_bound (gp_shape p) = Ok b) /\
  (forall p, In p prims -> exists b, shape_bound (gp_shape p) = Ok b /\ In b bounds).
Proof.
  induction prims as [|p l IH]; cbn [prim_bounds]; intros bounds.
  - intros [= <-]. split; [intros b []|intros p []].
  - destruct (shape_bound (gp_shape p)) as [b|] eqn:E; cbn [bind]; [|discriminate].
    destruct (prim_bounds l) as [bs|]; cbn [bind]; [|discriminate]. intros [= <-]. destruct (IH bs eq_refl) as [A B]. split.
    + intros c [<-|H]; [exists p; split; [now left|exact E]|]. destruct (A c H) as (q & Q1 & Q2). exists q. split; [now right|exact Q2].
    + intros q [<-|H]; [exists b; split; [exact E|now left]|]. destruct (B q H) as (c & C1 & C2). exists c. split; [exact C1|now right].
Qed.
Lemma scene_world_bound mp prims sc : scene_make mp prims = Ok sc ->
  exists bounds, prim_bounds prims = Ok bounds /\
    bvh_world_bound (match sc with Some (nodes, _) => Some nodes | None => None end)
      = Ok (accumulate bbox_empty (map (fun b => GB (fbox (fst b) (snd b))) bounds)).
Proof.
  unfold scene_make. destruct (prim_bounds prims) as [bounds|]; cbn [bind]; [|discriminate].
  destruct (bvh_make SAH mp bounds) as [[[nodes ordered]|]|] eqn:M; cbn [bind]; [| |discriminate]; intros [= <-]; exists bounds; (split; [reflexivity|]).
  - apply (bvh_world_bound_union _ _ _ _ _ M).
  - destruct bounds as [|b l]; [reflexivity|]. unfold bvh_make in M. destruct (bvh_build _ _ _) as [[[t o] n]|]; [|discriminate].
    cbn [bind] in M. destruct (bvh_flatten t n); discriminate.
Qed.
Theorem scene_bound_least mp prims sc (vb : option box) : scene_make mp prims = Ok sc -> (forall v, vb = Some v -> box_ok v) ->
  exists b sc', scene_init sc vb = Ok (b, sc') /\ box_ok b /\
    forall c, box_ok c -> (box_le b c <->
      (forall p pb, In p prims -> shape_bound (gp_shape p) = Ok pb -> box_le (fbox (fst pb) (snd pb)) c) /\
      (forall v, vb = Some v -> box_le v c)).
Proof.
  intros HS HV. destruct (scene_world_bound mp prims sc HS) as (bounds & EB & WB).
  destruct (prim_bounds_in prims bounds EB) as [IN NI].
  set (l := map (fun b => GB (fbox (fst b) (snd b))) bounds) in *.
  assert (Hl : Forall S_Geometry.geom_ok (l ++ match vb with Some v => [GB v] | None => [] end)).
  { apply Forall_app. split.
    - apply Forall_forall. intros x Hx. unfold l in Hx. apply in_map_iff in Hx. destruct Hx as (b & <- & _). apply fbox_ok.
    - destruct vb; constructor; [cbn; auto|constructor]. }
  exists (accumulate bbox_empty (l ++ match vb with Some v => [GB v] | None => [] end)).
  assert (EX : exists sc', scene_init sc vb = Ok (accumulate bbox_empty (l ++ match vb with Some v => [GB v] | None => [] end), sc')).
  { unfold scene_init. rewrite WB. cbn [bind]. unfold accumulate. rewrite fold_left_app. destruct vb; eexists; reflexivity. }
  destruct EX as (sc' & EX). exists sc'. split; [exact EX|].
  split; [now apply accumulate_ok; auto using empty_ok|].
  destruct (accumulate_covers _ bbox_empty empty_ok Hl) as [C _]. rewrite Forall_forall in C.
  intros c Hc. split.
  - intros HB. split.
    + intros p pb Hp Hpb. destruct (NI p Hp) as (b & E & Hb). rewrite E in Hpb. injection Hpb as ->.
      assert (Q : covers (accumulate bbox_empty (l ++ match vb with Some v => [GB v] | None => [] end)) (GB (fbox (fst pb) (snd pb)))).
      { apply C. apply in_or_app. left. unfold l. apply in_map_iff. exists pb. auto. }
      eapply (covers_trans _ _ (GB _)); [exact HB|exact Q].
    + intros v ->. assert (Q : covers (accumulate bbox_empty (l ++ [GB v])) (GB v)).
      { apply C. apply in_or_app. right. now left. }
      eapply (covers_trans _ _ (GB _)); [exact HB|exact Q].
  - intros [A B]. apply accumulate_lub; auto using empty_ok. split; [now apply empty_le|].
    apply Forall_forall. intros g Hg. apply in_app_or in Hg. destruct Hg as [Hg|Hg].
    + unfold l in Hg. apply in_map_iff in Hg. destruct Hg as (pb & <- & Hb). destruct (IN pb Hb) as (p & P1 & P2). cbn. eauto.
    + destruct vb as [v|]; [|destruct Hg]. destruct Hg as [<-|[]]. cbn. auto.
Qed.
Theorem scene_bound_contains mp items ns np sc vb b sc' : Forall (fun it => geom_ok (it_geom it)) items ->
  (forall v, vb = Some v -> box_ok v) ->
  scene_make mp (full_refine_items items ns np) = Ok sc -> scene_init sc vb = Ok (b, sc') ->
  (forall it r t, In it items -> touches (it_geom it) r t -> in_box b (ray_at r t)) /\
  (forall v p, vb = Some v -> in_box v p -> in_box b p).
Proof.
  intros Hok HV HS HI. destruct (scene_bound_least mp _ sc vb HS HV) as (b1 & sc1 & E & OK & LUB). rewrite HI in E. injection E as <- <-.
  pose proof (proj1 (LUB b OK) (box_le_refl _ OK)) as [C1 C2]. split.
  - intros it r t Hi T. rewrite Forall_forall in Hok.
    destruct (all_cover items r t it ns np Hi (Hok it Hi) T) as (g & p & H & T').
    destruct (all_belong _ _ _ _ _ H) as (it' & Hi' & B). destruct B as (B0 & _ & _ & B1 & _).
    destruct (p_bound_ok g r (B1 (Hok it' Hi'))) as (pb & EB & W). specialize (W t T').
    assert (Hp : In p (full_refine_items items ns np)). { rewrite <- all_pairs_snd. apply in_map_iff. exists (g, p). auto. }
    eapply box_le_in; [apply (C1 p pb Hp); rewrite B0; exact EB|].
    destruct W as [(W1 & W2 & W3) (W4 & W5 & W6)]. unfold in_box, fbox, vmap; cbn. repeat split; apply ele_Fin; assumption.
  - intros v p E Hp. eapply box_le_in; [apply C2; exact E|exact Hp].
Qed.
