(** Proofs about the ray walk through the uniform grid (C66). *)
From Coq Require Import Reals List Bool ZArith Arith Lia Lra.
From Verif Require Import Base M_Geometry S_Geometry P_Geometry M_BVH S_BVH P_BVH P_BVHTrav P_BVHWit M_Aggregate S_Aggregate P_Refine P_Aggregate P_Grid.
Import ListNotations.
Open Scope R_scope.

Definition remaining (g : grid) (r : ray) (pos : V3 Z) (k : nat) : Z :=
  if Rltb (vnth (rd r) k) 0 then (vnth pos k + 1)%Z else (vnth (g_nv g) k - vnth pos k)%Z.

Lemma argmin3 (a b c : E) : (argmin [a; b; c] < 3)%nat.
Proof.
  unfold argmin. cbn [argmin_from].
  destruct a, b, c; cbn; repeat match goal with |- context [if ?x then _ else _] => destruct x end; cbn; lia.
Qed.

Lemma vnth_vset {A} (v : V3 A) i x k : (i < 3)%nat -> (k < 3)%nat ->
  vnth (vset v i x) k = if Nat.eqb i k then x else vnth v k.
Proof.
  intros. destruct i as [|[|[|]]]; [| | |lia]; (destruct k as [|[|[|]]]; [| | |lia]); reflexivity.
Qed.

Section Walk.
Context {S : Type} (g : grid) (r : ray) (visit : list nat -> S -> S) (maxt : S -> E) (P : S -> Prop).
Context (HL : Z.of_nat (length (g_vox g)) = (vx (g_nv g) * vy (g_nv g) * vz (g_nv g))%Z).
Context (HP : forall x y z st, valid_voxel g x y z -> P st -> P (visit (voxel_prims g x y z) st)).

Lemma walk_total : forall fuel pos nc st,
  valid_voxel g (vx pos) (vy pos) (vz pos) -> P st ->
  (remaining g r pos 0 + remaining g r pos 1 + remaining g r pos 2 <= Z.of_nat fuel + 2)%Z ->
  exists st', grid_walk fuel g r visit maxt pos nc st = Ok (Some st') /\ P st'.
Proof.
  induction fuel as [|fuel IH]; intros pos nc st HV HS HR.
  - exfalso. unfold remaining, valid_voxel in *. cbn [vnth] in HR.
    repeat match goal with H : context [Rltb ?a ?b] |- _ => destruct (Rltb a b) end; lia.
  - cbn [grid_walk].
    assert (V := HV). destruct V as (V0&V1&V2).
    pose proof (goffset_bound _ _ _ _ _ _ V0 V1 V2) as B. unfold goffset.
    destruct (nth_error (g_vox g) _) as [l|] eqn:E.
    2:{ apply nth_error_None in E. lia. }
    assert (El : l = voxel_prims g (vx pos) (vy pos) (vz pos)).
    { unfold voxel_prims. symmetry. now apply nth_error_nth. }
    subst l. cbv zeta. set (st1 := visit _ st).
    assert (HS1 : P st1) by (unfold st1; apply HP; auto).
    set (ax := argmin _). assert (HA : (ax < 3)%nat) by apply argmin3.
    destruct (eltb (maxt st1) (vnth nc ax)); [eauto|].
    destruct (Z.eqb_spec (vnth pos ax + g_step r ax) (g_out g r ax)) as [Q|Q]; [eauto|].
    assert (V : forall k, (k < 3)%nat -> (0 <= vnth pos k < vnth (g_nv g) k)%Z).
    { intros [|[|[|]]] Hk; cbn; lia. }
    apply IH; auto.
    + assert (forall k, (k < 3)%nat -> (0 <= vnth (vset pos ax (vnth pos ax + g_step r ax)%Z) k < vnth (g_nv g) k)%Z).
      { intros k Hk. rewrite vnth_vset by auto. pose proof (V k Hk).
        destruct (Nat.eqb_spec ax k) as [->|]; [|assumption].
        unfold g_step, g_out in *. destruct (Rltb (vnth (rd r) k) 0); lia. }
      pose proof (H 0%nat ltac:(lia)); pose proof (H 1%nat ltac:(lia)); pose proof (H 2%nat ltac:(lia)).
      unfold valid_voxel; cbn [vnth] in *; tauto.
    + assert (D : forall k, (k < 3)%nat -> remaining g r (vset pos ax (vnth pos ax + g_step r ax)%Z) k =
         (if Nat.eqb ax k then remaining g r pos k - 1 else remaining g r pos k)%Z).
      { intros k Hk. unfold remaining. rewrite vnth_vset by auto. destruct (Nat.eqb_spec ax k) as [->|]; [|reflexivity].
        unfold g_step. destruct (Rltb (vnth (rd r) k) 0); lia. }
      rewrite !D by lia. destruct ax as [|[|[|]]]; cbn [Nat.eqb]; lia.
Qed.

Lemma start_total fuel ray_t st bounds : Forall (fun b => vle (fst b) (snd b)) bounds -> grid_make bounds = Ok g ->
  (192 <= fuel)%nat -> P st ->
  exists st', grid_start fuel g r ray_t visit maxt st = Ok (Some st') /\ P st'.
Proof.
  intros HV HG Hf HS. unfold grid_start. cbv zeta.
  destruct (grid_pos2voxel bounds g (ray_at r ray_t) HV HG) as [VV _].
  destruct (grid_make_spec bounds g HV HG) as (RN&_).
  apply walk_total; [exact VV|exact HS|].
  pose proof (RN 0%nat ltac:(lia)); pose proof (RN 1%nat ltac:(lia)); pose proof (RN 2%nat ltac:(lia)).
  unfold valid_voxel in VV. unfold remaining. cbn [vnth vx vy vz] in *.
  repeat match goal with |- context [Rltb ?a ?b] => destruct (Rltb a b) end; lia.
Qed.
End Walk.

(** ** Soundness of the reported hits *)
Definition sound_hit (surf : nat -> R -> Prop) (n : nat) (r0 : ray) (st : ray * option nat) : Prop :=
  match snd st with
  | None => fst st = r0
  | Some i => (i < n)%nat /\ exists t, fst st = ray_set_maxt r0 (Fin t) /\ surf i t /\
      ele (rmint r0) (Fin t) /\ ele (Fin t) (rmaxt r0)
  end.

Lemma leaf_loop_sound surf pi r0 n : notnan (rmaxt r0) -> nearest_contract surf pi r0 -> forall l st,
  (forall i, In i l -> (i < n)%nat) -> sound_hit surf n r0 st -> sound_hit surf n r0 (leaf_loop pi l st).
Proof.
  intros HNN HC. induction l as [|i l IH]; intros [r rec] Hl HS; cbn [leaf_loop]; [exact HS|].
  cbn [fst].
  assert (exists m, r = ray_set_maxt r0 m /\ ele m (rmaxt r0) \/ r = r0) as RS.
  { destruct rec; cbn in HS; [destruct HS as (_&t&->&_&_&H); exists (Fin t); now left|exists (Fin 0); now right]. }
  assert (exists m, r = ray_set_maxt r0 m /\ notnan m /\ (forall t, ele (Fin t) m -> ele (Fin t) (rmaxt r0))) as (m&->&Nm&Hm).
  { destruct RS as (m&[(->&Hm)| -> ]).
    - exists m; split; auto. split; [intros ->; discriminate|]. intros t H. exact (ele_trans _ _ _ H Hm).
    - exists (rmaxt r0). split; [destruct r0; reflexivity|auto]. }
  pose proof (HC i m Nm) as C. cbn zeta in C.
  destruct (pi i (ray_set_maxt r0 m)) as [t|].
  - apply IH; [intros; apply Hl; now right|]. cbn. destruct C as (C1&C2&C3&_).
    split; [apply Hl; now left|]. exists t. auto.
  - apply IH; [intros; apply Hl; now right|exact HS].
Qed.

Lemma vox_prims_lt bounds g x y z : Forall (fun b => vle (fst b) (snd b)) bounds -> grid_make bounds = Ok g ->
  valid_voxel g x y z -> forall i, In i (voxel_prims g x y z) -> (i < length bounds)%nat.
Proof.
  intros HV HG V i Hi. destruct (grid_make_spec bounds g HV HG) as (_&_&_&_&_&_&M&_).
  now apply M in Hi.
Qed.

Theorem grid_intersect_sound bounds g surf pi r0 m fuel :
  Forall (fun b => vle (fst b) (snd b)) bounds -> grid_make bounds = Ok g -> (192 <= fuel)%nat ->
  rmint r0 = Fin m -> notnan (rmaxt r0) -> nearest_contract surf pi r0 ->
  exists r' hit, grid_intersect fuel g pi r0 = Ok (Some (r', hit)) /\ sound_hit surf (length bounds) r0 (r', hit).
Proof.
  intros HV HG Hf Hm HNN HC. unfold grid_intersect. rewrite Hm. cbv zeta.
  destruct (grid_make_spec bounds g HV HG) as (_&HL&_).
  assert (HP : forall x y z (st : ray * option nat), valid_voxel g x y z -> sound_hit surf (length bounds) r0 st ->
     sound_hit surf (length bounds) r0 (leaf_loop pi (voxel_prims g x y z) st)).
  { intros. apply leaf_loop_sound; auto. eapply vox_prims_lt; eauto. }
  assert (HS : sound_hit surf (length bounds) r0 (r0, None)) by reflexivity.
  destruct (inside _ _).
  - destruct (start_total g r0 (fun l st => leaf_loop pi l st) (fun st => rmaxt (fst st)) _ HL HP fuel m _ bounds HV HG Hf HS)
      as ([r' hit]&E&S). eauto.
  - destruct (bbox_intersect_p _ _ _); [|eauto].
    destruct (start_total g r0 (fun l st => leaf_loop pi l st) (fun st => rmaxt (fst st)) _ HL HP fuel 0 _ bounds HV HG Hf HS)
      as ([r' hit]&E&S). eauto.
Qed.

Theorem grid_intersect_p_sound bounds g surf pp r0 m fuel :
  Forall (fun b => vle (fst b) (snd b)) bounds -> grid_make bounds = Ok g -> (192 <= fuel)%nat ->
  rmint r0 = Fin m -> any_contract surf pp r0 ->
  exists b, grid_intersect_p fuel g pp r0 = Ok (Some b) /\
    (b = true -> exists i, (i < length bounds)%nat /\ meets surf r0 i).
Proof.
  intros HV HG Hf Hm HC. unfold grid_intersect_p. rewrite Hm. cbv zeta.
  destruct (grid_make_spec bounds g HV HG) as (_&HL&_).
  set (P := fun b => b = true -> exists i, (i < length bounds)%nat /\ meets surf r0 i).
  assert (HP : forall x y z st, valid_voxel g x y z -> P st -> P (st || existsb (fun i => pp i r0) (voxel_prims g x y z))).
  { intros x y z st V HPs H. apply orb_true_iff in H. destruct H as [H|H]; [now apply HPs|].
    apply existsb_exists in H. destruct H as (i&Hi&Pi). exists i. split; [eapply vox_prims_lt; eauto|]. now apply HC. }
  destruct (start_total g r0 (fun l st => st || existsb (fun i => pp i r0) l) (fun _ => rmaxt r0) P HL HP fuel
     (if inside (fbox (g_lo g) (g_hi g)) (ray_at r0 m) then m else 0) false bounds HV HG Hf) as (b&E&S).
  { intros H; discriminate. }
  eauto.
Qed.

(** ** A ray for which the walk misses a primitive *)
Lemma grid_make_nv bounds g : grid_make bounds = Ok g ->
  let delta := vsub (agg_hi bounds) (agg_lo bounds) in
  g_nv g = vmap (n_vox (length bounds) (vnth delta (maximum_extent (agg_bounds bounds)))) delta.
Proof.
  intros H. destruct bounds as [|b0 bs]; [discriminate|]. set (bounds := b0 :: bs) in *.
  cbv beta delta [grid_make] iota in H.
  change (match bounds with [] => Err ValueError | _ :: _ => ?x end) with x in H.
  cbv zeta in H. destruct (Reqb _ 0) in H; [discriminate|].
  destruct (for_each _ _ _) in H; [|discriminate]. cbn [bind] in H. injection H as <-. reflexivity.
Qed.

Definition wit_bounds : list (vec * vec) :=
  [(mkV 0 0 0, mkV (/2) 1 1); (mkV (5/2) 0 0, mkV 3 1 1)].
Definition wit_ray : ray := mkRay (mkV (-1) (/2) (/2)) (mkV 1 0 0) (mkV false false false) (Fin 0) PInf 0%Z 0.
(** the second primitive contains the plane x = 2.8, which the ray meets at t = 3.8 *)
Definition wit_surf (i : nat) (t : R) : Prop := i = 1%nat /\ t = 19/5.
Definition wit_pi : prim_isect := fun i r =>
  if (i =? 1)%nat && eleb (rmint r) (Fin (19/5)) && eleb (Fin (19/5)) (rmaxt r) then Some (19/5) else None.

Lemma cbrt2 : 1 < Rpower 2 (/ 3) < 4 / 3.
Proof.
  assert (H : Rpower 2 (/ 3) ^ 3 = 2).
  { rewrite <- Rpower_pow by apply exp_pos. rewrite Rpower_mult.
    replace (/ 3 * INR 3) with 1 by (cbn; field). apply Rpower_1. lra. }
  assert (P : 0 < Rpower 2 (/ 3)) by apply exp_pos.
  set (c := Rpower 2 (/ 3)) in *. cbn in H. split; apply Rnot_le_lt; intro Q.
  - assert (c * c <= 1) by nra. assert (c * (c * c) <= 1) by nra. lra.
  - assert (4/3 * (4/3) <= c * c) by nra. assert (4/3 * (4/3 * (4/3)) <= c * (c * c)) by nra. lra.
Qed.

Lemma wit_agg : agg_bounds wit_bounds = fbox (mkV 0 0 0) (mkV 3 1 1).
Proof.
  unfold agg_bounds, wit_bounds, fbox, vmap; cbn. unfold union_bb, vmap2, emin, emax; cbn. rdec. reflexivity.
Qed.

Lemma wit_nv g : grid_make wit_bounds = Ok g -> g_nv g = mkV 3%Z 1%Z 1%Z.
Proof.
  intros H. rewrite (grid_make_nv _ _ H). cbv zeta. unfold agg_lo, agg_hi. rewrite wit_agg.
  unfold vsub, vmap, vmap2. cbn [vx vy vz fbox bmin bmax corner vmap].
  replace (maximum_extent (fbox (mkV 0 0 0) (mkV 3 1 1))) with 0%nat.
  2:{ unfold maximum_extent, fbox; cbn. rdec. reflexivity. }
  cbn [vnth vx length wit_bounds]. pose proof cbrt2 as C.
  assert (N : forall d, n_vox 2 (3 - 0) d = Zclip (Ztrunc (d * Rpower 2 (/ 3))) 1 64).
  { intros d. unfold n_vox. do 2 f_equal. replace (INR 2) with 2 by (cbn; lra). field. }
  rewrite !N.
  rewrite !Ztrunc_nonneg by lra.
  rewrite (Zfloor_unique ((3 - 0) * Rpower 2 (/ 3)) 3) by lra.
  rewrite (Zfloor_unique ((1 - 0) * Rpower 2 (/ 3)) 1) by lra. reflexivity.
Qed.

Lemma wit_contract : nearest_contract wit_surf wit_pi wit_ray /\
  any_contract wit_surf (fun i r => match wit_pi i r with Some _ => true | None => false end) wit_ray.
Proof.
  split.
  - intros i m _. cbv zeta. unfold wit_pi, wit_surf. destruct (Nat.eqb_spec i 1) as [->|N]; cbn [andb].
    + destruct (eleb _ _) eqn:A; cbn [andb]; [destruct (eleb (Fin (19/5)) _) eqn:B|].
      * repeat split; auto. intros t' [_ ->] _. lra.
      * intros t' [_ ->] _ H. unfold ele in H. cbn [rmaxt ray_set_maxt] in *. congruence.
      * intros t' [_ ->] H _. unfold ele in H. cbn [rmint ray_set_maxt] in *. congruence.
    + intros t' [-> _]. congruence.
  - intros i. unfold wit_pi, wit_surf. destruct (Nat.eqb_spec i 1) as [->|N]; cbn [andb].
    + split; [intros _; exists (19/5); repeat split|]; cbn.
      * apply ele_Fin. lra.
      * intros _. rdec. reflexivity.
    + split; [discriminate|]. intros (t&[-> _]&_). congruence.
Qed.

Theorem grid_misses : exists g,
  grid_make wit_bounds = Ok g /\
  within_bounds wit_surf (fun i => nth i wit_bounds (vzero, vzero)) wit_ray 2 /\
  nearest_contract wit_surf wit_pi wit_ray /\ meets wit_surf wit_ray 1 /\
  forall fuel, (1 <= fuel)%nat -> grid_intersect fuel g wit_pi wit_ray = Ok (Some (wit_ray, None)).
Proof.
  assert (HV : Forall (fun b => vle (fst b) (snd b)) wit_bounds).
  { unfold wit_bounds, vle. repeat constructor; cbn; lra. }
  destruct (proj2 (grid_make_total wit_bounds HV)) as [g HG].
  { split; [discriminate|]. unfold agg_lo, agg_hi. rewrite wit_agg. cbn. intros E. injection E. lra. }
  exists g. split; [exact HG|]. split; [|split; [apply wit_contract|split]].
  - intros i t Hi [-> ->]. cbn. unfold between, vle; cbn. lra.
  - exists (19/5). split; [now split|]. split; [apply ele_Fin; lra|reflexivity].
  - intros fuel Hf. destruct fuel as [|fuel]; [lia|].
    pose proof (wit_nv g HG) as NV.
    destruct (grid_make_spec wit_bounds g HV HG) as (RN&VL&EL&EH&WD&IW&MEM&_).
    assert (LO : g_lo g = mkV 0 0 0) by (rewrite EL; unfold agg_lo; now rewrite wit_agg).
    assert (HI : g_hi g = mkV 3 1 1) by (rewrite EH; unfold agg_hi; now rewrite wit_agg).
    assert (W : g_w g = mkV 1 1 1).
    { pose proof (WD 0%nat ltac:(lia)) as (_&W0&_). pose proof (WD 1%nat ltac:(lia)) as (_&W1&_).
      pose proof (WD 2%nat ltac:(lia)) as (_&W2&_). rewrite LO, HI, NV in *. cbn in W0, W1, W2. apply V3_eq; cbn; lra. }
    assert (IW1 : g_iw g = mkV 1 1 1).
    { rewrite IW, W. unfold vmap, inv_width; cbn. rdec. replace (1 / 1) with 1 by field. reflexivity. }
    assert (V0 : valid_voxel g 0 0 0) by (unfold valid_voxel; rewrite NV; cbn; lia).
    assert (P0 : forall i, In i (voxel_prims g 0 0 0) -> i = 0%nat).
    { intros i Hi. apply MEM in Hi; auto. destruct Hi as (Hi&p&Bp&Vp). cbn in Hi.
      destruct i as [|[|]]; [reflexivity| |lia]. exfalso. cbn in Bp. unfold between, vle in Bp. cbn in Bp.
      unfold in_voxel, in_cell in Vp. rewrite LO, W, NV in Vp. cbn in Vp.
      destruct Vp as ((_&[Q|[Q _]])&_); [lra|lia]. }
    unfold grid_intersect. cbn [rmint wit_ray]. fold wit_ray. cbv zeta.
    rewrite LO, HI.
    replace (inside (fbox (mkV 0 0 0) (mkV 3 1 1)) (ray_at wit_ray 0)) with false.
    2:{ unfold inside; cbn. rdec. reflexivity. }
    destruct (bbox_intersect_p _ _ _) as [q|]; [|reflexivity].
    unfold grid_start. cbv zeta. cbn [grid_walk].
    assert (PX : forall k, (k < 3)%nat -> pos2voxel g (ray_at wit_ray 0) k = 0%Z).
    { intros k Hk. unfold pos2voxel, pos2voxel_. rewrite LO, IW1, NV.
      destruct k as [|[|[|]]]; [| | |lia]; cbn; unfold Zclip.
      - replace ((-1 + 0 * 1 - 0) * 1) with (-1) by ring. rewrite Ztrunc_neg by lra.
        replace (-1) with (IZR (-1)) by reflexivity. rewrite Zceil_IZR. reflexivity.
      - rewrite Ztrunc_nonneg by lra. rewrite (Zfloor_unique _ 0) by (cbn; lra). reflexivity.
      - rewrite Ztrunc_nonneg by lra. rewrite (Zfloor_unique _ 0) by (cbn; lra). reflexivity. }
    rewrite !PX by lia. cbn [vx vy vz].
    pose proof (MEM 0%Z 0%Z 0%Z 0%nat V0) as _.
    assert (VP : voxel_prims g 0 0 0 = nth 0 (g_vox g) []) by (unfold voxel_prims; rewrite NV; reflexivity).
    unfold goffset. rewrite NV. cbn [vx vy vz Z.mul Z.add Z.to_nat Pos.mul].
    rewrite NV in VL. cbn in VL.
    destruct (g_vox g) as [|l ls] eqn:GV; [discriminate VL|]. cbn [nth_error].
    cbn in VP.
    assert (LL : forall l' , (forall i, In i l' -> i = 0%nat) -> leaf_loop wit_pi l' (wit_ray, None) = (wit_ray, None)).
    { induction l' as [|i l' IH]; intros Hl; [reflexivity|]. cbn [leaf_loop fst].
      rewrite (Hl i) by now left. cbn. apply IH. intros; apply Hl; now right. }
    rewrite LL by (rewrite <- VP; exact P0). cbn [fst].
    assert (N0 : g_next g wit_ray 0 (ray_at wit_ray 0) 0 0 = Fin 2).
    { unfold g_next, voxel2pos. rewrite LO, W. cbn. rdec. unfold edivz. rdec. cbn. f_equal. field. }
    assert (N1 : g_next g wit_ray 0 (ray_at wit_ray 0) 0 1 = NInf).
    { unfold g_next, voxel2pos. rewrite LO, W. cbn. rdec. unfold edivz. rdec. reflexivity. }
    assert (N2 : g_next g wit_ray 0 (ray_at wit_ray 0) 0 2 = NInf).
    { unfold g_next, voxel2pos. rewrite LO, W. cbn. rdec. unfold edivz. rdec. reflexivity. }
    rewrite N0, N1, N2. cbn [argmin argmin_from eltb vnth vx vy vz].
    cbn [rmaxt wit_ray]. fold wit_ray. cbn [eltb].
    unfold g_step, g_out. rewrite NV. cbn [vnth vx vy vz rd wit_ray]. fold wit_ray.
    replace (Rltb 0 0) with false by (symmetry; apply Rltb_false; lra). reflexivity.
Qed.
