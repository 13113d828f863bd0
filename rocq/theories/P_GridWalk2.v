(** The grid walk for rays whose direction components are 1 or 0 (C66): the next-crossing formula is right for them. *)
From Coq Require Import Reals List Bool ZArith Arith Lia Lra.
From Verif Require Import Base M_Geometry S_Geometry P_Geometry M_BVH S_BVH P_BVH P_BVHTrav P_BVHWit M_Aggregate S_Aggregate P_Refine P_Aggregate P_Grid P_GridWalk P_Aggregate2.
Import ListNotations.
Open Scope R_scope.

Lemma elt_cases (x y : E) : notnan x -> notnan y -> eltb x y = true /\ ele x y \/ eltb x y = false /\ ele y x.
Proof.
  intros Nx Ny. destruct x, y; try (now destruct Nx); try (now destruct Ny); unfold ele; cbn; auto.
  destruct (Rltb r r0) eqn:Q; Rb; [left|right]; (split; [reflexivity|apply Rleb_true; lra]).
Qed.
Lemma ele_tr (x y z : E) : ele x y -> ele y z -> ele x z.
Proof. intros H1 H2. destruct x, y, z; unfold ele in *; cbn in *; try discriminate; try reflexivity. Rb. apply Rleb_true. lra. Qed.
Lemma ele_rf (x : E) : notnan x -> ele x x.
Proof. intros Nx. destruct x; unfold ele; cbn; try reflexivity; [apply Rleb_true; lra|now destruct Nx]. Qed.
Lemma argmin_step x b ib i l : notnan b -> notnan x ->
  argmin_from b ib i (x :: l) = if eltb x b then argmin_from x i (S i) l else argmin_from b ib (S i) l.
Proof. intros Nb Nx. destruct b, x; try (now destruct Nb); try (now destruct Nx); reflexivity. Qed.
Lemma argmin3_le (a b c : E) k : notnan a -> notnan b -> notnan c -> (k < 3)%nat ->
  ele (vnth (mkV a b c) (argmin [a; b; c])) (vnth (mkV a b c) k).
Proof.
  intros Na Nb Nc Hk. unfold argmin. rewrite argmin_step by auto.
  destruct (elt_cases b a Nb Na) as [[-> L1]|[-> L1]]; rewrite argmin_step by auto;
    [destruct (elt_cases c b Nc Nb) as [[-> L2]|[-> L2]]|destruct (elt_cases c a Nc Na) as [[-> L2]|[-> L2]]];
  cbn [argmin_from]; destruct k as [|[|[|]]]; try lia; cbn [vnth vx vy vz]; auto using ele_rf; eapply ele_tr; eauto.
Qed.

Section Reach.
Context {St : Type} (bounds : list (vec * vec)) (g : grid) (r : ray) (visit : list nat -> St -> St) (maxt : St -> E) (P Q : St -> Prop).
Context (HV : Forall (fun b => vle (fst b) (snd b)) bounds) (HG : grid_make bounds = Ok g).
Context (s t : R) (Hst : s <= t) (HU : unit_steps r).
Context (HB : between (agg_lo bounds) (ray_at r t) (agg_hi bounds)).
Context (HE : forall k j, (k < 3)%nat -> (j < 3)%nat -> k <> j -> vnth (rd r) k = 1 -> vnth (rd r) j = 1 -> vnth (ray_at r t) k < vnth (g_hi g) k).
Let T (k : nat) : Z := pos2voxel g (ray_at r t) k.
Context (HPk : forall l st, P st -> P (visit l st)).
Context (HQk : forall x y z st, valid_voxel g x y z -> Q st -> Q (visit (voxel_prims g x y z) st)).
Context (HQ : forall st, Q st -> P st \/ ele (Fin t) (maxt st)).
Context (HT : forall st, Q st -> P (visit (voxel_prims g (T 0) (T 1) (T 2)) st)).

Lemma at_k (u : R) k : (k < 3)%nat -> vnth (ray_at r u) k = vnth (ro r) k + u * vnth (rd r) k.
Proof. intros Hk. unfold ray_at, vadd, vscale, vmap2, vmap. destruct k as [|[|[|]]]; [reflexivity..|lia]. Qed.
Lemma cell_k k : (k < 3)%nat -> in_cell (vnth (g_lo g) k) (vnth (g_w g) k) (vnth (g_nv g) k) (T k) (vnth (ray_at r t) k) /\ (0 <= T k < vnth (g_nv g) k)%Z.
Proof.
  intros Hk. destruct (grid_pos2voxel bounds g (ray_at r t) HV HG) as [VV PV].
  pose proof (proj2 (PV HB _ _ _ VV) (conj eq_refl (conj eq_refl eq_refl))) as (A&B&C). destruct VV as (V0&V1&V2).
  destruct k as [|[|[|]]]; try lia; cbn [vnth]; auto.
Qed.

(** position and next crossing of axis [k] are as they should be *)
Definition axis_ok (pos : V3 Z) (nc : V3 E) (k : nat) : Prop :=
  (vnth (rd r) k = 1 -> (0 <= vnth pos k <= T k)%Z /\ vnth nc k = Fin (s + (voxel2pos g (vnth pos k + 1) k - vnth (ray_at r s) k))) /\
  (vnth (rd r) k = 0 -> vnth pos k = T k /\ vnth nc k = PInf).

Lemma walk_reaches : forall fuel pos nc st st', Q st -> (forall k, (k < 3)%nat -> axis_ok pos nc k) ->
  grid_walk fuel g r visit maxt pos nc st = Ok (Some st') -> P st'.
Proof.
  destruct (grid_make_spec bounds g HV HG) as (RN&_&_&_&WD&_).
  induction fuel as [|fuel IH]; intros pos nc st st' HS HA E0; [discriminate|].
  assert (R01 : forall k, (k < 3)%nat -> vnth (rd r) k = 1 \/ vnth (rd r) k = 0) by (intros k Hk; destruct (HU k Hk) as [|(A&_)]; auto).
  assert (NN : forall k, (k < 3)%nat -> notnan (vnth nc k)).
  { intros k Hk. destruct (HA k Hk) as [A1 A0]. destruct (R01 k Hk) as [D|D]; [destruct (A1 D) as [_ ->]|destruct (A0 D) as [_ ->]]; discriminate. }
  assert (PT : forall k, (k < 3)%nat -> (0 <= vnth pos k <= T k)%Z).
  { intros k Hk. destruct (HA k Hk) as [A1 A0]. destruct (R01 k Hk) as [D|D]; [now destruct (A1 D)|]. destruct (A0 D) as [-> _]. destruct (cell_k k Hk). lia. }
  assert (VP : valid_voxel g (vx pos) (vy pos) (vz pos)).
  { pose proof (PT 0%nat ltac:(lia)) as P0. pose proof (PT 1%nat ltac:(lia)) as P1. pose proof (PT 2%nat ltac:(lia)) as P2.
    pose proof (proj2 (cell_k 0 ltac:(lia))) as C0. pose proof (proj2 (cell_k 1 ltac:(lia))) as C1. pose proof (proj2 (cell_k 2 ltac:(lia))) as C2.
    cbn [vnth] in *. unfold valid_voxel. lia. }
  assert (DEC : pos = mkV (T 0) (T 1) (T 2) \/ exists k, (k < 3)%nat /\ (vnth pos k < T k)%Z).
  { pose proof (PT 0%nat ltac:(lia)) as P0. pose proof (PT 1%nat ltac:(lia)) as P1. pose proof (PT 2%nat ltac:(lia)) as P2. cbn [vnth] in *.
    destruct (Z.eq_dec (vx pos) (T 0)) as [X|X]; [|right; exists 0%nat; cbn [vnth]; lia].
    destruct (Z.eq_dec (vy pos) (T 1)) as [Y|Y]; [|right; exists 1%nat; cbn [vnth]; lia].
    destruct (Z.eq_dec (vz pos) (T 2)) as [W|W]; [|right; exists 2%nat; cbn [vnth]; lia].
    left. destruct pos as [p0 p1 p2]; cbn [vx vy vz] in *; congruence. }
  destruct DEC as [->|(k & Hk & HL)].
  { eapply (walk_first g r visit maxt P HPk); [|exact E0]. cbn [vx vy vz]. apply HT. exact HS. }
  cbn [grid_walk] in E0. destruct (nth_error _ _) as [l|] eqn:EL; [|discriminate]. cbv zeta in E0.
  assert (l = voxel_prims g (vx pos) (vy pos) (vz pos)) as -> by (unfold voxel_prims; symmetry; now apply nth_error_nth).
  set (st1 := visit _ st) in E0. assert (HS1 : Q st1) by (unfold st1; now apply HQk).
  set (ax := argmin _) in E0. assert (HX : (ax < 3)%nat) by apply argmin3.
  assert (MIN : ele (vnth nc ax) (vnth nc k)).
  { pose proof (argmin3_le (vx nc) (vy nc) (vz nc) k (NN 0%nat ltac:(lia)) (NN 1%nat ltac:(lia)) (NN 2%nat ltac:(lia)) Hk) as M. destruct nc as [n0 n1 n2]; exact M. }
  assert (Dk : vnth (rd r) k = 1).
  { destruct (R01 k Hk) as [D|D]; [exact D|]. destruct (HA k Hk) as [_ A0]. destruct (A0 D). lia. }
  assert (PLANE : forall j, (j < 3)%nat -> vnth (rd r) j = 1 -> s + (voxel2pos g (vnth pos j + 1) j - vnth (ray_at r s) j) = t + (voxel2pos g (vnth pos j + 1) j - vnth (ray_at r t) j)).
  { intros j Hj D. rewrite !at_k, D by exact Hj. ring. }
  assert (Nk : vnth nc k = Fin (t + (voxel2pos g (vnth pos k + 1) k - vnth (ray_at r t) k))).
  { destruct (HA k Hk) as [A1 _]. destruct (A1 Dk) as [_ ->]. now rewrite PLANE. }
  assert (LK : voxel2pos g (vnth pos k + 1) k <= vnth (ray_at r t) k).
  { destruct (cell_k k Hk) as [[C _] _]. destruct (WD k Hk) as (W0&_). unfold voxel2pos.
    assert (IZR (vnth pos k + 1) <= IZR (T k)) by (apply IZR_le; lia). nra. }
  assert (Dx : vnth (rd r) ax = 1).
  { destruct (R01 ax HX) as [D|D]; [exact D|]. destruct (HA ax HX) as [_ A0]. destruct (A0 D) as [_ E1]. rewrite E1, Nk in MIN. discriminate. }
  assert (Nx : vnth nc ax = Fin (t + (voxel2pos g (vnth pos ax + 1) ax - vnth (ray_at r t) ax))).
  { destruct (HA ax HX) as [A1 _]. destruct (A1 Dx) as [_ ->]. now rewrite PLANE. }
  rewrite Nx, Nk in MIN. apply ele_Fin in MIN.
  assert (LX : (vnth pos ax < T ax)%Z).
  { destruct (Nat.eq_dec ax k) as [->|NE]; [exact HL|]. pose proof (HE ax k HX Hk NE Dx Dk) as HI.
    destruct (cell_k ax HX) as [[_ C] VT]. destruct (WD ax HX) as (W0&W1&_). unfold voxel2pos in MIN, LK. 
    destruct C as [C|[C1 C2]].
    - destruct (Z_lt_ge_dec (vnth pos ax) (T ax)) as [|G]; [assumption|exfalso]. assert (IZR (T ax + 1) <= IZR (vnth pos ax + 1)) by (apply IZR_le; lia). nra.
    - destruct (Z_lt_ge_dec (vnth pos ax) (T ax)) as [|G]; [assumption|exfalso].
      assert (IZR (vnth (g_nv g) ax) <= IZR (vnth pos ax + 1)) by (apply IZR_le; lia). nra. }
  destruct (eltb (maxt st1) (vnth nc ax)) eqn:EB.
  { injection E0 as <-. destruct (HQ st1 HS1) as [HP1|HL1]; [exact HP1|exfalso].
    rewrite Nx in EB. destruct (maxt st1) as [mx| | |]; try (cbn in EB; discriminate); try (cbn in HL1; discriminate). apply ele_Fin in HL1. unfold eltb in EB. Rb. lra. }
  assert (G1 : g_step r ax = 1%Z). { unfold g_step. rewrite Dx. destruct (Rltb 1 0) eqn:Q1; [Rb; lra|reflexivity]. }
  assert (G2 : g_out g r ax = vnth (g_nv g) ax). { unfold g_out. rewrite Dx. destruct (Rltb 1 0) eqn:Q1; [Rb; lra|reflexivity]. }
  assert (G3 : g_delta g r ax = Fin (vnth (g_w g) ax)).
  { unfold g_delta. rewrite Dx. destruct (Rltb 1 0) eqn:Q1; [Rb; lra|]. unfold edivz. destruct (Reqb 1 0) eqn:Q2; [Rb; lra|]. f_equal. field. }
  rewrite G1, G2, G3 in E0. destruct (Z.eqb_spec (vnth pos ax + 1) (vnth (g_nv g) ax)) as [EQ|NQ].
  { destruct (cell_k ax HX) as [_ VT]. lia. }
  eapply IH; [exact HS1| |exact E0]. intros j Hj. destruct (HA j Hj) as [A1 A0]. unfold axis_ok. rewrite !vnth_vset by auto.
  destruct (Nat.eqb_spec ax j) as [<-|NJ]; [|split; auto]. split.
  - intros _. split; [specialize (PT ax HX); lia|]. destruct (A1 Dx) as [_ ->]. cbn [eadd]. f_equal. unfold voxel2pos. rewrite !plus_IZR. ring.
  - intros D. rewrite Dx in D. lra.
Qed.

Lemma start_reaches fuel st st' : Q st -> grid_start fuel g r s visit maxt st = Ok (Some st') -> P st'.
Proof.
  intros HS E0. unfold grid_start in E0. cbv zeta in E0. eapply walk_reaches; [exact HS| |exact E0].
  intros k Hk. set (gi := ray_at r s) in *.
  assert (EP : vnth (mkV (pos2voxel g gi 0) (pos2voxel g gi 1) (pos2voxel g gi 2)) k = pos2voxel g gi k) by (destruct k as [|[|[|]]]; [reflexivity..|lia]).
  assert (EN : vnth (mkV (g_next g r s gi (pos2voxel g gi 0) 0) (g_next g r s gi (pos2voxel g gi 1) 1) (g_next g r s gi (pos2voxel g gi 2) 2)) k
     = g_next g r s gi (pos2voxel g gi k) k) by (destruct k as [|[|[|]]]; [reflexivity..|lia]).
  cbn [vx vy vz]. unfold axis_ok. rewrite EP, EN.
  destruct (grid_make_spec bounds g HV HG) as (RN&_&_&_&WD&IW&_). destruct (WD k Hk) as (W0&_).
  assert (MONO : forall a b, vnth a k <= vnth b k -> (0 <= pos2voxel g a k <= pos2voxel g b k)%Z).
  { intros a b Hab. unfold pos2voxel. rewrite IW, !pos2voxel_pv. specialize (RN k Hk).
    assert (EK : forall v : vec, vnth (vmap inv_width v) k = inv_width (vnth v k)) by (intros v; destruct k as [|[|[|]]]; [reflexivity..|lia]).
    split; [apply pv_range; lia|]. apply pv_mono; [try rewrite EK; now apply inv_width_nonneg|exact Hab]. }
  split; intros D.
  - split.
    + apply MONO. unfold gi. rewrite !at_k, D by exact Hk. lra.
    + unfold g_next. rewrite D. destruct (Rltb 1 0) eqn:Q1; [Rb; lra|]. unfold edivz. destruct (Reqb 1 0) eqn:Q2; [Rb; lra|].
      cbn [esub eadd eopp]. f_equal. unfold gi. field.
  - assert (EG : vnth gi k = vnth (ray_at r t) k) by (unfold gi; rewrite !at_k, D by exact Hk; ring). split.
    + unfold T. pose proof (MONO gi (ray_at r t) ltac:(lra)). pose proof (MONO (ray_at r t) gi ltac:(lra)). lia.
    + destruct (HU k Hk) as [A|(_&Z1&Z2)]; [rewrite D in A; lra|]. unfold g_next. rewrite D, Z1.
      assert (vnth gi k < 0) by (unfold gi; rewrite at_k, D by exact Hk; lra).
      unfold edivz. destruct (Reqb 0 0) eqn:Q2; [|Rb; lra]. destruct (Reqb (vnth gi k) 0) eqn:Q3; [Rb; lra|].
      destruct (Rltb 0 (vnth gi k)) eqn:Q4; [Rb; lra|]. reflexivity.
Qed.
End Reach.

Section Finds.
Context (bounds : list (vec * vec)) (g : grid) (surf : nat -> R -> Prop) (r0 : ray) (m : R) (fuel : nat).
Context (HV : Forall (fun b => vle (fst b) (snd b)) bounds) (HG : grid_make bounds = Ok g) (Hf : (192 <= fuel)%nat).
Context (Hm : rmint r0 = Fin m) (M0 : 0 <= m) (HN : notnan (rmaxt r0)) (HU : unit_steps r0).
Context (HW : within_bounds surf (fun i => nth i bounds (vzero, vzero)) r0 (length bounds)).
Context (HE : forall i t, (i < length bounds)%nat -> surf i t -> ele (rmint r0) (Fin t) -> ele (Fin t) (rmaxt r0) -> off_far_edges bounds r0 t).

Lemma face_ok : ray_face_ok (agg_lo bounds) (agg_hi bounds) r0.
Proof.
  assert (A : forall k, (k < 3)%nat -> vnth (rd r0) k = 0 -> vnth (rdz r0) k = true -> False).
  { intros k Hk D Z1. destruct (HU k Hk) as [A|(_&Z2&_)]; [rewrite D in A; lra|congruence]. }
  split; [|split]; intros D Z1; exfalso; [exact (A 0%nat ltac:(lia) D Z1)|exact (A 1%nat ltac:(lia) D Z1)|exact (A 2%nat ltac:(lia) D Z1)].
Qed.
Lemma in_target i t : (i < length bounds)%nat -> surf i t -> 
  let T := pos2voxel g (ray_at r0 t) in In i (voxel_prims g (T 0%nat) (T 1%nat) (T 2%nat)) /\ between (agg_lo bounds) (ray_at r0 t) (agg_hi bounds).
Proof.
  intros Hi Hs T. pose proof (HW i t Hi Hs) as HB. pose proof (between_agg bounds i _ Hi HB) as BA.
  destruct (grid_make_spec bounds g HV HG) as (_&_&_&_&_&_&MEM&_). destruct (grid_pos2voxel bounds g (ray_at r0 t) HV HG) as [VV PV].
  split; [|exact BA]. apply MEM; [exact VV|]. split; [exact Hi|]. exists (ray_at r0 t). split; [exact HB|]. apply PV; auto.
Qed.
Lemma ordered : vle (agg_lo bounds) (agg_hi bounds).
Proof. apply agg_vle; [|exact HV]. intros ->. discriminate. Qed.

Theorem grid_finds pi : nearest_contract surf pi r0 ->
  exists r' hit, grid_intersect fuel g pi r0 = Ok (Some (r', hit)) /\
    match hit with
    | None => r' = r0 /\ forall i, (i < length bounds)%nat -> ~ meets surf r0 i
    | Some j => (j < length bounds)%nat /\ exists t, r' = ray_set_maxt r0 (Fin t) /\ surf j t /\ nearest_param surf (length bounds) r0 t
    end.
Proof.
  intros HC. destruct (grid_intersect_sound bounds g surf pi r0 m fuel HV HG Hf Hm HN HC) as (r'&hit&E0&SH).
  exists r', hit. split; [exact E0|].
  assert (ALL : forall i t, (i < length bounds)%nat -> surf i t -> ele (rmint r0) (Fin t) -> ele (Fin t) (rmaxt r0) -> hit_by r0 t (r', hit)).
  { intros i t Hi Hs L U. pose proof (in_target i t Hi Hs) as [IT BA]. pose proof L as L'. rewrite Hm in L'. apply ele_Fin in L'.
    pose proof E0 as E1. unfold grid_intersect in E1. rewrite Hm in E1. cbv zeta in E1.
    destruct (grid_make_spec bounds g HV HG) as (_&_&EL&EH&_).
    assert (START : forall s, s <= t -> grid_start fuel g r0 s (fun l st => leaf_loop pi l st) (fun st : ray * option nat => rmaxt (fst st)) (r0, None) = Ok (Some (r', hit)) -> hit_by r0 t (r', hit)).
    { intros s Hst ES.
      eapply (start_reaches bounds g r0 (fun l st => leaf_loop pi l st) (fun st => rmaxt (fst st)) (hit_by r0 t) (sound_hit surf (length bounds) r0) HV HG s t Hst HU BA) with (fuel := fuel) (st := (r0, @None nat));
        [ | | | | |exact eq_refl|exact ES].
      - intros k j Hk Hj NE D1 D2. rewrite EH. eapply HE; eauto.
      - intros l st. apply leaf_keeps with (surf := surf). exact HC.
      - intros x y z st V S1. apply leaf_loop_sound; auto. eapply vox_prims_lt; eauto.
      - intros [r1 rec] S1. unfold sound_hit in S1. cbn [snd fst] in S1. destruct rec as [j|].
        + destruct S1 as (_&u&->&_). destruct (Rle_lt_dec u t) as [Q1|Q1].
          * left. split; [discriminate|]. exists u. split; [reflexivity|exact Q1].
          * right. cbn [fst ray_set_maxt rmaxt]. apply ele_Fin. lra.
        + right. cbn [fst]. rewrite S1. exact U.
      - intros [r1 rec] S1. unfold sound_hit in S1. cbn [snd fst] in S1. eapply leaf_finds; eauto.
        destruct rec as [j|]; [right|left; exact S1]. destruct S1 as (_&u&->&_). exists u. split; [reflexivity|discriminate]. }
    destruct (inside _ _); [apply (START m); auto|].
    pose proof (bbox_intersect_p_interval (agg_lo bounds) (agg_hi bounds) r0 ordered face_ok ltac:(rewrite Hm; discriminate) HN) as J.
    rewrite EL, EH in E1. destruct (bbox_intersect_p _ _ _) as [[a b]|]; [apply (START 0); [lra|exact E1]|].
    exfalso. apply (J t). auto. }
  unfold sound_hit in SH. cbn [snd fst] in SH. destruct hit as [j|].
  - destruct SH as (Hj&t&->&Sj&L&U). split; [exact Hj|]. exists t. split; [reflexivity|]. split; [exact Sj|].
    split; [exists j; auto|]. split; [exact L|]. split; [exact U|]. intros i u Hi Su Lu.
    destruct (Rle_lt_dec t u) as [Q1|Q1]; [exact Q1|exfalso].
    assert (ele (Fin u) (rmaxt r0)) as Uu by (eapply ele_tr; [|exact U]; apply ele_Fin; lra).
    destruct (ALL i u Hi Su Lu Uu) as (_ & u' & E2 & L2). cbn [fst] in E2.
    apply (f_equal rmaxt) in E2. cbn [ray_set_maxt rmaxt] in E2. injection E2 as E2. lra.
  - split; [exact SH|]. intros i Hi (t&Si&L&U). destruct (ALL i t Hi Si L U) as (A&_). now apply A.
Qed.
Theorem grid_finds_any pp : any_contract surf pp r0 ->
  exists b, grid_intersect_p fuel g pp r0 = Ok (Some b) /\ (b = true <-> exists i, (i < length bounds)%nat /\ meets surf r0 i).
Proof.
  intros HC. destruct (grid_intersect_p_sound bounds g surf pp r0 m fuel HV HG Hf Hm HC) as (b&E0&SH). exists b. split; [exact E0|]. split; [exact SH|].
  intros (i&Hi&t&Hs&L&U). pose proof (in_target i t Hi Hs) as [IT BA]. pose proof L as L'. rewrite Hm in L'. apply ele_Fin in L'.
  unfold grid_intersect_p in E0. rewrite Hm in E0. cbv zeta in E0.
  destruct (grid_make_spec bounds g HV HG) as (_&_&EL&EH&_).
  eapply (start_reaches bounds g r0 (fun l st => st || existsb (fun i => pp i r0) l) (fun _ => rmaxt r0) (fun b => b = true) (fun _ => True) HV HG _ t) in E0;
    [exact E0|destruct (inside _ _); lra|exact HU|exact BA| |intros l st ->; reflexivity|auto| | |exact Logic.I].
  - intros k j Hk Hj NE D1 D2. rewrite EH. eapply HE; eauto.
  - intros st _. right. exact U.
  - intros st _. apply orb_true_iff. right. apply existsb_exists. exists i. split; [exact IT|]. apply HC. exists t. auto.
Qed.
End Finds.
