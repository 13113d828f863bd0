(** Proofs about aggregates whose box was enlarged by a medium (C276), and about the first voxel of the grid (C66). *)
From Coq Require Import Reals Lra Lia List ZArith Bool.
From Verif Require Import Base M_Geometry S_Geometry P_Geometry M_BVH S_BVH P_BVHWit P_BVHTrav M_Aggregate S_Aggregate P_Aggregate P_Grid P_GridWalk M_Aggregate2.
Import ListNotations.
Local Open Scope R_scope.

(** ** The exhaustive aggregate in any box around its primitives *)
Section Any_box.
Variables (surf : nat -> R -> Prop) (r0 : ray) (n : nat) (lo hi : vec).
Hypothesis HVV : vle lo hi.
Hypothesis HF : ray_face_ok lo hi r0.
Hypothesis HN1 : notnan (rmint r0).
Hypothesis HN2 : notnan (rmaxt r0).
Hypothesis HB : forall i t, (i < n)%nat -> surf i t -> between lo (ray_at r0 t) hi.

Lemma box_main pi b : b = fbox lo hi -> nearest_contract surf pi r0 ->
  forall any r' rec, simple_query pi (mkSimple n b) r0 = (any, r', rec) ->
    (any = true <-> exists i, (i < n)%nat /\ meets surf r0 i) /\
    (any = false -> r' = r0 /\ rec = None) /\
    (any = true -> exists t, r' = ray_set_maxt r0 (Fin t) /\ nearest_param surf n r0 t) /\
    (forall f, rec = Some f <-> ((f < n)%nat /\ meets surf r0 f /\ forall j, (j < f)%nat -> ~ meets surf r0 j)).
Proof.
  intros -> HC any r' rec H. unfold simple_query in H. cbn [s_n s_bounds fbox bmin bmax] in H.
  destruct n as [|n'] eqn:EN.
  { injection H as <- <- <-. split; [split; [discriminate|intros (i&Hi&_); lia]|].
    split; [auto|]. split; [discriminate|]. intros f; split; [discriminate|intros (Hf&_); lia]. }
  rewrite <- EN in *.
  replace (vmap corner (vmap Fin lo)) with lo in H by (destruct lo; reflexivity).
  replace (vmap corner (vmap Fin hi)) with hi in H by (destruct hi; reflexivity).
  pose proof (bbox_intersect_p_interval _ _ r0 HVV HF HN1 HN2) as J.
  destruct (bbox_intersect_p lo hi r0) as [[t0 t1]|].
  - destruct J as (N0&N1&_&_&_&_&J).
    assert (Q : sinv surf r0 t0 t1 n (fold_left (simple_step pi) (seq 0 n) (mkSS r0 t0 t1 PInf false None))).
    { apply sinv_all with (N := n); auto.
      intros i t Hi Si L1 L2. apply J. split; [now split|]. eapply HB; eauto. }
    cbv zeta in H.
    destruct Q as [(_&E0&HNo)|(f&tf&tc&Hf&E0&Mf&Hfirst&Sf&Hle&Hmx&NP)]; rewrite E0 in H; cbn in H;
      injection H as <- <- <-.
    + split; [split; [discriminate|intros (i&Hi&M); exfalso; now apply (HNo i)]|].
      split; [auto|]. split; [discriminate|].
      intros f; split; [discriminate|]. intros (Hf&M&_). exfalso; now apply (HNo f).
    + split; [split; [intros _; exists f; auto|auto]|]. split; [discriminate|].
      split; [intros _; exists tc; auto|].
      intros g. split; [intros [= <-]; auto|]. intros (Hg&Mg&Fg). f_equal.
      destruct (Nat.lt_trichotomy f g) as [Q|[Q|Q]]; auto.
      * exfalso. now apply (Fg f).
      * exfalso. now apply (Hfirst g).
  - injection H as <- <- <-.
    assert (HNo : forall i, (i < n)%nat -> ~ meets surf r0 i).
    { intros i Hi (t&Si&L1&L2). apply (J t). split; [now split|]. eapply HB; eauto. }
    split; [split; [discriminate|intros (i&Hi&M); exfalso; now apply (HNo i)]|].
    split; [auto|]. split; [discriminate|].
    intros f; split; [discriminate|]. intros (Hf&M&_). exfalso; now apply (HNo f).
Qed.
Lemma box_p_main pp b : b = fbox lo hi -> any_contract surf pp r0 ->
  (simple_query_p pp (mkSimple n b) r0 = true <-> exists i, (i < n)%nat /\ meets surf r0 i).
Proof.
  intros -> HC. unfold simple_query_p. cbn [s_n s_bounds fbox bmin bmax].
  destruct n as [|n'] eqn:EN; [split; [discriminate|intros (i&Hi&_); lia]|]. rewrite <- EN in *.
  replace (vmap corner (vmap Fin lo)) with lo by (destruct lo; reflexivity).
  replace (vmap corner (vmap Fin hi)) with hi by (destruct hi; reflexivity).
  pose proof (bbox_intersect_p_interval _ _ r0 HVV HF HN1 HN2) as J.
  destruct (bbox_intersect_p lo hi r0) as [[t0 t1]|].
  - rewrite existsb_exists. split.
    + intros (i&Hi&P). apply in_seq in Hi. exists i. split; [lia|]. now apply HC.
    + intros (i&Hi&M). exists i. split; [apply in_seq; lia|]. now apply HC.
  - split; [discriminate|]. intros (i&Hi&(t&Si&L1&L2)). exfalso. apply (J t). split; [now split|].
    eapply HB; eauto.
Qed.
End Any_box.

Lemma query_simple pi bounds r : simple_query pi (simple_make bounds) r = simple_intersect pi bounds r.
Proof. destruct bounds; reflexivity. Qed.
Lemma query_simple_p pp bounds r : simple_query_p pp (simple_make bounds) r = simple_intersect_p pp bounds r.
Proof. destruct bounds; reflexivity. Qed.

Lemma same_outcome surf n r0 any1 r1 (rec1 : option nat) any2 r2 rec2 :
  ((any1 = true <-> exists i, (i < n)%nat /\ meets surf r0 i) /\
    (any1 = false -> r1 = r0 /\ rec1 = None) /\
    (any1 = true -> exists t, r1 = ray_set_maxt r0 (Fin t) /\ nearest_param surf n r0 t) /\
    (forall f, rec1 = Some f <-> ((f < n)%nat /\ meets surf r0 f /\ forall j, (j < f)%nat -> ~ meets surf r0 j))) ->
  ((any2 = true <-> exists i, (i < n)%nat /\ meets surf r0 i) /\
    (any2 = false -> r2 = r0 /\ rec2 = None) /\
    (any2 = true -> exists t, r2 = ray_set_maxt r0 (Fin t) /\ nearest_param surf n r0 t) /\
    (forall f, rec2 = Some f <-> ((f < n)%nat /\ meets surf r0 f /\ forall j, (j < f)%nat -> ~ meets surf r0 j))) ->
  (any1, r1, rec1) = (any2, r2, rec2).
Proof.
  intros (A1&B1&C1&D1) (A2&B2&C2&D2).
  assert (any1 = any2) as ->.
  { destruct any1, any2; auto; [symmetry; apply A2, A1|apply A1, A2]; reflexivity. }
  assert (rec1 = rec2) as ->.
  { destruct rec1 as [f|]; [symmetry; apply D2, D1; reflexivity|].
    destruct rec2 as [f|]; [|reflexivity]. apply D1. now apply D2. }
  f_equal. f_equal. destruct any2.
  - destruct (C1 eq_refl) as (t1&->&(i1&Hi1&S1)&L1&U1&M1). destruct (C2 eq_refl) as (t2&->&(i2&Hi2&S2)&L2&U2&M2).
    assert (t1 = t2) as ->; [|reflexivity]. apply Rle_antisym; [now apply (M1 i2)|now apply (M2 i1)].
  - destruct (B1 eq_refl) as [-> _], (B2 eq_refl) as [-> _]. reflexivity.
Qed.

(** ** The first voxel of the grid *)
Section First.
Context {St : Type} (g : grid) (r : ray) (visit : list nat -> St -> St) (maxt : St -> E) (P : St -> Prop).
Context (HP : forall l st, P st -> P (visit l st)).
Lemma walk_keeps : forall fuel pos nc st st', P st ->
  grid_walk fuel g r visit maxt pos nc st = Ok (Some st') -> P st'.
Proof.
  induction fuel as [|fuel IH]; intros pos nc st st' H E0; cbn [grid_walk] in E0; [discriminate|].
  destruct (nth_error _ _) as [l|]; [|discriminate]. cbv zeta in E0.
  destruct (eltb _ _); [injection E0 as <-; auto|].
  destruct (_ =? _)%Z; [injection E0 as <-; auto|]. eapply IH; [|exact E0]. auto.
Qed.
Lemma walk_first fuel pos nc st st' :
  P (visit (voxel_prims g (vx pos) (vy pos) (vz pos)) st) ->
  grid_walk fuel g r visit maxt pos nc st = Ok (Some st') -> P st'.
Proof.
  intros H E0. destruct fuel as [|fuel]; cbn [grid_walk] in E0; [discriminate|].
  destruct (nth_error _ _) as [l|] eqn:EL; [|discriminate]. cbv zeta in E0.
  assert (l = voxel_prims g (vx pos) (vy pos) (vz pos)) as -> by (unfold voxel_prims; symmetry; now apply nth_error_nth).
  destruct (eltb _ _); [injection E0 as <-; auto|].
  destruct (_ =? _)%Z; [injection E0 as <-; auto|]. eapply walk_keeps; [|exact E0]. auto.
Qed.
End First.

(** a hit no farther than [t] is on record *)
Definition hit_by (r0 : ray) (t : R) (st : ray * option nat) : Prop :=
  snd st <> None /\ exists t', fst st = ray_set_maxt r0 (Fin t') /\ t' <= t.
Lemma leaf_keeps surf pi r0 t : nearest_contract surf pi r0 -> forall l st, hit_by r0 t st -> hit_by r0 t (leaf_loop pi l st).
Proof.
  intros HC. induction l as [|i l IH]; intros [r rec] H; cbn [leaf_loop]; [exact H|]. cbn [fst].
  destruct H as (Hs & t' & E9 & Ht). cbn [snd fst] in *. subst r.
  pose proof (HC i (Fin t') ltac:(discriminate)) as C. cbn zeta in C.
  destruct (pi i (ray_set_maxt r0 (Fin t'))) as [u|]; apply IH.
  - split; [discriminate|]. exists u. split; [destruct r0; reflexivity|]. destruct C as (_&_&C&_). apply ele_Fin in C. lra.
  - split; [exact Hs|]. exists t'. auto.
Qed.
Lemma leaf_finds surf pi r0 i t : nearest_contract surf pi r0 -> notnan (rmaxt r0) ->
  surf i t -> ele (rmint r0) (Fin t) -> ele (Fin t) (rmaxt r0) ->
  forall l rec r, (r = r0 \/ exists t', r = ray_set_maxt r0 (Fin t') /\ rec <> None) -> In i l -> hit_by r0 t (leaf_loop pi l (r, rec)).
Proof.
  intros HC HN Hs L U. induction l as [|j l IH]; intros rec r Hr Hin; [destruct Hin|]. cbn [leaf_loop fst].
  assert (exists m, r = ray_set_maxt r0 m /\ notnan m /\ (m = rmaxt r0 /\ r = r0 \/ exists t', m = Fin t' /\ rec <> None)) as (m&E0&Nm&Cm).
  { destruct Hr as [-> |(t'&->&Hrec)].
    - exists (rmaxt r0). split; [destruct r0; reflexivity|auto].
    - exists (Fin t'). split; [reflexivity|]. split; [discriminate|]. right. eauto. }
  pose proof (HC j m Nm) as C. cbn zeta in C. rewrite <- E0 in C.
  destruct (pi j r) as [u|] eqn:EP.
  - destruct C as (C1&C2&C3&C4). destruct Hin as [-> |Hin].
    + eapply leaf_keeps; [exact HC|]. split; [discriminate|]. exists u. split; [rewrite E0; destruct r0; reflexivity|].
      apply C4; auto; first [exact L|rewrite E0; exact L].
    + apply IH; [|exact Hin]. right. exists u. split; [rewrite E0; destruct r0; reflexivity|discriminate].
  - destruct Hin as [-> |Hin].
    + destruct Cm as [[-> ->]|(t'&->&Hrec)].
      * exfalso. apply (C t); auto.
      * destruct (Rle_lt_dec t t') as [Q|Q].
        -- exfalso. apply (C t); auto; try (rewrite E0; cbn [rmint rmaxt ray_set_maxt]; first [exact L|now apply ele_Fin]); cbn [rmint rmaxt ray_set_maxt]; first [exact L|now apply ele_Fin].
        -- eapply leaf_keeps; [exact HC|]. split; [exact Hrec|]. exists t'. split; [exact E0|lra].
    + apply IH; [|exact Hin]. destruct Cm as [[_ ->]|(t'&->&Hrec)]; [now left|right; eauto].
Qed.
Theorem grid_first_voxel bounds g surf pi r0 m fuel i t :
  Forall (fun b => vle (fst b) (snd b)) bounds -> grid_make bounds = Ok g -> (192 <= fuel)%nat ->
  rmint r0 = Fin m -> notnan (rmaxt r0) -> nearest_contract surf pi r0 ->
  (i < length bounds)%nat -> between (fst (nth i bounds (vzero, vzero))) (ray_at r0 m) (snd (nth i bounds (vzero, vzero))) ->
  surf i t -> m <= t -> ele (Fin t) (rmaxt r0) ->
  exists j t', grid_intersect fuel g pi r0 = Ok (Some (ray_set_maxt r0 (Fin t'), Some j)) /\ t' <= t /\
    (j < length bounds)%nat /\ surf j t' /\ m <= t'.
Proof.
  intros HV HG Hf Hm HN HC Hi HB Hs Hmt Ht.
  destruct (grid_intersect_sound bounds g surf pi r0 m fuel HV HG Hf Hm HN HC) as (r'&hit&E0&SH).
  assert (IN : inside (fbox (g_lo g) (g_hi g)) (ray_at r0 m) = true /\
    In i (voxel_prims g (pos2voxel g (ray_at r0 m) 0) (pos2voxel g (ray_at r0 m) 1) (pos2voxel g (ray_at r0 m) 2))).
  { pose proof (between_agg bounds i _ Hi HB) as [BA BB].
    destruct (grid_make_spec bounds g HV HG) as (_&_&EL&EH&_&_&MEM&_).
    destruct (grid_pos2voxel bounds g (ray_at r0 m) HV HG) as [VV PV].
    split.
    - rewrite EL, EH. unfold inside, fbox, vmap, vle in *. cbn [bmin bmax vx vy vz]. cbn [eleb].
      repeat (apply andb_true_intro; split); apply Rleb_true; lra.
    - apply MEM; [exact VV|]. split; [exact Hi|]. exists (ray_at r0 m). split; [exact HB|]. apply PV; [now split|exact VV|auto]. }
  destruct IN as [IN IV]. pose proof E0 as E1. unfold grid_intersect in E1. rewrite Hm in E1. cbv zeta in E1. rewrite IN in E1.
  unfold grid_start in E1. cbv zeta in E1.
  assert (H : hit_by r0 t (r', hit)).
  { eapply (walk_first g r0 (fun l st => leaf_loop pi l st) (fun st => rmaxt (fst st)) (hit_by r0 t)); [| |exact E1].
    - intros l st. apply leaf_keeps with (surf := surf). exact HC.
    - cbn [vx vy vz]. eapply leaf_finds; eauto. rewrite Hm. now apply ele_Fin. }
  destruct H as (H1 & t' & H2 & H3). cbn [snd fst] in *. destruct hit as [j|]; [|congruence].
  cbn in SH. destruct SH as (Hj & u & R1 & R2 & R3 & _). exists j, t'. rewrite H2 in E0.
  assert (u = t') as <- by (rewrite R1 in H2; injection H2; auto).
  rewrite Hm in R3. apply ele_Fin in R3. auto.
Qed.

(** ** The enlarged grid *)
Lemma enlarged_total {St : Type} g r (visit : list nat -> St -> St) maxt (P : St -> Prop) lo hi fuel ray_t st bounds :
  let g' := mkGrid lo hi (g_nv g) (g_w g) (g_iw g) (g_vox g) in
  (forall x y z st, valid_voxel g x y z -> P st -> P (visit (voxel_prims g x y z) st)) ->
  Forall (fun b => vle (fst b) (snd b)) bounds -> grid_make bounds = Ok g -> (192 <= fuel)%nat -> P st ->
  exists st', grid_start fuel g' r ray_t visit maxt st = Ok (Some st') /\ P st'.
Proof.
  intros g' HP HV HG Hf HS. destruct (grid_make_spec bounds g HV HG) as (RN&HL&_).
  unfold grid_start. cbv zeta.
  pose proof (RN 0%nat ltac:(lia)) as R0; pose proof (RN 1%nat ltac:(lia)) as R1; pose proof (RN 2%nat ltac:(lia)) as R2.
  assert (VV : valid_voxel g' (pos2voxel g' (ray_at r ray_t) 0) (pos2voxel g' (ray_at r ray_t) 1) (pos2voxel g' (ray_at r ray_t) 2)).
  { unfold valid_voxel, pos2voxel, pos2voxel_, g', Zclip. cbn [g_nv g_lo g_iw vnth] in *. lia. }
  apply (walk_total g' r visit maxt P); [exact HL|exact HP|exact VV|exact HS|].
  unfold valid_voxel in VV. unfold remaining. cbn [vnth vx vy vz] in *. unfold g' in *. cbn [g_nv] in *.
  repeat match goal with |- context [Rltb ?a ?b] => destruct (Rltb a b) end; lia.
Qed.
Theorem enlarged_sound bounds g surf pi r0 m fuel vb :
  Forall (fun b => vle (fst b) (snd b)) bounds -> grid_make bounds = Ok g -> (192 <= fuel)%nat ->
  rmint r0 = Fin m -> notnan (rmaxt r0) -> nearest_contract surf pi r0 ->
  exists r' hit, grid_intersect fuel (snd (scene_grid g vb)) pi r0 = Ok (Some (r', hit)) /\ sound_hit surf (length bounds) r0 (r', hit).
Proof.
  intros HV HG Hf Hm HNN HC. destruct vb as [v|]; cbn [scene_grid snd]; [|now apply grid_intersect_sound with (m := m)].
  unfold grid_intersect. rewrite Hm. cbv zeta. cbn [g_lo g_hi].
  set (lo := vmap corner (bmin (union_bb _ v))). set (hi := vmap corner (bmax (union_bb _ v))).
  assert (HP : forall x y z (st : ray * option nat), valid_voxel g x y z -> sound_hit surf (length bounds) r0 st ->
     sound_hit surf (length bounds) r0 (leaf_loop pi (voxel_prims g x y z) st)).
  { intros. apply leaf_loop_sound; auto. eapply vox_prims_lt; eauto. }
  assert (HS : sound_hit surf (length bounds) r0 (r0, None)) by reflexivity.
  pose proof (fun rt => enlarged_total g r0 (fun l st => leaf_loop pi l st) (fun st => rmaxt (fst st)) _ lo hi fuel rt _ bounds HP HV HG Hf HS) as Q.
  cbv zeta in Q. destruct (inside _ _).
  - destruct (Q m) as ([r' hit]&E0&H). eauto.
  - destruct (bbox_intersect_p _ _ _); [|eauto]. destruct (Q 0) as ([r' hit]&E0&H). eauto.
Qed.
Theorem enlarged_p_sound bounds g surf pp r0 m fuel vb :
  Forall (fun b => vle (fst b) (snd b)) bounds -> grid_make bounds = Ok g -> (192 <= fuel)%nat ->
  rmint r0 = Fin m -> any_contract surf pp r0 ->
  exists b, grid_intersect_p fuel (snd (scene_grid g vb)) pp r0 = Ok (Some b) /\
    (b = true -> exists i, (i < length bounds)%nat /\ meets surf r0 i).
Proof.
  intros HV HG Hf Hm HC. destruct vb as [v|]; cbn [scene_grid snd]; [|now apply grid_intersect_p_sound with (m := m)].
  unfold grid_intersect_p. rewrite Hm. cbv zeta. cbn [g_lo g_hi].
  set (lo := vmap corner (bmin (union_bb _ v))). set (hi := vmap corner (bmax (union_bb _ v))).
  set (P := fun b => b = true -> exists i, (i < length bounds)%nat /\ meets surf r0 i).
  assert (HP : forall x y z st, valid_voxel g x y z -> P st -> P (st || existsb (fun i => pp i r0) (voxel_prims g x y z))).
  { intros x y z st V HPs H. apply orb_true_iff in H. destruct H as [H|H]; [now apply HPs|].
    apply existsb_exists in H. destruct H as (i&Hi&Pi). exists i. split; [eapply vox_prims_lt; eauto|]. now apply HC. }
  apply (enlarged_total g r0 (fun l st => st || existsb (fun i => pp i r0) l) (fun _ => rmaxt r0) P lo hi fuel _ false bounds HP HV HG Hf).
  intros H; discriminate.
Qed.
