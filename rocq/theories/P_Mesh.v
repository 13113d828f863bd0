(** Proofs about triangle meshes: bounds, construction, sampling, attributes, shading frames. *)
From Coq Require Import Reals Lra Lia List ZArith Bool Psatz.
From Verif Require Import Base M_Geometry S_Geometry P_Geometry M_Transform S_Transform P_Transform P_Transform2
  M_MonteCarlo M_Film M_Shapes S_Shapes P_Quadrics P_Triangle P_Normals.
Import ListNotations.
Open Scope R_scope.

Lemma in_box_convex b p q s x y z : in_box b p -> in_box b q -> in_box b s ->
  0 <= x -> 0 <= y -> 0 <= z -> x + y + z = 1 -> in_box b (vadd (vadd (vscale x p) (vscale y q)) (vscale z s)).
Proof.
  intros Hp Hq Hs X Y W E.
  assert (L : forall e a b' c, ele e (Fin a) -> ele e (Fin b') -> ele e (Fin c) -> ele e (Fin (x * a + y * b' + z * c))).
  { unfold ele. intros [e| | |] a b' c; cbn; auto. rewrite !Rleb_true. intros.
    replace e with (x * e + y * e + z * e) by (rewrite <- !Rmult_plus_distr_r, E; ring). nra. }
  assert (U : forall e a b' c, ele (Fin a) e -> ele (Fin b') e -> ele (Fin c) e -> ele (Fin (x * a + y * b' + z * c)) e).
  { unfold ele. intros [e| | |] a b' c; cbn; auto. rewrite !Rleb_true. intros.
    replace e with (x * e + y * e + z * e) by (rewrite <- !Rmult_plus_distr_r, E; ring). nra. }
  unfold in_box in *. destruct p, q, s. unfold vadd, vscale, vmap2, vmap; cbn in *.
  destruct Hp as (? & ? & ? & ? & ? & ?), Hq as (? & ? & ? & ? & ? & ?), Hs as (? & ? & ? & ? & ? & ?).
  repeat split; auto.
Qed.
Lemma nonan_Fin v : nonan3 (vmap Fin v).
Proof. repeat split; discriminate. Qed.
Lemma bbox3_lub a b c : let B := union_pt (bbox_of (vmap Fin a) (vmap Fin b)) (vmap Fin c) in
  box_ok B /\ in_box B a /\ in_box B b /\ in_box B c /\
  (forall B', box_ok B' -> in_box B' a -> in_box B' b -> in_box B' c -> box_le B B').
Proof.
  intros B.
  pose proof (bbox_of_ok (vmap Fin a) (vmap Fin b) (nonan_Fin a) (nonan_Fin b)) as H.
  assert (O1 : box_ok (bbox_of (vmap Fin a) (vmap Fin b))).
  { split; [apply vmap2_emin_ok|apply vmap2_emax_ok]; apply nonan_Fin. }
  assert (OB : box_ok B) by (apply (add_geom_ok _ (GP (vmap Fin c))); [exact O1|apply nonan_Fin]).
  assert (E : forall B', box_le B B' <-> box_le (bbox_of (vmap Fin a) (vmap Fin b)) B' /\ covers B' (GP (vmap Fin c))).
  { intros B'. apply (add_geom_lub (bbox_of (vmap Fin a) (vmap Fin b)) (GP (vmap Fin c)) B'); auto. apply nonan_Fin. }
  assert (E2 : forall B', box_le (bbox_of (vmap Fin a) (vmap Fin b)) B' <->
     covers B' (GP (vmap Fin a)) /\ covers B' (GP (vmap Fin b))).
  { intros B'. unfold box_le, bbox_of; cbn [bmin bmax].
    rewrite vmap2_emin_glb, vmap2_emax_lub by apply nonan_Fin. unfold covers. tauto. }
  assert (S : box_le B B) by now apply box_le_refl.
  apply E in S. destruct S as [S1 S2]. apply E2 in S1. destruct S1 as [S1 S3].
  split; [exact OB|]. rewrite <- !le3_Fin_in. split; [exact S1|]. split; [exact S3|]. split; [exact S2|].
  intros B' _ H1 H2 H3. rewrite <- le3_Fin_in in H1, H2, H3. apply E. split; auto. apply E2; auto.
Qed.
Lemma tri_bound_spec b nt nv vi P N S uv al f : faces_ok vi (length P) -> (3 * f + 2 < length vi)%nat ->
  exists B, tri_world_bound (mesh_make b nt nv vi P N S uv al) (3 * Z.of_nat f) = Ok B /\ box_ok B /\
   (forall p, in_triangle (corner (b_o2w b) vi P f 0) (corner (b_o2w b) vi P f 1) (corner (b_o2w b) vi P f 2) p -> in_box B p) /\
   (forall B', box_ok B' ->
     (forall p, in_triangle (corner (b_o2w b) vi P f 0) (corner (b_o2w b) vi P f 1) (corner (b_o2w b) vi P f 2) p -> in_box B' p) -> box_le B B').
Proof.
  intros HF Hl. destruct (tri_verts_ok b nt nv vi P N S uv al f HF Hl) as (E0 & E1' & E2').
  unfold tri_world_bound. rewrite E0, E1', E2'. cbn [bind].
  set (p1 := corner _ _ _ _ 0). set (p2 := corner _ _ _ _ 1). set (p3 := corner _ _ _ _ 2).
  destruct (bbox3_lub p1 p2 p3) as (O & H1 & H2 & H3 & L).
  eexists. split; [reflexivity|]. split; [exact O|]. split.
  - intros p (x & y & z & X & Y & W & Q & ->). now apply in_box_convex.
  - intros B' OB HB. apply L; auto; apply HB; [exists 1, 0, 0|exists 0, 1, 0|exists 0, 0, 1];
      (repeat split; try lra); apply V3_eq; unfold vadd, vscale, vmap2, vmap; cbn; ring.
Qed.
(** Mesh bound: fold over all vertices. *)
Lemma mesh_bound_fold (P : list vec) : forall k acc, (k <= length P)%nat ->
  fold_left (fun a i => do b <- a; do p <- get1 P (Z.of_nat i); Ok (union_pt b (vmap Fin p))) (seq 0 k) (Ok acc) =
  Ok (accumulate acc (map (fun p => GP (vmap Fin p)) (firstn k P))).
Proof.
  induction k; intros acc Hk; [reflexivity|].
  rewrite seq_S, fold_left_app. cbn [Nat.add]. rewrite IHk by lia. cbn [fold_left bind].
  rewrite (get1_nth _ _ vzero) by lia. cbn [bind]. rewrite Nat2Z.id.
  f_equal. unfold accumulate.
  assert (E : firstn (S k) P = firstn k P ++ [nth k P vzero]).
  { clear -Hk. revert P Hk. induction k; intros [|a P] H; cbn in *; try lia; auto.
    f_equal. apply IHk. lia. }
  rewrite E, map_app, fold_left_app. reflexivity.
Qed.
Lemma mesh_bound_spec b nt vi P N S uv al :
  exists B, mesh_world_bound (mesh_make b nt (length P) vi P N S uv al) = Ok B /\
    (forall p, In p P -> in_box B (t_point (b_o2w b) p)) /\
    (forall B', box_ok B' -> (forall p, In p P -> in_box B' (t_point (b_o2w b) p)) -> box_le B B').
Proof.
  unfold mesh_world_bound, mesh_make; cbn [m_p m_nverts].
  rewrite (mesh_bound_fold (map (t_point (b_o2w b)) P) (length P)) by (rewrite map_length; lia).
  rewrite firstn_all2 by (rewrite map_length; lia).
  eexists. split; [reflexivity|].
  set (L := map (fun p => GP (vmap Fin p)) (map (t_point (b_o2w b)) P)).
  assert (OK : Forall geom_ok L).
  { unfold L. rewrite map_map. apply Forall_forall. intros g Hg. apply in_map_iff in Hg. destruct Hg as (p & <- & _). apply nonan_Fin. }
  pose proof (accumulate_lub L bbox_empty) as LUB.
  assert (OKB : box_ok (accumulate bbox_empty L)) by (apply accumulate_ok; auto; apply empty_ok).
  split.
  - intros p Hp. rewrite <- le3_Fin_in.
    assert (F := proj1 (LUB (accumulate bbox_empty L) empty_ok OK) (box_le_refl _ OKB)).
    destruct F as [_ F]. apply (proj1 (Forall_forall _ _) F). unfold L. rewrite map_map. apply in_map_iff. eauto.
  - intros B' OB HB. apply LUB; auto; [apply empty_ok|]. split; [now apply empty_le|].
    apply Forall_forall. intros g Hg. unfold L in Hg. rewrite map_map in Hg. apply in_map_iff in Hg.
    destruct Hg as (p & <- & Hp). rewrite le3_Fin_in. auto.
Qed.
(** *** Construction *)
Lemma create_mesh_ok b vi P N S uv m : create_mesh b vi P N S uv = Ok m ->
  m = mesh_make b (length vi / 3) (length P) vi P N S uv None /\
  (length vi = 3 * (length vi / 3))%nat /\ P <> [] /\
  (forall i, In i vi -> (i < Z.of_nat (length P))%Z) /\
  (forall l, N = Some l -> length l = length P) /\ (forall l, S = Some l -> length l = length P) /\
  (forall l, uv = Some l -> (2 * length P <= length l)%nat).
Proof.
  unfold create_mesh. destruct (negb _) eqn:E0; [discriminate|]. destruct P as [|p0 P']; [discriminate|].
  set (P := p0 :: P').
  destruct (match uv with Some _ => _ | None => _ end) eqn:E1'; [discriminate|].
  destruct (match S with Some _ => _ | None => _ end) eqn:E2'; [discriminate|].
  destruct (match N with Some _ => _ | None => _ end) eqn:E3; [discriminate|].
  destruct (existsb _ vi) eqn:E4; [discriminate|].
  intros H; injection H as <-. split; [reflexivity|].
  apply negb_false_iff, Nat.eqb_eq in E0.
  split. { pose proof (Nat.div_mod (length vi) 3). lia. }
  split; [discriminate|]. split.
  { intros i Hi. destruct (Z.ltb_spec i (Z.of_nat (length P))); auto. exfalso.
    assert (existsb (fun i => (Z.of_nat (length P) <=? i)%Z) vi = true); [|congruence].
    apply existsb_exists. exists i. split; auto. now apply Z.leb_le. }
  split. { intros l ->. apply negb_false_iff, Nat.eqb_eq in E3. auto. }
  split. { intros l ->. apply negb_false_iff, Nat.eqb_eq in E2'. auto. }
  intros l ->. apply Nat.ltb_ge in E1'. auto.
Qed.
Lemma create_mesh_total b vi P N S uv : (length vi mod 3 = 0)%nat -> P <> [] ->
  (forall i, In i vi -> (i < Z.of_nat (length P))%Z) ->
  (forall l, N = Some l -> length l = length P) -> (forall l, S = Some l -> length l = length P) ->
  (forall l, uv = Some l -> (2 * length P <= length l)%nat) -> exists m, create_mesh b vi P N S uv = Ok m.
Proof.
  intros H1 H2 H3 H4 H5 H6. unfold create_mesh. rewrite (proj2 (Nat.eqb_eq _ _) H1). cbn [negb].
  destruct P as [|p0 P']; [congruence|]. set (P := p0 :: P') in *.
  destruct uv as [l|]; [rewrite (proj2 (Nat.ltb_ge _ _) (H6 l eq_refl))|];
  (destruct S as [l2|]; [rewrite (proj2 (Nat.eqb_eq _ _) (H5 l2 eq_refl))|]; cbn [negb];
   (destruct N as [l3|]; [rewrite (proj2 (Nat.eqb_eq _ _) (H4 l3 eq_refl))|]; cbn [negb];
    (replace (existsb _ vi) with false;
      [eauto|symmetry; apply not_true_is_false; intros E; apply existsb_exists in E; destruct E as (i & Hi & E);
       apply Z.leb_le in E; specialize (H3 i Hi); lia]))).
Qed.
Lemma mesh_refine_spec b nt nv vi P N S uv al : (length vi = 3 * nt)%nat ->
  let l := mesh_refine (mesh_make b nt nv vi P N S uv al) in
  length l = nt /\ NoDup l /\ forall v, In v l <-> exists f, (f < nt)%nat /\ v = (3 * Z.of_nat f)%Z /\ (3 * f + 2 < length vi)%nat.
Proof.
  intros HL. cbv zeta. unfold mesh_refine, mesh_make; cbn [m_ntris].
  split; [now rewrite map_length, seq_length|]. split.
  - apply FinFun.Injective_map_NoDup; [|apply seq_NoDup]. intros x y; lia.
  - intros v. rewrite in_map_iff. split.
    + intros (f & <- & Hf). apply in_seq in Hf. exists f. repeat split; lia.
    + intros (f & Hf & -> & _). exists f. split; auto. apply in_seq. lia.
Qed.
Lemma flat_points_spec p : forall l, flat_points p = Ok l <->
  (length p = 3 * length l)%nat /\ forall i, (i < length l)%nat ->
  nth i l vzero = mkV (nth (3 * i) p 0) (nth (3 * i + 1) p 0) (nth (3 * i + 2) p 0).
Proof.
  remember (length p) as n eqn:Hn. revert p Hn.
  induction n as [n IH] using lt_wf_ind. intros p Hn l.
  destruct p as [|x [|y [|z p]]]; cbn [flat_points].
  - split; [intros H; injection H as <-; split; [cbn in *; lia|intros; cbn in *; lia]|].
    intros [H _]. destruct l; [reflexivity|]. cbn in *; lia.
  - split; [discriminate|]. intros [H _]. cbn in Hn. lia.
  - split; [discriminate|]. intros [H _]. cbn in Hn. lia.
  - cbn [length] in Hn. specialize (IH (length p) ltac:(lia) p eq_refl).
    assert (NT : forall j k, nth (3 * S j + k) (x :: y :: z :: p) 0 = nth (3 * j + k) p 0).
    { intros j k. replace (3 * S j + k)%nat with (S (S (S (3 * j + k))))%nat by lia. reflexivity. }
    split.
    + destruct (flat_points p) as [l'|] eqn:EQ; [|discriminate]. cbn [bind]. intros H; injection H as <-.
      destruct (proj1 (IH l') eq_refl) as [L F]. cbn [length]. split; [lia|].
      intros [|i] Hi; [reflexivity|].
      pose proof (NT i 0%nat) as N0. rewrite !Nat.add_0_r in N0. rewrite N0, !NT. cbn [nth]. apply F. lia.
    + intros [L F]. destruct l as [|a l]; [cbn in L; lia|]. cbn [length] in *.
      assert (G : flat_points p = Ok l).
      { apply IH. split; [lia|]. intros i Hi. specialize (F (S i) ltac:(lia)).
        pose proof (NT i 0%nat) as N0. rewrite !Nat.add_0_r in N0. rewrite N0, !NT in F. exact F. }
      rewrite G. cbn [bind]. f_equal. f_equal. symmetry. apply (F 0%nat). lia.
Qed.
