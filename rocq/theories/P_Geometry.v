(** Proofs about the geometry model. *)
From Coq Require Import Reals Lra Lia List Bool ZArith Permutation Psatz.
From Verif Require Import Base M_Geometry S_Geometry.
Import ListNotations.
Open Scope R_scope.

(** ** Union *)
Lemma le3_refl u : nonan3 u -> le3 u u.
Proof. intros (?&?&?); repeat split; now apply ele_refl. Qed.
Lemma le3_trans u v w : le3 u v -> le3 v w -> le3 u w.
Proof. intros (?&?&?) (?&?&?); repeat split; eapply ele_trans; eauto. Qed.
Lemma le3_antisym u v : le3 u v -> le3 v u -> u = v.
Proof. intros (?&?&?) (?&?&?); apply V3_eq; now apply ele_antisym. Qed.
Lemma box_le_trans a b c : box_le a b -> box_le b c -> box_le a c.
Proof. intros [? ?] [? ?]; split; eapply le3_trans; eauto. Qed.
Lemma box_le_refl a : box_ok a -> box_le a a.
Proof. intros [? ?]; split; now apply le3_refl. Qed.
Lemma box_le_antisym a b : box_le a b -> box_le b a -> a = b.
Proof.
  intros [? ?] [? ?]. destruct a as [a1 a2], b as [b1 b2]; cbn in *.
  f_equal; now apply le3_antisym.
Qed.

Lemma vmap2_emin_glb u v w : nonan3 u -> nonan3 v ->
  (le3 w (vmap2 emin u v) <-> le3 w u /\ le3 w v).
Proof.
  intros (?&?&?) (?&?&?). unfold le3, vmap2; cbn.
  rewrite !emin_glb by assumption. tauto.
Qed.
Lemma vmap2_emax_lub u v w : nonan3 u -> nonan3 v ->
  (le3 (vmap2 emax u v) w <-> le3 u w /\ le3 v w).
Proof.
  intros (?&?&?) (?&?&?). unfold le3, vmap2; cbn.
  rewrite !emax_lub by assumption. tauto.
Qed.
Lemma vmap2_emin_ok u v : nonan3 u -> nonan3 v -> nonan3 (vmap2 emin u v).
Proof. intros (?&?&?) (?&?&?); repeat split; now apply emin_notnan. Qed.
Lemma vmap2_emax_ok u v : nonan3 u -> nonan3 v -> nonan3 (vmap2 emax u v).
Proof. intros (?&?&?) (?&?&?); repeat split; now apply emax_notnan. Qed.

Lemma add_geom_ok b g : box_ok b -> geom_ok g -> box_ok (add_geom b g).
Proof.
  intros [? ?] Hg. destruct g; cbn in *.
  - split; [apply vmap2_emin_ok|apply vmap2_emax_ok]; auto.
  - destruct Hg; split; [apply vmap2_emin_ok|apply vmap2_emax_ok]; auto.
Qed.

Lemma add_geom_lub b g c : box_ok b -> geom_ok g ->
  (box_le (add_geom b g) c <-> box_le b c /\ covers c g).
Proof.
  intros [? ?] Hg. destruct g as [p|d]; cbn in *.
  - unfold box_le; cbn. rewrite vmap2_emin_glb, vmap2_emax_lub by assumption. tauto.
  - destruct Hg. unfold box_le; cbn. rewrite vmap2_emin_glb, vmap2_emax_lub by assumption. tauto.
Qed.

Lemma accumulate_ok l : forall b, box_ok b -> Forall geom_ok l -> box_ok (accumulate b l).
Proof.
  induction l; intros b Hb Hl; cbn; auto. inversion Hl; subst.
  apply IHl; auto. now apply add_geom_ok.
Qed.

Lemma accumulate_lub l : forall b c, box_ok b -> Forall geom_ok l ->
  (box_le (accumulate b l) c <-> box_le b c /\ Forall (covers c) l).
Proof.
  induction l; intros b c Hb Hl.
  - cbn; split; intros; intuition.
  - inversion Hl; subst. change (accumulate b (a :: l)) with (accumulate (add_geom b a) l).
    rewrite IHl by (auto using add_geom_ok). rewrite add_geom_lub by auto.
    rewrite Forall_cons_iff. tauto.
Qed.

Lemma empty_ok : box_ok bbox_empty.
Proof. repeat split; discriminate. Qed.
Lemma empty_le c : box_ok c -> box_le bbox_empty c.
Proof.
  intros [(?&?&?) (?&?&?)].
  unfold box_le, le3, bbox_empty; cbn; unfold ele, notnan in *.
  destruct (vx (bmin c)), (vy (bmin c)), (vz (bmin c)), (vx (bmax c)), (vy (bmax c)), (vz (bmax c));
    cbn in *; intuition congruence.
Qed.

Lemma covers_trans b c g : box_le b c -> covers b g -> covers c g.
Proof.
  intros Hbc. destruct g; cbn.
  - destruct Hbc. intros [? ?]; split; eapply le3_trans; eauto.
  - intros; eapply box_le_trans; eauto.
Qed.

Lemma accumulate_covers l b : box_ok b -> Forall geom_ok l ->
  Forall (covers (accumulate b l)) l /\ box_le b (accumulate b l).
Proof.
  intros Hb Hl.
  assert (H : box_le (accumulate b l) (accumulate b l))
    by (apply box_le_refl; now apply accumulate_ok).
  apply accumulate_lub in H; auto. tauto.
Qed.

Lemma accumulate_set_ext l l' : Forall geom_ok l -> Forall geom_ok l' ->
  (forall g, In g l <-> In g l') ->
  accumulate bbox_empty l = accumulate bbox_empty l'.
Proof.
  intros Hl Hl' Hin.
  assert (E1: forall l, Forall geom_ok l -> box_ok (accumulate bbox_empty l))
    by (intros; apply accumulate_ok; auto using empty_ok).
  apply box_le_antisym.
  - apply accumulate_lub; auto using empty_ok. split; [apply empty_le; auto|].
    destruct (accumulate_covers l' bbox_empty) as [H _]; auto using empty_ok.
    rewrite Forall_forall in *. intros g Hg. apply H. now apply Hin.
  - apply accumulate_lub; auto using empty_ok. split; [apply empty_le; auto|].
    destruct (accumulate_covers l bbox_empty) as [H _]; auto using empty_ok.
    rewrite Forall_forall in *. intros g Hg. apply H. now apply Hin.
Qed.

Lemma le3_Fin_in b p : covers b (GP (vmap Fin p)) <-> in_box b p.
Proof. unfold covers, le3, in_box, vmap; cbn. tauto. Qed.

Lemma box_le_in b c p : box_le b c -> in_box b p -> in_box c p.
Proof.
  intros H Hp. apply le3_Fin_in. apply le3_Fin_in in Hp. eapply covers_trans; eauto.
Qed.

(** ** inside / overlaps / expand *)
Lemma inside_in b p : inside b p = true <-> in_box b p.
Proof. unfold inside, in_box, ele. rewrite !andb_true_iff. tauto. Qed.

Lemma ele_real_between a b : ele a b -> a <> PInf -> b <> NInf ->
  exists r, ele a (Fin r) /\ ele (Fin r) b.
Proof.
  intros H Ha Hb. destruct a as [x| | |].
  - exists x. split; auto. apply ele_Fin; lra.
  - congruence.
  - destruct b as [y| | |]; try (cbn in H; discriminate).
    + exists y. split; [reflexivity|]. apply ele_Fin; lra.
    + exists 0. split; reflexivity.
    + congruence.
  - discriminate H.
Qed.

Lemma overlap_axis a1 a2 b1 b2 :
  notnan a1 -> notnan a2 -> notnan b1 -> notnan b2 ->
  (exists r, ele a1 (Fin r) /\ ele (Fin r) a2) ->
  (exists r, ele b1 (Fin r) /\ ele (Fin r) b2) ->
  (ele b1 a2 /\ ele a1 b2 <->
   exists r, (ele a1 (Fin r) /\ ele (Fin r) a2) /\ (ele b1 (Fin r) /\ ele (Fin r) b2)).
Proof.
  intros N1 N2 N3 N4 (r1&Ha1&Ha2) (r2&Hb1&Hb2). split.
  - intros [H1 H2].
    assert (X1 : a1 <> PInf) by (intros ->; discriminate Ha1).
    assert (X2 : a2 <> NInf) by (intros ->; discriminate Ha2).
    assert (X3 : b1 <> PInf) by (intros ->; discriminate Hb1).
    assert (X4 : b2 <> NInf) by (intros ->; discriminate Hb2).
    assert (M : ele (emax a1 b1) (emin a2 b2)).
    { pose proof (ele_trans _ _ _ Ha1 Ha2). pose proof (ele_trans _ _ _ Hb1 Hb2).
      apply emin_glb; auto. split; apply emax_lub; auto. }
    destruct (ele_real_between _ _ M) as (r&Hr1&Hr2).
    + unfold emax; destruct (eltb a1 b1); auto.
    + unfold emin; destruct (eltb b2 a2); auto.
    + apply emax_lub in Hr1; auto. apply emin_glb in Hr2; auto. exists r; tauto.
  - intros (r&(?&?)&(?&?)). split; eapply ele_trans; eauto.
Qed.

Lemma overlaps_iff a b : box_ok a -> box_ok b ->
  (exists p, in_box a p) -> (exists p, in_box b p) ->
  (overlaps a b = true <-> exists p, in_box a p /\ in_box b p).
Proof.
  intros [(A1&A2&A3) (A4&A5&A6)] [(B1&B2&B3) (B4&B5&B6)] (p&Hp) (q&Hq).
  unfold in_box in Hp, Hq. destruct Hp as (P1&P2&P3&P4&P5&P6), Hq as (Q1&Q2&Q3&Q4&Q5&Q6).
  unfold overlaps. rewrite !andb_true_iff.
  pose proof (overlap_axis _ _ _ _ A1 A4 B1 B4 (ex_intro _ _ (conj P1 P2)) (ex_intro _ _ (conj Q1 Q2))) as X.
  pose proof (overlap_axis _ _ _ _ A2 A5 B2 B5 (ex_intro _ _ (conj P3 P4)) (ex_intro _ _ (conj Q3 Q4))) as Y.
  pose proof (overlap_axis _ _ _ _ A3 A6 B3 B6 (ex_intro _ _ (conj P5 P6)) (ex_intro _ _ (conj Q5 Q6))) as Z.
  fold (ele (vx (bmin b)) (vx (bmax a))) (ele (vx (bmin a)) (vx (bmax b)))
       (ele (vy (bmin b)) (vy (bmax a))) (ele (vy (bmin a)) (vy (bmax b)))
       (ele (vz (bmin b)) (vz (bmax a))) (ele (vz (bmin a)) (vz (bmax b))).
  split.
  - intros ((Hx&Hy)&Hz).
    apply X in Hx. apply Y in Hy. apply Z in Hz.
    destruct Hx as (x&?&?), Hy as (y&?&?), Hz as (z&?&?).
    exists (mkV x y z). unfold in_box; cbn. tauto.
  - intros (s&(S1&S2&S3&S4&S5&S6)&(T1&T2&T3&T4&T5&T6)).
    repeat split; eapply ele_trans; eauto.
Qed.

Lemma esub_le e d : notnan e -> 0 <= d -> ele (esub e (Fin d)) e.
Proof. intros H ?. unfold esub. destruct e; cbn in *; try reflexivity; [apply ele_Fin; lra|congruence]. Qed.
Lemma eadd_ge e d : notnan e -> 0 <= d -> ele e (eadd e (Fin d)).
Proof. intros H ?. destruct e; cbn in *; try reflexivity; [apply ele_Fin; lra|congruence]. Qed.

Lemma expand_covers b d : box_ok b -> 0 <= d -> box_le b (expand b d).
Proof.
  intros [(?&?&?) (?&?&?)] ?. unfold expand, box_le, le3; cbn.
  repeat split; auto using esub_le, eadd_ge.
Qed.

Lemma expand_fbox lo hi d :
  expand (fbox lo hi) d =
  fbox (mkV (vx lo - d) (vy lo - d) (vz lo - d)) (mkV (vx hi + d) (vy hi + d) (vz hi + d)).
Proof. reflexivity. Qed.

Lemma in_fbox lo hi p : in_box (fbox lo hi) p <-> between lo p hi.
Proof. unfold in_box, fbox, between, vle; cbn. rewrite !ele_Fin. tauto. Qed.

(** real-valued measures of boxes with finite corners *)
Definition rsa (lo hi : vec) : R :=
  2 * ((vx hi - vx lo) * (vy hi - vy lo) + (vx hi - vx lo) * (vz hi - vz lo)
       + (vy hi - vy lo) * (vz hi - vz lo)).
Lemma surface_area_fbox lo hi : surface_area (fbox lo hi) = Fin (rsa lo hi).
Proof. unfold surface_area, rsa, fbox, diag, esub; cbn. do 2 f_equal; ring. Qed.
Lemma volume_fbox lo hi :
  volume (fbox lo hi) = Fin ((vx hi - vx lo) * (vy hi - vy lo) * (vz hi - vz lo)).
Proof. reflexivity. Qed.

Lemma mul_mono a b c d : 0 <= a <= c -> 0 <= b <= d -> 0 <= a * b <= c * d.
Proof. intros; nra. Qed.

Lemma rsa_mono lo hi lo' hi' : vle lo hi -> vle lo' lo -> vle hi hi' ->
  0 <= rsa lo hi <= rsa lo' hi'.
Proof.
  unfold vle, rsa. intros (?&?&?) (?&?&?) (?&?&?).
  set (a := vx hi - vx lo). set (b := vy hi - vy lo). set (c := vz hi - vz lo).
  set (a' := vx hi' - vx lo'). set (b' := vy hi' - vy lo'). set (c' := vz hi' - vz lo').
  assert (0 <= a <= a') by (unfold a, a'; lra).
  assert (0 <= b <= b') by (unfold b, b'; lra).
  assert (0 <= c <= c') by (unfold c, c'; lra).
  pose proof (mul_mono a b a' b'). pose proof (mul_mono a c a' c'). pose proof (mul_mono b c b' c').
  lra.
Qed.
Lemma vol_mono lo hi lo' hi' : vle lo hi -> vle lo' lo -> vle hi hi' ->
  0 <= (vx hi - vx lo) * (vy hi - vy lo) * (vz hi - vz lo)
    <= (vx hi' - vx lo') * (vy hi' - vy lo') * (vz hi' - vz lo').
Proof.
  unfold vle. intros (?&?&?) (?&?&?) (?&?&?).
  apply mul_mono; [apply mul_mono|]; lra.
Qed.

Lemma maximum_extent_fbox lo hi : (maximum_extent (fbox lo hi) < 3)%nat /\
  forall i, (i < 3)%nat -> vnth hi i - vnth lo i <=
   vnth hi (maximum_extent (fbox lo hi)) - vnth lo (maximum_extent (fbox lo hi)).
Proof.
  unfold maximum_extent, diag, fbox; cbn. unfold esub; cbn.
  destruct (Rltb (vy hi + - vy lo) (vx hi + - vx lo)) eqn:C1;
  destruct (Rltb (vz hi + - vz lo) (vx hi + - vx lo)) eqn:C2;
  destruct (Rltb (vz hi + - vz lo) (vy hi + - vy lo)) eqn:C3; cbn; Rb;
  (split; [lia|]); intros i Hi; destruct i as [|[|[|i]]]; cbn; try lia; lra.
Qed.

(** ** copying *)
Lemma emin_ele a b : ele a b -> emin a b = a.
Proof.
  intros H. unfold emin. destruct (eltb b a) eqn:C; auto.
  exfalso. apply (elt_not_ele b a); auto.
Qed.
Lemma emax_ele a b : ele a b -> emax a b = b.
Proof.
  intros H. unfold emax. destruct (eltb a b) eqn:C; auto.
  apply ele_antisym; auto. apply eltb_false_ele; auto; [eapply ele_notnan_l|eapply ele_notnan_r]; eauto.
Qed.
Lemma from_bbox_id b : le3 (bmin b) (bmax b) -> from_bbox b = b.
Proof.
  intros (?&?&?). destruct b as [[a b c] [d e f]]. unfold from_bbox, bbox_of, vmap2; cbn in *.
  now rewrite !emin_ele, !emax_ele.
Qed.
Lemma from_bbox_empty p : in_box (from_bbox bbox_empty) p.
Proof. unfold from_bbox, bbox_of; cbn. repeat split. Qed.

Lemma bbox_of_ok p q : nonan3 p -> nonan3 q -> le3 (bmin (bbox_of p q)) (bmax (bbox_of p q)) /\
  box_ok (bbox_of p q).
Proof.
  intros Hp Hq. split.
  - destruct Hp as (?&?&?), Hq as (?&?&?). unfold bbox_of, le3; cbn.
    assert (A: forall a b, notnan a -> notnan b -> ele (emin a b) (emax a b)).
    { intros a b Ha Hb. destruct (ele_total a b) as [H'|H']; auto.
      - rewrite emin_ele, emax_ele; auto.
      - eapply ele_trans with (b := b).
        + apply (emin_glb a b (emin a b)); auto. apply ele_refl. now apply emin_notnan.
        + apply (emax_lub a b (emax a b)); auto. apply ele_refl. now apply emax_notnan. }
    auto.
  - split; [apply vmap2_emin_ok|apply vmap2_emax_ok]; auto.
Qed.

(** ** slab test *)

Lemma fmax_lub a b c : notnan a -> (ele (fmax a b) c <-> ele a c /\ (b = NaN \/ ele b c)).
Proof.
  intros Ha. destruct a; [| | |exfalso; apply Ha; reflexivity];
   (destruct b; [unfold fmax; rewrite emax_lub by discriminate..|];
    [ split; [tauto|intros [? [?|?]]; [discriminate|tauto]]..|
      cbn; tauto]).
Qed.
Lemma fmin_glb a b c : notnan a -> (ele c (fmin a b) <-> ele c a /\ (b = NaN \/ ele c b)).
Proof.
  intros Ha. destruct a; [| | |exfalso; apply Ha; reflexivity];
   (destruct b; [unfold fmin; rewrite emin_glb by discriminate..|];
    [ split; [tauto|intros [? [?|?]]; [discriminate|tauto]]..|
      cbn; tauto]).
Qed.
Lemma fmax_notnan a b : notnan a -> notnan (fmax a b).
Proof.
  intros. unfold fmax; destruct a; try congruence; destruct b; try discriminate;
  apply emax_notnan; discriminate.
Qed.
Lemma fmin_notnan a b : notnan a -> notnan (fmin a b).
Proof.
  intros. unfold fmin; destruct a; try congruence; destruct b; try discriminate;
  apply emin_notnan; discriminate.
Qed.

(** the swapped pair bounds exactly the parameters inside the slab *)
Lemma slab_interval lo hi o d nz n f :
  lo <= hi -> slab_ok lo hi o d nz ->
  (n, f) = (let near := edivz nz (lo - o) d in let far := edivz nz (hi - o) d in
            if eltb far near then (far, near) else (near, far)) ->
  (forall t, (n = NaN \/ ele n (Fin t)) /\ (f = NaN \/ ele (Fin t) f) <-> lo <= o + t * d <= hi) /\
  (d <> 0 -> exists x, f = Fin x).
Proof.
  intros Hlh Hok. cbn zeta. unfold edivz.
  destruct (Reqb d 0) eqn:Hd; Rb.
  - subst d.
    assert (St : forall t, o + t * 0 = o) by (intros; ring).
    destruct (Reqb (lo - o) 0) eqn:H1; destruct (Reqb (hi - o) 0) eqn:H2; Rb.
    + cbn. intros Heq; injection Heq as En Ef; subst n f. split; [|congruence]. intros t. rewrite St.
      split; [intros; lra|tauto].
    + destruct nz; [destruct (Hok eq_refl eq_refl); lra|].
      assert (Rltb 0 (hi - o) = true) as -> by (apply Rltb_true; lra). cbn.
      intros Heq; injection Heq as En Ef; subst n f. split; [|congruence]. intros t. rewrite St.
      split; [intros; lra|]. intros; split; [now left|right; reflexivity].
    + destruct nz; [destruct (Hok eq_refl eq_refl); lra|].
      assert (Rltb 0 (lo - o) = false) as -> by (apply Rltb_false; lra). cbn.
      intros Heq; injection Heq as En Ef; subst n f. split; [|congruence]. intros t. rewrite St.
      split; [intros; lra|]. intros; split; [right; reflexivity|now left].
    + destruct (Rltb 0 (lo - o)) eqn:H3; destruct (Rltb 0 (hi - o)) eqn:H4; Rb; try lra;
      destruct nz; cbn; intros Heq; injection Heq as En Ef; subst n f;
      (split; [|congruence]); intros t; rewrite St;
      (split; [intros [[?|A] [?|B]]; try discriminate; cbn in *; try discriminate; lra
              |intros; first [lra|split; right; reflexivity]]).
  - cbn. destruct (Rltb ((hi - o) / d) ((lo - o) / d)) eqn:C; Rb; intros Heq; injection Heq as En Ef; subst n f;
      (split; [|intros; eexists; reflexivity]); intros t.
    + assert (Hneg : d < 0).
      { destruct (Rlt_dec d 0); auto. exfalso.
        assert (0 < / d) by (apply Rinv_0_lt_compat; lra).
        unfold Rdiv in C. nra. }
      rewrite !ele_Fin.
      assert (Q1 : lo - o = (lo - o) / d * d) by (field; lra).
      assert (Q2 : hi - o = (hi - o) / d * d) by (field; lra).
      split.
      * intros [[?|A] [?|B]]; try discriminate. nra.
      * intros [A B]. split; right; nra.
    + assert (Hpos : 0 < d \/ (d < 0 /\ lo = hi)).
      { destruct (Rlt_dec 0 d); auto. right. split; [lra|].
        destruct (Req_EM_T lo hi); auto. exfalso.
        assert (/ d < 0) by (apply Rinv_lt_0_compat; lra).
        unfold Rdiv in C. nra. }
      rewrite !ele_Fin.
      assert (Q1 : lo - o = (lo - o) / d * d) by (field; lra).
      assert (Q2 : hi - o = (hi - o) / d * d) by (field; lra).
      destruct Hpos as [Hpos|[Hneg He]].
      * split.
        -- intros [[?|A] [?|B]]; try discriminate. nra.
        -- intros [A B]. split; right; nra.
      * subst hi. split.
        -- intros [[?|A] [?|B]]; try discriminate. assert (t = (lo - o)/d) by lra. subst t. nra.
        -- intros [A B]. split; right; nra.
Qed.

Lemma slab_step_spec lo hi o d nz t0 t1 :
  lo <= hi -> slab_ok lo hi o d nz -> notnan t0 -> notnan t1 ->
  match slab_step (edivz nz (lo - o) d) (edivz nz (hi - o) d) (Some (t0, t1)) with
  | Some (a, b) =>
      notnan a /\ notnan b /\ ele a b /\ ele t0 a /\ ele b t1 /\
      (d <> 0 -> exists x, ele b (Fin x)) /\
      (forall t, (ele a (Fin t) /\ ele (Fin t) b) <->
                 (ele t0 (Fin t) /\ ele (Fin t) t1) /\ lo <= o + t * d <= hi)
  | None => forall t, ~ ((ele t0 (Fin t) /\ ele (Fin t) t1) /\ lo <= o + t * d <= hi)
  end.
Proof.
  intros Hlh Hok N0 N1. unfold slab_step.
  destruct (if eltb (edivz nz (hi - o) d) (edivz nz (lo - o) d)
            then (edivz nz (hi - o) d, edivz nz (lo - o) d)
            else (edivz nz (lo - o) d, edivz nz (hi - o) d)) as [n f] eqn:Hnf.
  destruct (slab_interval lo hi o d nz n f Hlh Hok (eq_sym Hnf)) as [Hint Hfin].
  assert (Key : forall t, (ele (fmax t0 n) (Fin t) /\ ele (Fin t) (fmin t1 f)) <->
             (ele t0 (Fin t) /\ ele (Fin t) t1) /\ lo <= o + t * d <= hi).
  { intros t. rewrite fmax_lub, fmin_glb by assumption. rewrite <- Hint. tauto. }
  assert (M0 : notnan (fmax t0 n)) by now apply fmax_notnan.
  assert (M1 : notnan (fmin t1 f)) by now apply fmin_notnan.
  destruct (eltb (fmin t1 f) (fmax t0 n)) eqn:C.
  - intros t Ht. apply Key in Ht. destruct Ht as [A B].
    apply (elt_not_ele _ _ C). eapply ele_trans; eauto.
  - split; [exact M0|]. split; [exact M1|]. split; [now apply eltb_false_ele|].
    split; [|split; [|split; [|exact Key]]].
    + apply (fmax_lub t0 n (fmax t0 n)); auto. now apply ele_refl.
    + apply (fmin_glb t1 f (fmin t1 f)); auto. now apply ele_refl.
    + intros Hd. destruct (Hfin Hd) as [x ->]. exists x.
      pose proof (ele_refl _ M1) as Q. apply fmin_glb in Q; auto.
      destruct Q as [_ [?|?]]; [discriminate|auto].
Qed.

Lemma between_ray lo hi r t : between lo (ray_at r t) hi <->
  (vx lo <= vx (ro r) + t * vx (rd r) <= vx hi) /\
  (vy lo <= vy (ro r) + t * vy (rd r) <= vy hi) /\
  (vz lo <= vz (ro r) + t * vz (rd r) <= vz hi).
Proof. unfold between, vle, ray_at, vadd, vscale, vmap2, vmap; cbn. tauto. Qed.

Lemma bbox_intersect_p_interval lo hi r : vle lo hi -> ray_face_ok lo hi r ->
  notnan (rmint r) -> notnan (rmaxt r) ->
  match bbox_intersect_p lo hi r with
  | Some (a, b) =>
      notnan a /\ notnan b /\ ele a b /\ ele (rmint r) a /\ ele b (rmaxt r) /\
      (rd r <> vzero -> exists x, ele b (Fin x)) /\
      (forall t, (ele a (Fin t) /\ ele (Fin t) b) <->
                 (ele (rmint r) (Fin t) /\ ele (Fin t) (rmaxt r)) /\ between lo (ray_at r t) hi)
  | None => forall t, ~ ((ele (rmint r) (Fin t) /\ ele (Fin t) (rmaxt r)) /\ between lo (ray_at r t) hi)
  end.
Proof.
  intros (L1&L2&L3) (F1&F2&F3) N0 N1. unfold bbox_intersect_p. cbn [vnth].
  pose proof (slab_step_spec _ _ _ _ _ _ _ L1 F1 N0 N1) as HX.
  destruct (slab_step (edivz (vx (rdz r)) (vx lo - vx (ro r)) (vx (rd r)))
     (edivz (vx (rdz r)) (vx hi - vx (ro r)) (vx (rd r))) (Some (rmint r, rmaxt r)))
    as [[a1 b1]|].
  2:{ cbn. intros t [A B]. apply between_ray in B. apply (HX t); tauto. }
  destruct HX as (A1&B1&C1&D1&E1&G1&K1).
  pose proof (slab_step_spec _ _ _ _ _ _ _ L2 F2 A1 B1) as HY.
  destruct (slab_step (edivz (vy (rdz r)) (vy lo - vy (ro r)) (vy (rd r)))
     (edivz (vy (rdz r)) (vy hi - vy (ro r)) (vy (rd r))) (Some (a1, b1)))
    as [[a2 b2]|].
  2:{ cbn. intros t [A B]. apply between_ray in B. apply (HY t). rewrite K1. tauto. }
  destruct HY as (A2&B2&C2&D2&E2&G2&K2).
  pose proof (slab_step_spec _ _ _ _ _ _ _ L3 F3 A2 B2) as HZ.
  destruct (slab_step (edivz (vz (rdz r)) (vz lo - vz (ro r)) (vz (rd r)))
     (edivz (vz (rdz r)) (vz hi - vz (ro r)) (vz (rd r))) (Some (a2, b2)))
    as [[a3 b3]|].
  2:{ intros t [A B]. apply between_ray in B. apply (HZ t). rewrite K2, K1. tauto. }
  destruct HZ as (A3&B3&C3&D3&E3&G3&K3).
  split; [exact A3|]. split; [exact B3|]. split; [exact C3|].
  split; [eapply ele_trans; [|eassumption]; eapply ele_trans; eauto|].
  split; [eapply ele_trans; [eassumption|]; eapply ele_trans; eauto|].
  split.
  - intros Hd.
    destruct (Req_EM_T (vz (rd r)) 0) as [Z0|Z0]; [|auto].
    destruct (Req_EM_T (vy (rd r)) 0) as [Y0|Y0].
    2:{ destruct (G2 Y0) as [x Hx]. exists x. eapply ele_trans; eauto. }
    destruct (Req_EM_T (vx (rd r)) 0) as [X0|X0].
    2:{ destruct (G1 X0) as [x Hx]. exists x. eapply ele_trans; [|eapply ele_trans]; eauto. }
    exfalso; apply Hd. apply V3_eq; auto.
  - intros t. rewrite K3, K2, K1, between_ray. tauto.
Qed.

Lemma bbox_intersect_p_iff lo hi r m : vle lo hi -> ray_face_ok lo hi r ->
  rmint r = Fin m -> notnan (rmaxt r) -> (rd r <> vzero \/ exists M, rmaxt r = Fin M) ->
  ((exists a b, bbox_intersect_p lo hi r = Some (a, b)) <->
   exists t, m <= t /\ ele (Fin t) (rmaxt r) /\ between lo (ray_at r t) hi).
Proof.
  intros L F Hm N1 Hd.
  pose proof (bbox_intersect_p_interval lo hi r L F) as H. rewrite Hm in H.
  specialize (H ltac:(discriminate) N1).
  destruct (bbox_intersect_p lo hi r) as [[a b]|].
  - split; [|intros; eauto]. intros _.
    destruct H as (Na&Nb&Hab&Hma&Hb&Hf&K).
    assert (exists x, ele b (Fin x)) as [x Hx].
    { destruct Hd as [Hd|[M HM]]; [auto|]. exists M. now rewrite <- HM. }
    destruct a as [a| | |].
    + destruct (K a) as [K1 _]. destruct K1 as [[K1 K2] K3].
      { split; auto. apply ele_Fin; lra. }
      exists a. apply ele_Fin in K1. auto.
    + exfalso. destruct b; cbn in *; discriminate.
    + discriminate Hma.
    + exfalso; now apply Na.
  - split; [intros (a&b&?); discriminate|].
    intros (t&A&B&C). exfalso. apply (H t). rewrite ele_Fin. auto.
Qed.

(** ** lerp, offset, bounding sphere *)
Lemma lerp_range t a b : 0 <= t <= 1 -> a <= b -> a <= lerp t a b <= b.
Proof. unfold lerp. intros. nra. Qed.

Lemma bounding_sphere_contains lo hi p : vle lo hi -> between lo p hi ->
  pdist (fst (bounding_sphere lo hi)) p <= snd (bounding_sphere lo hi).
Proof.
  intros (L1&L2&L3) ((A1&A2&A3)&(B1&B2&B3)). unfold bounding_sphere; cbn.
  set (c := vscale (/2) (vadd lo hi)).
  assert (Hc : inside (fbox lo hi) c = true).
  { apply inside_in, in_fbox. unfold between, vle, c, vscale, vadd, vmap, vmap2; cbn. lra. }
  rewrite Hc. unfold pdist. apply sqrt_le_1_alt. unfold sq_dist, c, vscale, vadd, vmap, vmap2; cbn.
  assert (Q : forall l h x, l <= x -> x <= h ->
    (/2 * (l + h) - x) * (/2 * (l + h) - x) <= (/2 * (l + h) - h) * (/2 * (l + h) - h)).
  { intros. nra. }
  pose proof (Q _ _ _ A1 B1). pose proof (Q _ _ _ A2 B2). pose proof (Q _ _ _ A3 B3). lra.
Qed.

(** ** directions *)
Lemma sq_length_nonneg v : 0 <= sq_length v.
Proof. unfold sq_length. nra. Qed.
Lemma vlength_sq v : vlength v * vlength v = sq_length v.
Proof. unfold vlength. apply sqrt_sqrt, sq_length_nonneg. Qed.
Lemma vlength_zero v : vlength v = 0 <-> v = vzero.
Proof.
  split.
  - intros H. pose proof (vlength_sq v) as Q. rewrite H in Q. unfold sq_length in Q.
    apply V3_eq; cbn; nra.
  - intros ->. unfold vlength, sq_length, vzero; cbn. replace (0*0+0*0+0*0) with 0 by ring. apply sqrt_0.
Qed.
Lemma vlength_pos v : v <> vzero -> 0 < vlength v.
Proof.
  intros H. pose proof (sqrt_pos (sq_length v)). fold (vlength v) in *.
  destruct H0; auto. exfalso; apply H, vlength_zero; auto.
Qed.
Lemma vlength_unit v : unit v -> vlength v = 1.
Proof. unfold unit, vlength, sq_length. intros ->. apply sqrt_1. Qed.

Lemma normalize_unit v : v <> vzero -> unit (normalize v).
Proof.
  intros H. pose proof (vlength_pos v H) as P. pose proof (vlength_sq v) as Q.
  unfold normalize. destruct (Reqb (vlength v) 0) eqn:C; Rb; [lra|].
  unfold unit; cbn. unfold sq_length in Q.
  replace (_ + _ + _) with ((vx v * vx v + vy v * vy v + vz v * vz v) / (vlength v * vlength v))
    by (field; lra).
  rewrite <- Q. field; lra.
Qed.
Lemma normalize_parallel v : v = vscale (vlength v) (normalize v).
Proof.
  unfold normalize. destruct (Reqb (vlength v) 0) eqn:C; Rb.
  - apply vlength_zero in C. subst. apply V3_eq; cbn; ring.
  - apply V3_eq; cbn; field; auto.
Qed.

Lemma normalize_zero : normalize vzero = vzero.
Proof.
  unfold normalize. destruct (Reqb (vlength vzero) 0) eqn:C; Rb; auto.
  exfalso; apply C. now apply vlength_zero.
Qed.

Lemma vcross_orth_l u v : orth u (vcross u v).
Proof. unfold orth, vcross; cbn; ring. Qed.
Lemma vcross_orth_r u v : orth v (vcross u v).
Proof. unfold orth, vcross; cbn; ring. Qed.
Lemma vcross_unit u v : unit u -> unit v -> orth u v -> unit (vcross u v).
Proof.
  unfold unit, orth, vcross; cbn. intros A B C.
  transitivity ((vx u * vx u + vy u * vy u + vz u * vz u) * (vx v * vx v + vy v * vy v + vz v * vz v)
     - (vx u * vx v + vy u * vy v + vz u * vz v) * (vx u * vx v + vy u * vy v + vz u * vz v));
  [ring|]. rewrite A, B, C. ring.
Qed.

Lemma coordinate_system_ortho v : unit v ->
  match coordinate_system v with
  | (a, b, c) => a = v /\ unit b /\ unit c /\ orth a b /\ orth a c /\ orth b c
  end.
Proof.
  intros U. unfold coordinate_system. rewrite (vlength_unit v U).
  destruct (Reqb 1 0) eqn:C; Rb; [lra|].
  destruct (Rltb (Rabs (vy v)) (Rabs (vx v))) eqn:C2; Rb.
  - assert (P : 0 < vx v * vx v + vz v * vz v).
    { pose proof (Rabs_pos (vy v)). assert (vx v <> 0) by (intros Z; rewrite Z, Rabs_R0 in C2; lra). nra. }
    set (s := sqrt (vx v * vx v + vz v * vz v)).
    assert (S1 : 0 < s) by (apply sqrt_lt_R0; auto).
    assert (S2 : s * s = vx v * vx v + vz v * vz v) by (apply sqrt_sqrt; lra).
    set (b := mkV (- vz v * (1 / s)) 0 (vx v * (1 / s))).
    assert (Ub : unit b).
    { unfold unit, b; cbn. replace (_ + _ + _) with ((vx v * vx v + vz v * vz v) / (s * s)) by (field; lra).
      rewrite S2. field; lra. }
    assert (Ob : orth v b) by (unfold orth, b; cbn; field; lra).
    repeat split; auto using vcross_unit, vcross_orth_l, vcross_orth_r.
  - assert (P : 0 < vy v * vy v + vz v * vz v).
    { destruct (Req_EM_T (vy v) 0) as [Y|Y]; [|nra]. destruct (Req_EM_T (vz v) 0) as [Z|Z]; [|nra].
      exfalso. rewrite Y, Rabs_R0 in C2. pose proof (Rabs_pos (vx v)).
      assert (X : Rabs (vx v) = 0) by lra.
      assert (vx v = 0) by (destruct (Req_EM_T (vx v) 0); auto; apply Rabs_no_R0 in n; contradiction).
      unfold unit in U. rewrite Y, Z, H0 in U. lra. }
    set (s := sqrt (vy v * vy v + vz v * vz v)).
    assert (S1 : 0 < s) by (apply sqrt_lt_R0; auto).
    assert (S2 : s * s = vy v * vy v + vz v * vz v) by (apply sqrt_sqrt; lra).
    set (b := mkV 0 (- vz v * (1 / s)) (vy v * (1 / s))).
    assert (Ub : unit b).
    { unfold unit, b; cbn. replace (_ + _ + _) with ((vy v * vy v + vz v * vz v) / (s * s)) by (field; lra).
      rewrite S2. field; lra. }
    assert (Ob : orth v b) by (unfold orth, b; cbn; field; lra).
    repeat split; auto using vcross_unit, vcross_orth_l, vcross_orth_r.
Qed.

Lemma face_forward_spec n v :
  (face_forward n v = n \/ face_forward n v = vneg n) /\ 0 <= vdot (face_forward n v) v.
Proof.
  unfold face_forward. destruct (Rltb (vdot n v) 0) eqn:C; Rb; split; auto.
  unfold vdot, vneg, vmap in *; cbn. lra.
Qed.

(** arctan2 *)
Lemma atan_tan_cs y x : 0 < x -> let r := sqrt (x * x + y * y) in
  r * cos (atan (y / x)) = x /\ r * sin (atan (y / x)) = y.
Proof.
  intros Hx r. set (a := atan (y / x)).
  assert (B : - PI / 2 < a < PI / 2) by apply atan_bound.
  assert (C : 0 < cos a) by (apply cos_gt_0; lra).
  assert (T : tan a = y / x) by apply tan_atan. unfold tan in T.
  assert (Sn : sin a = y / x * cos a) by (rewrite <- T; field; lra).
  pose proof (sin2_cos2 a) as P. unfold Rsqr in P. rewrite Sn in P.
  assert (Hr : 0 < x * x + y * y) by nra.
  assert (R1 : 0 < r) by (apply sqrt_lt_R0; auto).
  assert (R2 : r * r = x * x + y * y) by (apply sqrt_sqrt; lra).
  assert (Q : (x * x + y * y) * (cos a * cos a) = x * x).
  { replace (x*x) with (x * x * 1) at 2 by ring. rewrite <- P. field; lra. }
  assert (Q2 : (r * cos a - x) * (r * cos a + x) = 0).
  { replace (_ * _) with (r * r * (cos a * cos a) - x * x) by ring. rewrite R2, Q. ring. }
  assert (0 < r * cos a) by nra.
  assert (r * cos a = x) by nra.
  split; auto. rewrite Sn. replace (r * (y / x * cos a)) with (y / x * (r * cos a)) by ring.
  rewrite H0. field; lra.
Qed.

Lemma sqrt_sq_abs x : sqrt (x * x) = Rabs x.
Proof. apply sqrt_Rsqr_abs. Qed.

Lemma arctan2_cs y x : let r := sqrt (x * x + y * y) in
  r * cos (arctan2 y x) = x /\ r * sin (arctan2 y x) = y.
Proof.
  unfold arctan2. destruct (Rltb 0 x) eqn:C1; Rb; [now apply atan_tan_cs|].
  destruct (Rltb x 0) eqn:C2; Rb.
  - pose proof (atan_tan_cs (-y) (-x) ltac:(lra)) as [A B].
    replace (- y / - x) with (y / x) in * by (field; lra).
    replace (-x * -x + -y * -y) with (x * x + y * y) in * by ring.
    destruct (Rleb 0 y).
    + rewrite neg_cos, neg_sin. cbn zeta in *. lra.
    + replace (atan (y/x) - PI) with (- (PI - atan (y/x))) by ring.
      rewrite cos_neg, sin_antisym. rewrite Rtrigo_facts.cos_pi_minus, Rtrigo_facts.sin_pi_minus.
      cbn zeta in *. lra.
  - assert (x = 0) by lra. subst x. replace (0 * 0 + y * y) with (y * y) by ring.
    rewrite sqrt_sq_abs. cbn zeta.
    destruct (Rltb 0 y) eqn:C3; Rb; [rewrite cos_PI2, sin_PI2, Rabs_right by lra; lra|].
    destruct (Rltb y 0) eqn:C4; Rb.
    + rewrite cos_neg, sin_antisym, cos_PI2, sin_PI2, Rabs_left by lra; lra.
    + assert (y = 0) by lra. subst. rewrite Rabs_R0, cos_0, sin_0. lra.
Qed.

Lemma arctan2_range y x : - PI < arctan2 y x <= PI.
Proof.
  pose proof PI_RGT_0. unfold arctan2.
  destruct (Rltb 0 x) eqn:C1; Rb.
  { pose proof (atan_bound (y/x)). lra. }
  destruct (Rltb x 0) eqn:C2; Rb; [|Rcase; lra].
  pose proof (atan_bound (y/x)) as B.
  destruct (Rleb 0 y) eqn:C3; Rb.
  - assert (y / x <= 0).
    { unfold Rdiv. assert (/ x < 0) by (apply Rinv_lt_0_compat; auto). nra. }
    assert (atan (y/x) <= 0).
    { destruct (Rle_lt_or_eq_dec _ _ H0) as [L|L].
      - left. rewrite <- atan_0. now apply atan_increasing.
      - rewrite L, atan_0. lra. }
    lra.
  - assert (0 < y / x).
    { unfold Rdiv. assert (/ x < 0) by (apply Rinv_lt_0_compat; auto). nra. }
    assert (0 < atan (y/x)) by (rewrite <- atan_0; now apply atan_increasing).
    lra.
Qed.

Lemma spherical_phi_range v : 0 < spherical_phi v <= 2 * PI.
Proof.
  pose proof PI_RGT_0. unfold spherical_phi. pose proof (arctan2_range (vy v) (vx v)).
  cbn zeta. Rcase; lra.
Qed.


Lemma cos_2pi x : cos (x + 2 * PI) = cos x.
Proof. replace (x + 2 * PI) with (x + 2 * INR 1 * PI) by (cbn; ring). apply cos_period. Qed.
Lemma sin_2pi x : sin (x + 2 * PI) = sin x.
Proof. replace (x + 2 * PI) with (x + 2 * INR 1 * PI) by (cbn; ring). apply sin_period. Qed.

Lemma spherical_phi_cs v :
  cos (spherical_phi v) = cos (arctan2 (vy v) (vx v)) /\
  sin (spherical_phi v) = sin (arctan2 (vy v) (vx v)).
Proof.
  unfold spherical_phi. cbn zeta. destruct (Rltb 0 _); auto using cos_2pi, sin_2pi.
Qed.

Lemma spherical_round_trip v : unit v ->
  spherical_direction (sin (spherical_theta v)) (cos (spherical_theta v)) (spherical_phi v) = v.
Proof.
  intros U. unfold unit in U.
  assert (Z : -1 <= vz v <= 1) by nra.
  unfold spherical_theta. rewrite clip_id by lra.
  unfold spherical_direction. destruct (spherical_phi_cs v) as [-> ->].
  rewrite sin_acos, cos_acos by lra.
  pose proof (arctan2_cs (vy v) (vx v)) as [A B]. cbn zeta in *.
  assert (E : 1 - (vz v)² = vx v * vx v + vy v * vy v) by (unfold Rsqr; lra).
  rewrite E. apply V3_eq; cbn; auto.
Qed.

Lemma spherical_theta_range v : 0 <= spherical_theta v <= PI.
Proof. unfold spherical_theta. apply acos_bound. Qed.

(** ** Findings *)
Lemma copy_empty_witness :
  exists p, ~ in_box bbox_empty p /\ in_box (from_bbox bbox_empty) p.
Proof.
  exists vzero. split; [|apply from_bbox_empty].
  intros (H&_). discriminate H.
Qed.

Lemma bbox_ne_self_iff lo hi : bbox_ne (fbox lo hi) (fbox lo hi) = true <-> lo <> hi.
Proof.
  unfold bbox_ne, arr_eq, fbox; cbn. rewrite orb_diag, negb_true_iff.
  split.
  - intros H ->. destruct hi as [x y z]; cbn in H.
    assert (Q : forall a, Reqb a a = true) by (intros; now apply Reqb_true).
    rewrite !Q in H. discriminate.
  - intros H. destruct (Reqb (vx lo) (vx hi)) eqn:A; [|reflexivity].
    destruct (Reqb (vy lo) (vy hi)) eqn:B; [|reflexivity].
    destruct (Reqb (vz lo) (vz hi)) eqn:C; [|reflexivity].
    Rb. exfalso; apply H. now apply V3_eq.
Qed.
Lemma bbox_eq_iff lo hi lo' hi' : bbox_eq (fbox lo hi) (fbox lo' hi') = true <-> lo = lo' /\ hi = hi'.
Proof.
  unfold bbox_eq, arr_eq, fbox; cbn. rewrite !andb_true_iff, !Reqb_true.
  split; [intros H; split; apply V3_eq; tauto|intros [-> ->]; tauto].
Qed.

(** A ray with direction (-0.0, 0, 1) whose origin lies on the face plane x = 0 of the unit box:
    every t in [0,1] is inside, yet the test reports a miss. *)
Definition negzero_ray : ray :=
  mkRay (mkV 0 (/2) 0) (mkV 0 0 1) (mkV true false false) (Fin 0) PInf 0%Z 0.
Lemma negzero_miss :
  bbox_intersect_p vzero (mkV 1 1 1) negzero_ray = None /\
  between vzero (ray_at negzero_ray (/2)) (mkV 1 1 1).
Proof.
  split.
  - unfold bbox_intersect_p, negzero_ray, edivz; cbn.
    assert (A : Reqb 0 0 = true) by (now apply Reqb_true). rewrite !A.
    assert (Reqb (0 - 0) 0 = true) as -> by (apply Reqb_true; lra).
    assert (Reqb (1 - 0) 0 = false) as -> by (apply Reqb_false; lra).
    assert (Rltb 0 (1 - 0) = true) as -> by (apply Rltb_true; lra). reflexivity.
  - unfold between, vle, ray_at, negzero_ray, vadd, vscale; cbn. lra.
Qed.

Lemma lerp_offset lo hi p : vx lo < vx hi -> vy lo < vy hi -> vz lo < vz hi ->
  let o := bbox_offset lo hi p in bbox_lerp lo hi (vx o) (vy o) (vz o) = p.
Proof.
  intros. unfold o, bbox_offset, bbox_lerp, lerp; cbn. apply V3_eq; cbn; field; lra.
Qed.
Lemma offset_lerp lo hi a b c : vx lo < vx hi -> vy lo < vy hi -> vz lo < vz hi ->
  bbox_offset lo hi (bbox_lerp lo hi a b c) = mkV a b c.
Proof.
  intros. unfold bbox_offset, bbox_lerp, lerp; cbn. apply V3_eq; cbn; field; lra.
Qed.
Lemma lerp_in_box lo hi a b c : vle lo hi -> 0 <= a <= 1 -> 0 <= b <= 1 -> 0 <= c <= 1 ->
  between lo (bbox_lerp lo hi a b c) hi.
Proof.
  intros (?&?&?) A B C. unfold between, vle, bbox_lerp; cbn.
  pose proof (lerp_range a _ _ A H). pose proof (lerp_range b _ _ B H0).
  pose proof (lerp_range c _ _ C H1). tauto.
Qed.

Lemma box_union_main (l : list geom) : Forall geom_ok l ->
  let b := accumulate bbox_empty l in
  Forall (covers b) l /\
  (forall c, box_ok c -> Forall (covers c) l -> box_le b c) /\
  (forall p, In (GP (vmap Fin p)) l -> in_box b p) /\
  (forall c p, In (GB c) l -> in_box c p -> in_box b p) /\
  (forall l', Forall geom_ok l' -> (forall g, In g l <-> In g l') -> accumulate bbox_empty l' = b).
Proof.
  intros Hl b.
  assert (Hb : Forall (covers b) l) by (apply accumulate_covers; auto using empty_ok).
  split; [exact Hb|]. split; [|split; [|split]].
  - intros c Hc Hcov. apply accumulate_lub; auto using empty_ok, empty_le.
  - intros p Hp. apply le3_Fin_in. rewrite Forall_forall in Hb. auto.
  - intros c p Hc Hp. rewrite Forall_forall in Hb. specialize (Hb _ Hc). cbn in Hb.
    eapply box_le_in; eauto.
  - intros l' Hl' Hin. symmetry. now apply accumulate_set_ext.
Qed.
Lemma expand_in lo hi d p : 0 <= d ->
  between lo p hi -> forall q, Rabs (vx q - vx p) <= d -> Rabs (vy q - vy p) <= d ->
  Rabs (vz q - vz p) <= d -> inside (expand (fbox lo hi) d) q = true.
Proof.
  intros Hd ((?&?&?)&(?&?&?)) q A B C.
  apply inside_in. rewrite expand_fbox, in_fbox. unfold between, vle; cbn.
  assert (Q : forall x y, Rabs (x - y) <= d -> y - d <= x <= y + d).
  { intros x y H5. unfold Rabs in H5. destruct (Rcase_abs (x - y)); lra. }
  apply Q in A, B, C. lra.
Qed.
Lemma measures_main lo hi lo' hi' : vle lo hi -> vle lo' lo -> vle hi hi' ->
  exists s v s' v', surface_area (fbox lo hi) = Fin s /\ volume (fbox lo hi) = Fin v /\
    surface_area (fbox lo' hi') = Fin s' /\ volume (fbox lo' hi') = Fin v' /\
    0 <= s <= s' /\ 0 <= v <= v'.
Proof.
  intros. do 4 eexists. rewrite !surface_area_fbox, !volume_fbox.
  repeat (split; [reflexivity|]). split; [now apply rsa_mono|now apply vol_mono].
Qed.

Lemma negzero_hit_missed :
  exists lo hi r t, vle lo hi /\ rmint r = Fin 0 /\ rmaxt r = PInf /\ 0 <= t /\
    between lo (ray_at r t) hi /\ bbox_intersect_p lo hi r = None.
Proof.
  exists vzero, (mkV 1 1 1), negzero_ray, (/2). destruct negzero_miss as [A B].
  unfold vle; cbn. repeat split; auto; try lra; apply B.
Qed.
