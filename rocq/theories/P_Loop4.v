(** One level of subdivision: it succeeds, and the new references are right. *)
From Coq Require Import Reals List Bool Arith Lia Relations Permutation.
From Verif Require Import Base M_Loop S_Loop P_Loop1 P_Loop2 P_Loop3.
Import ListNotations.

Lemma key_eqb_eq x y : key_eqb x y = true <-> x = y.
Proof.
  destruct x as [a b], y as [c d]. unfold key_eqb; cbn. rewrite andb_true_iff, !Nat.eqb_eq. split; [intros [-> ->]; auto|intros Q; injection Q; auto].
Qed.
Lemma key_eqb_refl x : key_eqb x x = true. Proof. now apply key_eqb_eq. Qed.
Lemma slots_in n s : In s (slots n) <-> (fst s < n)%nat.
Proof.
  unfold slots. rewrite in_flat_map. split.
  - intros (F & HF & H). apply in_seq in HF. destruct H as [<-|[<-|[<-|[]]]]; cbn; lia.
  - intros H. exists (fst s). split; [apply in_seq; lia|]. destruct s as [F []]; cbn; auto.
Qed.
Lemma lookup_none {A} (d : list ((nat * nat) * A)) e : lookup d e = None <-> ~ In e (map fst d).
Proof.
  unfold lookup. split.
  - destruct (find _ d) as [x|] eqn:Q; [discriminate|]. intros _ HIn. apply in_map_iff in HIn as (y & <- & Hy).
    pose proof (find_none _ _ Q y Hy) as X. cbn in X. rewrite key_eqb_refl in X. discriminate.
  - intros H. destruct (find _ d) as [x|] eqn:Q; [|reflexivity]. exfalso. apply find_some in Q as [Q1 Q2]. apply key_eqb_eq in Q2. subst e.
    apply H. now apply in_map.
Qed.
Lemma lookup_some {A} (d : list ((nat * nat) * A)) e a : lookup d e = Some a -> In (e, a) d.
Proof.
  unfold lookup. destruct (find _ d) as [[x y]|] eqn:Q; [|discriminate]. intros H. injection H as <-. apply find_some in Q as [Q1 Q2].
  apply key_eqb_eq in Q2. cbn in *. now subst.
Qed.

Section FS.
Variable ts : list (V3 nat).
Definition fs_step (d : list ((nat * nat) * (nat * c3))) s := match lookup d (slot_key ts s) with Some _ => d | None => d ++ [(slot_key ts s, s)] end.
Lemma fs_fold l : forall d, NoDup (map fst d) -> (forall x, In x d -> fst x = slot_key ts (snd x) /\ (fst (snd x) < length ts)%nat) ->
  (forall s, In s l -> (fst s < length ts)%nat) ->
  let d' := fold_left fs_step l d in
  NoDup (map fst d') /\ (forall x, In x d' -> fst x = slot_key ts (snd x) /\ (fst (snd x) < length ts)%nat) /\
  (forall e, In e (map fst d) -> In e (map fst d')) /\ (forall s, In s l -> In (slot_key ts s) (map fst d')).
Proof.
  induction l as [|s l IH]; intros d ND OK LT; cbn.
  - repeat split; auto; try (now apply OK). intros s [].
  - assert (STEP : NoDup (map fst (fs_step d s)) /\ (forall x, In x (fs_step d s) -> fst x = slot_key ts (snd x) /\ (fst (snd x) < length ts)%nat) /\
      (forall e, In e (map fst d) -> In e (map fst (fs_step d s))) /\ In (slot_key ts s) (map fst (fs_step d s))).
    { unfold fs_step. destruct (lookup d (slot_key ts s)) as [y|] eqn:Q.
      - repeat split; auto; try (now apply OK). apply lookup_some in Q. apply (in_map fst) in Q. exact Q.
      - apply lookup_none in Q. rewrite map_app. cbn. split.
        + apply (Permutation_NoDup (Permutation_cons_append _ _)). now constructor.
        + split; [|split].
          * intros x Hx. apply in_app_or in Hx as [Hx|[<-|[]]]; [now apply OK|]. cbn. split; [reflexivity|]. apply LT. now left.
          * intros e He. apply in_or_app. now left.
          * apply in_or_app. right. now left. }
    destruct STEP as (A & B & C & E1). destruct (IH (fs_step d s) A B) as (A' & B' & C' & E'); [intros; apply LT; now right|].
    repeat split; auto; try (now apply B'). intros s' [<-|Hs']; auto.
Qed.
Lemma first_slots_spec : let d := first_slots ts in
  NoDup (map fst d) /\ (forall x, In x d -> fst x = slot_key ts (snd x) /\ (fst (snd x) < length ts)%nat) /\
  (forall F k, (F < length ts)%nat -> In (slot_key ts (F, k)) (map fst d)).
Proof.
  destruct (fs_fold (slots (length ts)) []) as (A & B & _ & C); [constructor|intros ? []|intros s; apply slots_in|].
  split; [exact A|]. split; [exact B|]. intros F k H. apply C. now apply slots_in.
Qed.
End FS.

Lemma index_in e l : In e l -> (index_of e l < length l)%nat /\ nth (index_of e l) l (0, 0)%nat = e.
Proof.
  induction l as [|x l IH]; intros H; [destruct H|]. cbn. destruct (key_eqb x e) eqn:Q.
  - apply key_eqb_eq in Q. subst. split; [lia|reflexivity].
  - destruct H as [->|H]; [rewrite key_eqb_refl in Q; discriminate|]. destruct (IH H) as [A B]. split; [lia|exact B].
Qed.
Lemma index_nth l i : NoDup l -> (i < length l)%nat -> index_of (nth i l (0, 0)%nat) l = i.
Proof.
  revert i. induction l as [|x l IH]; intros i ND L; cbn in L; [lia|]. inversion ND as [|? ? N ND']; subst. destruct i as [|i]; cbn.
  - now rewrite key_eqb_refl.
  - destruct (key_eqb x (nth i l (0, 0)%nat)) eqn:Q.
    + apply key_eqb_eq in Q. exfalso. apply N. rewrite Q. apply nth_In. lia.
    + f_equal. apply IH; auto. lia.
Qed.
Lemma index_inj a b l : In a l -> In b l -> index_of a l = index_of b l -> a = b.
Proof. intros A B Q. destruct (index_in a l A) as [_ <-]. destruct (index_in b l B) as [_ <-]. now rewrite Q. Qed.

(** concatenation of blocks of four *)
Lemma concat4 {A} (g : nat -> list A) (dflt : A) : (forall F, length (g F) = 4%nat) -> forall n b,
  length (concat (map g (seq b n))) = (4 * n)%nat /\
  forall F r, (F < n)%nat -> (r < 4)%nat -> nth (4 * F + r) (concat (map g (seq b n))) dflt = nth r (g (b + F)%nat) dflt.
Proof.
  intros H4 n. induction n as [|n IH]; intros b; cbn [seq map concat]; [split; [reflexivity|intros; lia]|].
  destruct (IH (S b)) as [LA NA]. split; [rewrite app_length, H4, LA; lia|].
  intros [|F] r HF Hr.
  - rewrite app_nth1 by (rewrite H4; lia). now rewrite Nat.mul_0_r, Nat.add_0_r.
  - rewrite app_nth2 by (rewrite H4; lia). rewrite H4. replace (4 * S F + r - 4)%nat with (4 * F + r)%nat by lia.
    rewrite NA by lia. f_equal. f_equal. lia.
Qed.

Section Step.
Variable m : mesh.
Let ts := tris m.
Let nv := length (mV m).
Let d := first_slots ts.
Let nv' := (nv + length d)%nat.
Hypothesis SF : surface ts nv.
Hypothesis OK : mesh_ok m.
Notation T := (tri_at ts).
Notation n := (length ts).
Let o F k := odd_id m F k.

Lemma NB : forall F k G, (F < length ts)%nat ->
  (at3 (ff (getF m F)) k = Some G <-> dedge ts (tri_at ts F (NEXT k)) (tri_at ts F k) G).
Proof. apply OK. Qed.
Lemma ST : forall v, (v < nv)%nat -> touches ts (vstart (getV m v)) v. Proof. apply OK. Qed.
Lemma BD : forall v, (v < nv)%nat -> (vbnd (getV m v) = true <-> on_border ts v). Proof. apply OK. Qed.

Lemma o_range F k : (F < n)%nat -> (nv <= o F k < nv')%nat.
Proof.
  intros HF. unfold o, odd_id, nv'. fold ts nv. destruct (first_slots_spec ts) as (_ & _ & C).
  destruct (index_in _ _ (C F k HF)) as [A _]. rewrite map_length in A. fold d in A |- *. lia.
Qed.
Lemma o_key F k G j : (F < n)%nat -> (G < n)%nat -> (o F k = o G j <-> slot_key ts (F, k) = slot_key ts (G, j)).
Proof.
  intros HF HG. unfold o, odd_id. fold ts nv. destruct (first_slots_spec ts) as (_ & _ & C). split.
  - intros Q. apply (index_inj _ _ (map fst (first_slots ts))); auto. lia.
  - intros ->. reflexivity.
Qed.
Lemma o_nth i : (i < length d)%nat -> let x := nth i d ((0,0), (0, k0))%nat in
  (fst (snd x) < n)%nat /\ fst x = slot_key ts (snd x) /\ o (fst (snd x)) (snd (snd x)) = (nv + i)%nat.
Proof.
  intros Hi x. destruct (first_slots_spec ts) as (A & B & C). fold d in A, B, C.
  assert (HIn : In x d) by now apply nth_In. destruct (B x HIn) as [Q1 Q2]. split; [exact Q2|]. split; [exact Q1|].
  unfold o, odd_id. fold ts nv d. rewrite <- (surjective_pairing (snd x)), <- Q1. f_equal.
  replace (fst x) with (nth i (map fst d) (0, 0)%nat) by (unfold x; now rewrite <- (map_nth fst)).
  apply index_nth; [exact A|]. now rewrite map_length.
Qed.
Lemma o_surj x : (nv <= x < nv')%nat -> exists F k, (F < n)%nat /\ o F k = x.
Proof.
  intros Hx. destruct (o_nth (x - nv)%nat) as (A & B & C); [unfold nv' in Hx; lia|].
  eexists _, _. split; [exact A|]. rewrite C. lia.
Qed.

(** the children *)
Definition kid (g : option nat) (v : nat) : option nat := match g with None => None | Some G => Some (ch ts v G) end.
Definition corner_pure F k : face :=
  mkF (tab3 (fun j => if c3_eqb j k then T F k else if c3_eqb j (NEXT k) then o F k else o F (PREV k)))
      (tab3 (fun j => if c3_eqb j k then kid (at3 (ff (getF m F)) k) (T F k)
                      else if c3_eqb j (PREV k) then kid (at3 (ff (getF m F)) (PREV k)) (T F k) else Some (4 * F + 3)%nat)).
Lemma child_at_ok F k j : (F < n)%nat -> k = j \/ k = PREV j -> child_at m (at3 (ff (getF m F)) k) (T F j) = ret (kid (at3 (ff (getF m F)) k) (T F j)).
Proof.
  intros HF HK. destruct (at3 (ff (getF m F)) k) as [G|] eqn:Q; [|reflexivity]. cbn [child_at kid]. apply NB in Q; auto.
  assert (TG : touches ts G (T F j)).
  { destruct HK as [->| ->]; [exact (touches_of_dedge_r _ _ _ _ Q)|]. rewrite next_prev in Q. exact (touches_of_dedge_l _ _ _ _ Q). }
  destruct TG as (i & HG & <-). fold ts. rewrite (vnum_ok m SF) by exact HG. cbn [lift rbind]. rewrite (ch_eq ts nv SF) by auto. reflexivity.
Qed.
Lemma corner_child_ok F k : (F < n)%nat -> corner_child m F k = ret (corner_pure F k).
Proof.
  intros HF. unfold corner_child. cbv zeta. rewrite <- !tri_getF. fold ts.
  rewrite child_at_ok by auto. cbn [rbind ret]. rewrite child_at_ok by auto. cbn [rbind ret]. reflexivity.
Qed.
Definition four F := [corner_pure F k0; corner_pure F k1; corner_pure F k2; middle_child m F].
Definition newF := concat (map four (seq 0 n)).
Lemma children_ok : mapR (children m) (seq 0 (length (mF m))) = ret (map four (seq 0 n)).
Proof.
  unfold ts. rewrite tris_len. apply mapR_map. intros F HF. apply in_seq in HF. assert (F < n)%nat by (unfold ts; rewrite tris_len; lia).
  unfold children. rewrite !corner_child_ok by auto. reflexivity.
Qed.
Lemma newF_len : length newF = (4 * n)%nat.
Proof. unfold newF. now apply (concat4 four (mkF (mkV 0 0 0)%nat (mkV None None None))). Qed.

(** the even vertices *)
Lemma ring_ok fuel v : (v < nv)%nat -> (n <= fuel)%nat ->
  exists ring, valence m fuel v = ret (length ring) /\ one_ring m fuel v = ret ring /\ NoDup ring /\
    (forall w, In w ring <-> linked ts v w) /\ length ring = (length (Dv ts v) + if vbnd (getV m v) then 1 else 0)%nat /\
    (vbnd (getV m v) = true -> exists a, hd_error ring = Some a /\ border ts v a /\ border ts (last ring 0%nat) v).
Proof.
  intros Hv FU. pose proof (Dv_len ts v) as LD. destruct (vbnd (getV m v)) eqn:FL.
  - assert (BV : on_border ts v) by now apply BD.
    destruct (border_fan m SF NB ST fuel v Hv ltac:(fold ts; lia) BV FL) as (ring & a & b & A1 & A2 & A3 & A4 & A5 & A6 & A7 & A8 & A9).
    exists ring. rewrite A1, A3. fold ts in A5, A8, A9 |- *. repeat (split; [auto|]). intros _. exists a. rewrite A7. auto.
  - assert (BV : ~ on_border ts v) by (intros X; apply BD in X; auto; congruence).
    destruct (interior_fan m SF NB ST fuel v Hv ltac:(fold ts; lia) BV) as (l & A1 & A2 & A3 & A4 & A5 & A6 & A7).
    exists (map (nvo m v) l). rewrite map_length. split; [unfold valence; rewrite FL, A1; reflexivity|].
    split; [unfold one_ring; rewrite FL, A1; exact A5|]. split; [exact A6|]. split; [exact A7|]. split; [fold ts in A4; lia|discriminate].
Qed.
Lemma degree_ring v ring : NoDup ring -> (forall w, In w ring <-> linked ts v w) -> degree ts v (length ring).
Proof. intros A B. exists ring. auto. Qed.

Open Scope R_scope.
Lemma fold_ring (P0 : vec) b ring : fold_left (fun P w => vadd P (vscale b (posn m w))) ring P0 = vadd P0 (vscale b (vsum (map (posn m) ring))).
Proof.
  revert P0; induction ring as [|w ws IH]; intros P0; cbn; unfold vsum; cbn [fold_right].
  - unfold vadd, vscale, vzero, vmap, vmap2; destruct P0; cbn; f_equal; ring.
  - rewrite IH. fold (vsum (map (posn m) ws)). destruct (vsum (map (posn m) ws)), (posn m w). unfold vadd, vscale, vmap, vmap2; destruct P0; cbn; f_equal; ring.
Qed.
Lemma beta_loop k : beta k = loop_beta k.
Proof. unfold beta, loop_beta. destruct k as [|[|[|[|k]]]]; reflexivity. Qed.
Lemma one_ring_rule fuel v (w : nat -> R) : (v < nv)%nat -> (n <= fuel)%nat ->
  exists r p, valence m fuel v = ret r /\ degree ts v r /\ weight_one_ring m fuel v (w r) = ret p /\ inner_rule ts (posn m) w v p.
Proof.
  intros Hv FU. destruct (ring_ok fuel v Hv FU) as (ring & A & B & C & D & _). exists (length ring).
  eexists. split; [exact A|]. split; [now apply degree_ring|]. split; [unfold weight_one_ring; rewrite A, B; cbn [rbind ret]; rewrite fold_ring; reflexivity|].
  exists ring. auto.
Qed.
Lemma boundary_rule fuel v b : (v < nv)%nat -> (n <= fuel)%nat -> vbnd (getV m v) = true ->
  exists p, weight_boundary m fuel v b = ret p /\ border_rule ts (posn m) b v p.
Proof.
  intros Hv FU FL. destruct (ring_ok fuel v Hv FU) as (ring & A & B & C & D & _ & X). destruct (X FL) as (a & Q & B1 & B2).
  destruct ring as [|r0 ring]; [discriminate|]. injection Q as ->. eexists. split; [unfold weight_boundary; rewrite A, B; cbn [rbind ret]; reflexivity|].
  exists a, (last (a :: ring) 0%nat). auto.
Qed.
Lemma even_ok fuel v : (v < nv)%nat -> (n <= fuel)%nat -> exists y, even_vert m fuel v = ret y /\
  vstart y = ch ts v (vstart (getV m v)) /\ vbnd y = vbnd (getV m v) /\ vreg y = vreg (getV m v) /\
  (if vbnd (getV m v) then border_rule ts (posn m) (1/8) v (vP y) else inner_rule ts (posn m) loop_beta v (vP y)).
Proof.
  intros Hv FU.
  assert (EP : exists p, even_pos m fuel v = ret p /\ (if vbnd (getV m v) then border_rule ts (posn m) (1/8) v p else inner_rule ts (posn m) loop_beta v p)).
  { unfold even_pos. destruct (vbnd (getV m v)) eqn:FL; cbn [negb].
    - now apply boundary_rule.
    - destruct (one_ring_rule fuel v loop_beta Hv FU) as (r & p & A & B & C & D). destruct (vreg (getV m v)) eqn:RG.
      + assert (r = 6)%nat.
        { apply (degree_unique ts v); auto. pose proof (proj2 (proj2 (proj2 OK)) v Hv) as X. rewrite FL in X. now apply X. }
        subst r. exists p. split; [|exact D]. rewrite <- C. f_equal. unfold loop_beta. cbn. field.
      + exists p. split; [|exact D]. rewrite A. cbn [rbind ret]. now rewrite beta_loop. }
  destruct EP as (p & Q & RU). unfold even_vert. rewrite Q. cbn [rbind ret]. destruct (ST v Hv) as (k & HS & TQ).
  eexists. split.
  - rewrite <- TQ at 2. fold ts. rewrite (vnum_ok m SF) by exact HS. cbn [rbind lift]. reflexivity.
  - cbn [vstart vbnd vreg vP]. split; [|auto]. rewrite <- (ch_eq ts nv SF) by exact HS. now rewrite TQ.
Qed.
Lemma ekey_pair a b : ekey (fst (ekey a b)) (snd (ekey a b)) = ekey a b.
Proof. unfold ekey. destruct (Nat.ltb_spec a b); cbn; destruct (Nat.ltb_spec a b), (Nat.ltb_spec b a); try lia; auto; f_equal; lia. Qed.
Lemma other_ok F k a b : (F < n)%nat -> ekey a b = slot_key ts (F, k) -> other_vert (getF m F) a b = Ok (T F (PREV k)).
Proof.
  intros HF Q. unfold slot_key in Q; cbn in Q. apply ekey_eq in Q. unfold other_vert. rewrite <- !tri_getF. fold ts.
  assert (X : forall j i, j <> i -> Nat.eqb (T F j) (T F i) = false).
  { intros j i Hj. apply Nat.eqb_neq. intros Q'. apply (sf_inj ts nv SF) in Q'; auto. }
  destruct Q as [[-> ->]|[-> ->]]; destruct k; cbn [NEXT PREV]; rewrite ?Nat.eqb_refl, ?X by discriminate; reflexivity.
Qed.
Lemma edge_rule_sym P a b p : edge_rule ts P a b p -> edge_rule ts P b a p.
Proof.
  intros [[A ->]|(c & d0 & F & G & A1 & A2 & A3 & A4 & A5 & A6 & ->)].
  - left. split; [tauto|]. unfold vadd, vscale, vmap, vmap2; cbn. f_equal; ring.
  - right. exists d0, c, G, F. repeat (split; [assumption|]). unfold vadd, vscale, vmap, vmap2; cbn. f_equal; ring.
Qed.
Lemma odd_ok x : In x d -> exists y, odd_vert m x = ret y /\
  let F := fst (snd x) in let k := snd (snd x) in
  vstart y = (4 * F + 3)%nat /\ vreg y = true /\
  (vbnd y = true <-> border ts (T F k) (T F (NEXT k)) \/ border ts (T F (NEXT k)) (T F k)) /\
  edge_rule ts (posn m) (T F k) (T F (NEXT k)) (vP y).
Proof.
  intros HIn. destruct (first_slots_spec ts) as (_ & B & _). destruct (B x HIn) as [Q HF]. destruct x as [[a b] [F k]]. cbn [fst snd] in *.
  assert (Q2 : ekey a b = slot_key ts (F, k)).
  { unfold slot_key in *; cbn [fst snd] in *. rewrite <- (ekey_pair (T F k)), <- Q. reflexivity. }
  assert (AB : (a = T F k /\ b = T F (NEXT k)) \/ (a = T F (NEXT k) /\ b = T F k)) by (unfold slot_key in Q2; cbn in Q2; now apply ekey_eq).
  unfold odd_vert. destruct (at3 (ff (getF m F)) k) as [G|] eqn:NQ.
  - apply NB in NQ; auto. pose proof NQ as DG. destruct NQ as (HG & j & A1 & A2).
    assert (Q3 : ekey a b = slot_key ts (G, j)).
    { rewrite Q2. unfold slot_key; cbn. apply ekey_eq. right. auto. }
    rewrite (other_ok F k a b HF Q2), (other_ok G j a b HG Q3). cbn [lift rbind]. eexists. split; [reflexivity|]. cbn [vstart vbnd vreg vP fst snd]. split; [reflexivity|].
    split; [reflexivity|]. split.
    + split; [discriminate|]. intros [[_ X]|[_ X]]; exfalso; apply X; [exists G; exact DG|exists F; now apply dedge_mk].
    + right. exists (T F (PREV k)), (T G (PREV j)), F, G. split; [now apply dedge_mk|].
      split; [rewrite <- next_next; now apply dedge_mk|]. split; [intros Z; apply (sf_inj ts nv SF) in Z; auto; now destruct k|].
      split; [exact DG|]. split; [rewrite <- A2, <- next_next; now apply dedge_mk|].
      split; [rewrite <- A1; intros Z; apply (sf_inj ts nv SF) in Z; auto; now destruct j|].
      destruct AB as [[-> ->]|[-> ->]]; unfold vadd, vscale, vmap, vmap2; cbn; f_equal; ring.
  - eexists. split; [reflexivity|]. cbn [vstart vbnd vreg vP fst snd]. split; [reflexivity|]. split; [reflexivity|].
    assert (BB : border ts (T F k) (T F (NEXT k))) by now apply (none_border m NB).
    split; [tauto|]. left. split; [tauto|]. destruct AB as [[-> ->]|[-> ->]]; unfold vadd, vscale, vmap, vmap2; cbn; f_equal; ring.
Qed.
End Step.
