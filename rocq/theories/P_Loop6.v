(** Levels, edge counts, hulls, affine maps, limit positions. *)
From Coq Require Import Reals Lra List Bool Arith Lia Relations Permutation.
From Verif Require Import Base M_Loop S_Loop P_Loop1 P_Loop2 P_Loop3 P_Loop4 P_Loop5.
Import ListNotations.

(** ** Edges *)
Lemma slots_len n : length (slots n) = (3 * n)%nat.
Proof.
  unfold slots.
  assert (X : forall n b, length (flat_map (fun F : nat => [(F, k0); (F, k1); (F, k2)]) (seq b n)) = (3 * n)%nat).
  { clear n. induction n as [|n IH]; intros b; [reflexivity|]. cbn [seq flat_map]. rewrite app_length, IH. cbn [length]. lia. }
  apply X.
Qed.
Lemma slots_nodup n : NoDup (slots n).
Proof.
  unfold slots.
  assert (Y : forall n b, NoDup (flat_map (fun F : nat => [(F, k0); (F, k1); (F, k2)]) (seq b n))); [|apply Y].
  clear n. induction n as [|n IH]; intros b; cbn [seq flat_map]; [constructor|].
  assert (X : forall k, ~ In (b, k) (flat_map (fun F => [(F, k0); (F, k1); (F, k2)]) (seq (S b) n))).
  { intros k HIn. apply in_flat_map in HIn as (F & HF & HH). apply in_seq in HF. destruct HH as [H|[H|[H|[]]]]; injection H as -> _; lia. }
  cbn [app]. repeat (constructor; [cbn [In]; intros H; repeat destruct H as [H|H]; try congruence; now apply X in H|]). apply IH.
Qed.
Lemma ekey_lt a b : (a < b)%nat -> ekey a b = (a, b).
Proof. intros H. unfold ekey. destruct (Nat.ltb_spec a b); [reflexivity|lia]. Qed.
Lemma ekey_gt a b : (a < b)%nat -> ekey b a = (a, b).
Proof. intros H. unfold ekey. destruct (Nat.ltb_spec b a); [lia|reflexivity]. Qed.
Lemma ekey_order a b c d : a <> b -> ekey a b = (c, d) -> (c < d)%nat /\ ((a = c /\ b = d) \/ (a = d /\ b = c)).
Proof. intros NE. unfold ekey. destruct (Nat.ltb_spec a b); intros Q; injection Q as <- <-; split; auto; lia. Qed.
Lemma linked_slot ts a b : linked ts a b -> exists F k, (F < length ts)%nat /\ ((a = tri_at ts F k /\ b = tri_at ts F (NEXT k)) \/ (b = tri_at ts F k /\ a = tri_at ts F (NEXT k))).
Proof. intros (F & [(HF & k & A & B)|(HF & k & A & B)]); exists F, k; auto. Qed.
Lemma slot_linked ts F k : (F < length ts)%nat -> linked ts (tri_at ts F k) (tri_at ts F (NEXT k)).
Proof. intros H. exists F. left. now apply dedge_mk. Qed.
Lemma linked_sym ts a b : linked ts a b -> linked ts b a.
Proof. intros (F & H). exists F. tauto. Qed.
Lemma edge_count_unique ts a b : edge_count ts a -> edge_count ts b -> a = b.
Proof.
  intros (es & A & <- & C) (es' & A' & <- & C'). apply Permutation_length, NoDup_Permutation; auto.
  intros [x y]. rewrite C, C'. tauto.
Qed.
Lemma edges_first ts nv : surface ts nv -> edge_count ts (length (first_slots ts)).
Proof.
  intros SF. destruct (first_slots_spec ts) as (A & B & C). exists (map fst (first_slots ts)). split; [exact A|].
  split; [apply map_length|]. intros a b. split.
  - intros HIn. apply in_map_iff in HIn as (x & Q & Hx). destruct (B x Hx) as [Q1 HF]. destruct x as [e [F k]]. cbn [fst snd] in *.
    rewrite Q1 in Q. unfold slot_key in Q; cbn [fst snd] in Q.
    apply ekey_order in Q as [L [[<- <-]|[<- <-]]].
    + split; [exact L|now apply slot_linked]. + split; [exact L|]. apply linked_sym. now apply slot_linked.
    + intros Z. apply (sf_inj ts nv SF) in Z; auto. now destruct k.
  - intros [L H]. apply linked_slot in H as (F & k & HF & [[-> ->]|[-> ->]]).
    + rewrite <- ekey_lt by exact L. exact (C F k HF).
    + rewrite <- ekey_gt by exact L. exact (C F k HF).
Qed.
Section NewEdges.
Variables (m : mesh) (evens odds : list vert).
Let ts := tris m.
Let nv := length (mV m).
Hypothesis SF : surface ts nv.
Hypothesis OK : mesh_ok m.
Let d := first_slots ts.
Let m' := mkMesh (newF m) (evens ++ odds).
Notation o := (odd_id m).
Definition oe (e : (nat * nat) * (nat * c3)) := o (fst (snd e)) (snd (snd e)).
Definition es' := map (fun e => (fst (fst e), oe e)) d ++ map (fun e => (snd (fst e), oe e)) d ++
  map (fun s => ekey (o (fst s) (snd s)) (o (fst s) (NEXT (snd s)))) (slots (length ts)).
Lemma d_facts e : In e d -> (fst (snd e) < length ts)%nat /\ fst e = slot_key ts (snd e) /\ (nv <= oe e)%nat /\
  (fst (fst e) < snd (fst e))%nat /\ (snd (fst e) < nv)%nat.
Proof.
  intros HIn. destruct (first_slots_spec ts) as (_ & B & _). destruct (B e HIn) as [Q HF]. split; [exact HF|]. split; [exact Q|].
  split; [apply (O1 m _ _ HF)|]. destruct e as [[a b] [F k]]; cbn [fst snd] in *. unfold slot_key in Q; cbn [fst snd] in Q. symmetry in Q.
  apply ekey_order in Q as [L Q]; [|intros Z; apply (sf_inj ts nv SF) in Z; auto; now destruct k].
  split; [exact L|]. pose proof (sf_range ts nv SF F k HF). pose proof (sf_range ts nv SF F (NEXT k) HF). lia.
Qed.
Lemma oe_inj e e' : In e d -> In e' d -> oe e = oe e' -> e = e'.
Proof.
  intros H H' Q. destruct (d_facts e H) as (A1 & A2 & _), (d_facts e' H') as (B1 & B2 & _).
  destruct (first_slots_spec ts) as (ND & _ & _). fold d in ND.
  assert (KQ : fst e = fst e'). { rewrite A2, B2. destruct e as [? [? ?]], e' as [? [? ?]]. apply (O2 m) in Q; auto. }
  clear - ND H H' KQ. induction d as [|x l IH]; [destruct H|]. cbn in ND. inversion ND as [|? ? N ND']; subst.
  destruct H as [->|H], H' as [->|H']; auto.
  - exfalso. apply N. rewrite KQ. now apply in_map. - exfalso. apply N. rewrite <- KQ. now apply in_map.
Qed.
Lemma es'_nodup : NoDup es'.
Proof.
  destruct (first_slots_spec ts) as (ND & _ & _). assert (NDd : NoDup d) by (apply NoDup_map_inv in ND; exact ND).
  assert (AP : forall (A : Type) (l1 l2 : list A), NoDup l1 -> NoDup l2 -> (forall x, In x l1 -> ~ In x l2) -> NoDup (l1 ++ l2)).
  { clear. intros A l1 l2 N1 N2 H. induction l1 as [|x l1 IH]; auto. inversion N1; subst. cbn. constructor.
    - intros HIn. apply in_app_or in HIn as [|HIn]; auto. apply (H x); auto. now left.
    - apply IH; auto. intros y Hy. apply H. now right. }
  unfold es'. apply AP; [|apply AP|].
  - apply NoDup_map_inj; [exact NDd|]. intros x y Hx Hy Q. injection Q as _ Q. now apply oe_inj.
  - apply NoDup_map_inj; [exact NDd|]. intros x y Hx Hy Q. injection Q as _ Q. now apply oe_inj.
  - apply NoDup_map_inj; [apply slots_nodup|]. intros [F k] [G j] Hx Hy Q. apply slots_in in Hx, Hy. cbn [fst snd] in *.
    apply ekey_eq in Q as [[Q1 Q2]|[Q1 Q2]].
    + assert (F = G) by (apply (share2 ts nv o SF (O2 m) F G k (NEXT k) j (NEXT j)); auto; now destruct k). subst G.
      apply (o_inj ts nv o SF (O2 m)) in Q1; auto. now subst.
    + assert (F = G) by (apply (share2 ts nv o SF (O2 m) F G k (NEXT k) (NEXT j) j); auto; now destruct k). subst G.
      apply (o_inj ts nv o SF (O2 m)) in Q1, Q2; auto. exfalso; destruct k, j; discriminate.
  - intros [x y] Hx Hy. apply in_map_iff in Hx as (e & Q & He), Hy as (s & Q' & Hs). injection Q as <- <-. apply slots_in in Hs.
    destruct (d_facts e He) as (_ & _ & _ & A & B). pose proof (O1 m (fst s) (snd s) Hs). pose proof (O1 m (fst s) (NEXT (snd s)) Hs).
    unfold ekey in Q'. fold nv in H, H0. destruct (Nat.ltb _ _); injection Q' as Q1 Q2; lia.
  - intros [x y] Hx Hy. apply in_map_iff in Hx as (e & Q & He). injection Q as <- <-. destruct (d_facts e He) as (_ & _ & _ & A & B).
    apply in_app_or in Hy as [Hy|Hy].
    + apply in_map_iff in Hy as (e' & Q & He'). injection Q as Q1 Q2. apply oe_inj in Q2; auto. subst. lia.
    + apply in_map_iff in Hy as (s & Q' & Hs). apply slots_in in Hs.
      pose proof (O1 m (fst s) (snd s) Hs). pose proof (O1 m (fst s) (NEXT (snd s)) Hs).
      unfold ekey in Q'. fold nv in H, H0. destruct (Nat.ltb _ _); injection Q' as Q1 Q2; lia.
Qed.
Lemma slot_entry F k : (F < length ts)%nat -> exists e, In e d /\ fst e = slot_key ts (F, k) /\ oe e = o F k.
Proof.
  intros HF. destruct (first_slots_spec ts) as (_ & B & C). pose proof (C F k HF) as HIn. apply in_map_iff in HIn as (e & Q & He).
  exists e. split; [exact He|]. split; [exact Q|]. destruct (B e He) as [Q1 Q2]. unfold oe. apply (O2 m); auto.
  fold ts. rewrite <- Q, Q1. now destruct (snd e).
Qed.
Lemma es'_spec x y : In (x, y) es' <-> (x < y)%nat /\ linked (tris m') x y.
Proof.
  assert (DDm : forall a b H, dedge (tris m') a b H <-> de ts o a b H) by (intros; apply (DD m _ (le_n _))).
  unfold es'. split.
  - intros HIn. apply in_app_or in HIn as [HIn|HIn]; [|apply in_app_or in HIn as [HIn|HIn]].
    1,2: apply in_map_iff in HIn as (e & Q & He); injection Q as <- <-; destruct (d_facts e He) as (A & B & C & D & F0); (split; [lia|]);
      destruct e as [[a b] [F k]]; cbn [fst snd] in *; unfold oe; cbn [fst snd]; unfold slot_key in B; cbn [fst snd] in B; symmetry in B;
      apply ekey_order in B as [_ B]; [|intros Z; apply (sf_inj ts nv SF) in Z; auto; now destruct k].
    + destruct B as [[<- <-]|[<- <-]].
      * exists (4 * F + cnum k)%nat. left. apply DDm. now constructor.
      * exists (4 * F + cnum (NEXT k))%nat. right. apply DDm. pose proof (de_in ts o F (NEXT k) A) as X. now rewrite prev_next in X.
    + destruct B as [[<- <-]|[<- <-]].
      * exists (4 * F + cnum (NEXT k))%nat. right. apply DDm. pose proof (de_in ts o F (NEXT k) A) as X. now rewrite prev_next in X.
      * exists (4 * F + cnum k)%nat. left. apply DDm. now constructor.
    + apply in_map_iff in HIn as ([F k] & Q & Hs). apply slots_in in Hs. cbn [fst snd] in *.
      apply ekey_order in Q as [L Q]; [|intros Z; apply (o_inj ts nv o SF (O2 m)) in Z; auto; now destruct k]. split; [exact L|].
      assert (X : linked (tris m') (o F k) (o F (NEXT k))) by (exists (4 * F + 3)%nat; left; apply DDm; now constructor).
      destruct Q as [[<- <-]|[<- <-]]; [exact X|now apply linked_sym].
  - intros [L (H & X)].
    assert (GEN : forall a b H, de ts o a b H -> (a < b)%nat \/ (b < a)%nat -> In (if Nat.ltb a b then (a, b) else (b, a)) es').
    { clear - SF OK. intros a b H D L.
      assert (ODD : forall F j k, (F < length ts)%nat -> j <> k -> In (ekey (o F j) (o F k)) es').
      { intros F j k HF NE; unfold es'. apply in_or_app. right. apply in_or_app. right. apply in_map_iff.
        destruct (corner_cases k j) as [-> |[-> | ->]]; [congruence| |].
        - exists (F, j). split; [reflexivity|now apply slots_in].
        - exists (F, PREV j). cbn [fst snd]. rewrite next_prev. split; [apply ekey_eq; auto|now apply slots_in]. }
      assert (EV : forall F k, (F < length ts)%nat -> In (tri_at ts F k, o F k) es' /\ In (tri_at ts F (NEXT k), o F k) es').
      { intros F k HF. destruct (slot_entry F k HF) as (e & He & Q1 & Q2). destruct (d_facts e He) as (_ & _ & _ & D1 & D2).
        unfold slot_key in Q1; cbn [fst snd] in Q1. rewrite <- Q2. destruct e as [[a' b'] s]; cbn [fst snd] in *. symmetry in Q1.
        apply ekey_order in Q1 as [_ Q1]; [|intros Z; apply (sf_inj ts nv SF) in Z; auto; now destruct k].
        assert (I1 : In (a', oe (a', b', s)) es') by (unfold es'; apply in_or_app; left; apply in_map_iff; exists (a', b', s); auto).
        assert (I2 : In (b', oe (a', b', s)) es') by (unfold es'; apply in_or_app; right; apply in_or_app; left; apply in_map_iff; exists (a', b', s); auto).
        destruct Q1 as [[-> ->]|[-> ->]]; auto. }
      destruct D as [F k HF|F k HF|F k HF|F k HF].
      - pose proof (sf_range ts nv SF F k HF). pose proof (O1 m F k HF). fold nv in H0.
        destruct (Nat.ltb_spec (tri_at ts F k) (o F k)); [now apply EV|lia].
      - pose proof (sf_range ts nv SF F k HF). pose proof (O1 m F (PREV k) HF). fold nv in H0.
        destruct (Nat.ltb_spec (o F (PREV k)) (tri_at ts F k)); [lia|]. destruct (EV F (PREV k) HF) as [_ Y]. now rewrite next_prev in Y.
      - apply (ODD F k (PREV k) HF). now destruct k.
      - apply (ODD F k (NEXT k) HF). now destruct k. }
    destruct X as [X|X]; apply DDm in X.
    + pose proof (GEN _ _ _ X (or_introl L)) as Y. destruct (Nat.ltb_spec x y); [exact Y|lia].
    + pose proof (GEN _ _ _ X (or_intror L)) as Y. destruct (Nat.ltb_spec y x); [lia|exact Y].
Qed.
Lemma edges_new : edge_count (tris m') (2 * length d + 3 * length ts)%nat.
Proof.
  exists es'. split; [exact es'_nodup|]. split; [|exact es'_spec]. unfold es'. rewrite !app_length, !map_length, slots_len. lia.
Qed.
End NewEdges.
