(** The constructor: from index triples to the reference structure. *)
From Coq Require Import Reals List Bool Arith Lia Relations.
From Verif Require Import Base M_Geometry M_Loop S_Loop P_Loop1 P_Loop2 P_Loop3 P_Loop4 P_Loop5 P_Loop6 P_Loop8.
Import ListNotations.

Section Link.
Variables (ts : list (V3 nat)) (nv : nat).
Hypothesis SF : surface ts nv.
Notation T := (tri_at ts).
Notation n := (length ts).
(** the edge met the other way round *)
Definition rev2 (s s' : nat * c3) : Prop := T (fst s') (snd s') = T (fst s) (NEXT (snd s)) /\ T (fst s') (NEXT (snd s')) = T (fst s) (snd s).
Definition ok (s : nat * c3) := (fst s < n)%nat.
Lemma rev2_sym s s' : rev2 s s' -> rev2 s' s. Proof. unfold rev2. intros [A B]. split; congruence. Qed.
Lemma same_dir s s' : ok s -> ok s' -> T (fst s) (snd s) = T (fst s') (snd s') -> T (fst s) (NEXT (snd s)) = T (fst s') (NEXT (snd s')) -> s = s'.
Proof.
  intros A B Q1 Q2. destruct s as [F k], s' as [G j]; unfold ok in *; cbn [fst snd] in *.
  assert (F = G) by (apply (sf_orient ts nv SF (T F k) (T F (NEXT k))); [now apply dedge_mk|rewrite Q1, Q2; now apply dedge_mk]). subst G.
  apply (sf_inj ts nv SF) in Q1; auto. now subst.
Qed.
Lemma key_cases s s' : ok s -> ok s' -> slot_key ts s = slot_key ts s' -> s = s' \/ rev2 s s'.
Proof.
  intros A B Q. unfold slot_key in Q. apply ekey_eq in Q as [[Q1 Q2]|[Q1 Q2]]; [left; now apply same_dir|right; split; auto].
Qed.
Lemma rev2_key s s' : rev2 s s' -> slot_key ts s = slot_key ts s'.
Proof. intros [A B]. unfold slot_key. apply ekey_eq. right. auto. Qed.
Lemma rev2_unique s s1 s2 : ok s1 -> ok s2 -> rev2 s s1 -> rev2 s s2 -> s1 = s2.
Proof. intros A B [P Q] [R S]. apply same_dir; auto; congruence. Qed.
Lemma rev2_irrefl s : ok s -> ~ rev2 s s.
Proof. intros A [P _]. apply (sf_inj ts nv SF) in P; auto. now destruct (snd s). Qed.

Definition INV (l : list (nat * c3)) (st : nbrs * list ((nat * nat) * (nat * c3))) : Prop :=
  (forall F k G, fst st F k = Some G <-> In (F, k) l /\ exists j, In (G, j) l /\ rev2 (F, k) (G, j)) /\
  (forall e s, In (e, s) (snd st) <-> In s l /\ e = slot_key ts s /\ forall s', In s' l -> ~ rev2 s s').
Lemma set_nbr_spec nb F k G F' k' : set_nbr nb F k G F' k' = if (Nat.eqb F' F && c3_eqb k' k)%bool then Some G else nb F' k'. Proof. reflexivity. Qed.
Lemma slot_eqb F k F' k' : (Nat.eqb F' F && c3_eqb k' k)%bool = true <-> (F', k') = (F, k).
Proof. rewrite andb_true_iff, Nat.eqb_eq, c3_eqb_eq. split; [intros [-> ->]; auto|intros H; injection H; auto]. Qed.
Lemma inv_step l st s : INV l st -> (forall x, In x l -> ok x) -> ok s -> ~ In s l -> INV (l ++ [s]) (link_step ts st s).
Proof.
  intros (I1 & I2) OL OS NS. destruct st as [nb d]. cbn [fst snd] in *. unfold link_step.
  assert (IA : forall x, In x (l ++ [s]) <-> In x l \/ x = s) by (intros x; rewrite in_app_iff; cbn; intuition).
  destruct (lookup d (slot_key ts s)) as [[F0 e0]|] eqn:LK.
  - apply lookup_some in LK. apply I2 in LK as (In0 & K0 & U0). set (s0 := (F0, e0)) in *.
    assert (R0 : rev2 s s0). { destruct (key_cases s s0 OS (OL _ In0) K0) as [Q|Q]; [rewrite Q in NS; contradiction|exact Q]. }
    split; cbn [fst snd].
    + intros F k G. rewrite set_nbr_spec. destruct (_ && _)%bool eqn:Q1.
      * apply slot_eqb in Q1. destruct s as [Fs ks]. cbn [fst snd] in *. injection Q1 as -> ->. split.
        -- intros H. injection H as <-. split; [apply IA; now right|]. exists e0. split; [apply IA; now left|exact R0].
        -- intros (_ & j & Hj & Rj). f_equal. assert (OG : ok (G, j)) by (apply IA in Hj as [Hj | ->]; auto).
           pose proof (rev2_unique _ _ _ (OL _ In0) OG R0 Rj) as Q. unfold s0 in Q. now injection Q.
      * rewrite set_nbr_spec. destruct (Nat.eqb F F0 && c3_eqb k e0)%bool eqn:Q2.
        -- apply slot_eqb in Q2. injection Q2 as -> ->. fold s0. split.
           ++ intros H. injection H as <-. split; [apply IA; now left|]. exists (snd s). split; [apply IA; right; now destruct s|]. destruct s. now apply rev2_sym.
           ++ intros (_ & j & Hj & Rj). f_equal. assert (OG : ok (G, j)) by (apply IA in Hj as [Hj | ->]; auto).
              pose proof (rev2_unique _ _ _ OS OG (rev2_sym _ _ R0) Rj) as Q. now rewrite Q.
        -- rewrite I1. assert (N1 : (F, k) <> s). { intros Z. rewrite <- Z in Q1. cbn [fst snd] in Q1. assert (X := proj2 (slot_eqb F k F k) eq_refl). congruence. }
           assert (N2 : (F, k) <> s0). { unfold s0. intros Q. injection Q as -> ->. assert (X := proj2 (slot_eqb F0 e0 F0 e0) eq_refl). congruence. }
           split; intros (A & j & B & C).
           ++ split; [apply IA; now left|]. exists j. split; [apply IA; now left|exact C].
           ++ apply IA in A as [A|A]; [|contradiction]. split; [exact A|]. exists j. split; [|exact C]. apply IA in B as [B|B]; [exact B|exfalso].
              rewrite B in C. apply N2. apply (rev2_unique s); auto. now apply rev2_sym.
    + intros e x. unfold remove_key. rewrite filter_In, negb_true_iff, I2. cbn [fst]. split.
      * intros ((A & -> & C) & D). split; [apply IA; now left|]. split; [reflexivity|]. intros s' Hs'. apply IA in Hs' as [Hs' | ->]; [auto|].
        intros R. apply rev2_key in R. rewrite R, key_eqb_refl in D. discriminate.
      * intros (A & -> & C). apply IA in A as [A | ->].
        -- split; [split; [exact A|split; [reflexivity|intros; apply C; apply IA; now left]]|].
           destruct (key_eqb (slot_key ts x) (slot_key ts s)) eqn:Q; [exfalso|reflexivity]. apply key_eqb_eq in Q.
           destruct (key_cases x s (OL _ A) OS Q) as [Z|Z]; [subst; contradiction|]. apply (C s); [apply IA; now right|exact Z].
        -- exfalso. apply (C s0); [apply IA; now left|exact R0].
  - apply lookup_none in LK.
    assert (NR : forall s0, In s0 l -> ~ rev2 s s0).
    { intros s0 H0 R. apply LK. apply in_map_iff. exists (slot_key ts s0, s0). cbn [fst]. split; [now rewrite (rev2_key _ _ R)|].
      apply I2. split; [exact H0|]. split; [reflexivity|]. intros s' Hs' R'. apply NS.
      assert (s' = s) as <- by (apply (rev2_unique s0); auto; now apply rev2_sym). exact Hs'. }
    split; cbn [fst snd].
    + intros F k G. rewrite I1. split; intros (A & j & B & C).
      * split; [apply IA; now left|]. exists j. split; [apply IA; now left|exact C].
      * apply IA in A as [A|A], B as [B|B].
        -- split; [exact A|]. now exists j.
        -- exfalso. rewrite B in C. apply (NR _ A). now apply rev2_sym.
        -- exfalso. rewrite A in C. now apply (NR _ B).
        -- exfalso. rewrite A, B in C. now apply (rev2_irrefl s).
    + intros e x. rewrite in_app_iff. cbn [In]. rewrite I2. split.
      * intros [(A & -> & C)|[Q|[]]].
        -- split; [apply IA; now left|]. split; [reflexivity|]. intros s' Hs'. apply IA in Hs' as [Hs' | ->]; [auto|]. intros R. apply (NR x A). now apply rev2_sym.
        -- injection Q as <- <-. split; [apply IA; now right|]. split; [reflexivity|]. intros s' Hs'. apply IA in Hs' as [Hs' | ->]; [auto|now apply rev2_irrefl].
      * intros (A & -> & C). apply IA in A as [A | ->]; [left|right; now left]. split; [exact A|]. split; [reflexivity|]. intros; apply C, IA; now left.
Qed.
Lemma inv_fold l2 : forall l1 st, INV l1 st -> NoDup (l1 ++ l2) -> (forall x, In x (l1 ++ l2) -> ok x) -> INV (l1 ++ l2) (fold_left (link_step ts) l2 st).
Proof.
  induction l2 as [|s l2 IH]; intros l1 st I ND OA.
  - now rewrite app_nil_r.
  - cbn [fold_left]. replace (l1 ++ s :: l2) with ((l1 ++ [s]) ++ l2) by (now rewrite <- app_assoc).
    apply IH.
    + apply inv_step; auto.
      * intros x Hx. apply OA. apply in_or_app. now left.
      * apply OA. apply in_or_app. right. now left.
      * apply NoDup_remove_2 in ND. intros H. apply ND. apply in_or_app. now left.
    + now rewrite <- app_assoc.
    + rewrite <- app_assoc. exact OA.
Qed.
Lemma link_ok F k G : (F < n)%nat -> (link ts F k = Some G <-> dedge ts (T F (NEXT k)) (T F k) G).
Proof.
  intros HF. unfold link. pose proof (inv_fold (slots n) [] (fun _ _ => None, [])) as X. cbn [app] in X.
  destruct X as [I1 _].
  - split; cbn; [intros; split; [discriminate|intros ([] & _)]|intros; split; [intros []|intros ([] & _)]].
  - apply slots_nodup.
  - intros x Hx. now apply slots_in in Hx.
  - rewrite I1. split.
    + intros (_ & j & A & B & C). apply slots_in in A. cbn [fst snd] in *. split; [exact A|]. exists j. auto.
    + intros (HG & j & A & B). split; [now apply slots_in|]. exists j. split; [now apply slots_in|]. split; auto.
Qed.
End Link.

Lemma start_spec ts v : match start_face ts v with Some F => touches ts F v | None => forall F, ~ touches ts F v end.
Proof.
  unfold start_face.
  assert (X : forall l acc, (forall s, In s l -> (fst s < length ts)%nat) ->
    match fold_left (fun acc s => if Nat.eqb (tri_at ts (fst s) (snd s)) v then Some (fst s) else acc) l acc with
    | Some F => acc = Some F \/ touches ts F v | None => acc = None /\ forall s, In s l -> tri_at ts (fst s) (snd s) <> v end).
  { induction l as [|s l IH]; intros acc H; cbn [fold_left].
    - destruct acc; auto.
    - specialize (IH (if Nat.eqb (tri_at ts (fst s) (snd s)) v then Some (fst s) else acc) (fun x Hx => H x (or_intror Hx))).
      destruct (fold_left _ l _) as [F|].
      + destruct IH as [IH|IH]; [|auto]. destruct (Nat.eqb_spec (tri_at ts (fst s) (snd s)) v) as [Q|Q]; [|auto]. injection IH as <-. right. exists (snd s). split; [apply H; now left|exact Q].
      + destruct IH as [IH1 IH2]. destruct (Nat.eqb_spec (tri_at ts (fst s) (snd s)) v) as [Q|Q]; [discriminate|]. split; [exact IH1|]. intros s' [<-|Hs']; auto. }
  specialize (X (slots (length ts)) None (fun s Hs => proj1 (slots_in _ _) Hs)). destruct (fold_left _ _ _) as [F|].
  - destruct X as [X|X]; [discriminate|exact X].
  - destruct X as [_ X]. intros F (k & HF & Q). apply (X (F, k)); [now apply slots_in|exact Q].
Qed.
Lemma tris_linked ts : map fv (linked_faces ts) = ts.
Proof.
  unfold linked_faces. rewrite map_map. cbn [fv]. apply (nth_ext _ _ (mkV 0 0 0)%nat (mkV 0 0 0)%nat); rewrite ?map_length, ?seq_length; auto.
  intros i Hi. rewrite nth_indep with (d' := (fun F => nth F ts (mkV 0 0 0)%nat) 0%nat) by (now rewrite map_length, seq_length).
  rewrite (map_nth (fun F => nth F ts (mkV 0 0 0)%nat)). now rewrite nth_seq0.
Qed.
Lemma getF_linked ts V F : (F < length ts)%nat -> getF (mkMesh (linked_faces ts) V) F = mkF (nth F ts (mkV 0 0 0)%nat) (tab3 (link ts F)).
Proof.
  intros H. unfold getF, linked_faces; cbn [mF]. set (g := fun F => mkF (nth F ts (mkV 0 0 0)%nat) (tab3 (link ts F))).
  rewrite nth_indep with (d' := g 0%nat) by (now rewrite map_length, seq_length). rewrite (map_nth g). now rewrite nth_seq0.
Qed.
Lemma upd_len m v x : (v < length (mV m))%nat -> length (mV (upd_vert m v x)) = length (mV m).
Proof. intros H. unfold upd_vert; cbn [mV]. rewrite app_length, firstn_length_le by lia. cbn [length]. rewrite skipn_length. lia. Qed.
Lemma upd_get m v x u : (v < length (mV m))%nat -> getV (upd_vert m v x) u = if Nat.eqb u v then x else getV m u.
Proof.
  intros H. unfold getV, upd_vert; cbn [mV]. assert (L : length (firstn v (mV m)) = v) by (apply firstn_length_le; lia).
  destruct (Nat.eqb_spec u v) as [->|N].
  - rewrite app_nth2 by lia. rewrite L, Nat.sub_diag. reflexivity.
  - destruct (lt_dec u v) as [LT|GE].
    + rewrite app_nth1 by lia. rewrite <- (firstn_skipn v (mV m)) at 2. rewrite app_nth1 by lia. reflexivity.
    + rewrite app_nth2 by lia. rewrite L. destruct (u - v)%nat as [|i] eqn:Q; [lia|]. cbn [nth].
      rewrite <- (firstn_skipn (S v) (mV m)) at 2. assert (L2 : length (firstn (S v) (mV m)) = S v) by (apply firstn_length_le; lia).
      rewrite app_nth2 by lia. f_equal. lia.
Qed.

Section Make.
Variables (ts : list (V3 nat)) (ps : list vec) (fuel : nat).
Let nv := length ps.
Hypothesis SF : surface ts nv.
Hypothesis FU : (length ts <= fuel)%nat.
(** the mesh when the first [c] vertices are finished *)
Definition stage (c : nat) (m : mesh) : Prop :=
  mF m = linked_faces ts /\ length (mV m) = nv /\ (forall v, (v < nv)%nat -> posn m v = nth v ps vzero) /\
  (forall v, (v < nv)%nat -> touches ts (vstart (getV m v)) v) /\
  (forall v, (v < nv)%nat -> start_face ts v = Some (vstart (getV m v))) /\
  (forall v, (v < c)%nat -> (v < nv)%nat -> (vbnd (getV m v) = true <-> on_border ts v) /\ (vreg (getV m v) = true <-> degree ts v (if vbnd (getV m v) then 4 else 6))).
Lemma stage_tris c m : stage c m -> tris m = ts.
Proof. intros (A & _). unfold tris. rewrite A. apply tris_linked. Qed.
Lemma stage_NB c m : stage c m -> forall F k G, (F < length ts)%nat -> (at3 (ff (getF m F)) k = Some G <-> dedge ts (tri_at ts F (NEXT k)) (tri_at ts F k) G).
Proof.
  intros (A & _) F k G HF. destruct m as [mf mv]. cbn [mF] in A. subst mf. rewrite (getF_linked ts mv F HF). cbn [ff]. rewrite at3_tab3. now apply (link_ok ts nv SF).
Qed.
Lemma finish_ok c m : stage c m -> (c < nv)%nat -> exists m', finish_vertex fuel ts m c = ret m' /\ stage (S c) m'.
Proof.
  intros ST0 Hc. pose proof (stage_tris c m ST0) as TS. pose proof (stage_NB c m ST0) as NB0. destruct ST0 as (A1 & A2 & A3 & A4 & A5 & A6).
  unfold finish_vertex. rewrite (A5 c Hc). set (s := vstart (getV m c)).
  assert (SFm : surface (tris m) (length (mV m))) by (rewrite TS, A2; exact SF).
  assert (NBm : forall F k G, (F < length (tris m))%nat -> (at3 (ff (getF m F)) k = Some G <-> dedge (tris m) (tri_at (tris m) F (NEXT k)) (tri_at (tris m) F k) G)) by (rewrite TS; exact NB0).
  assert (Hs : In s (Dv (tris m) c)) by (rewrite TS; apply Dv_in; now apply A4).
  assert (TD : forall F, In F (Dv (tris m) c) -> next_face m c F = Ok (nxo m c F)) by (intros F HF; apply (nx_ok m SFm); now apply Dv_in).
  pose proof (Dv_len (tris m) c) as LD. rewrite TS in LD at 2.
  assert (WK : exists l b, (dr f <- lift (next_face m c s); walk (next_face m c) (Some s) fuel f) = ret (l, b) /\ (b = false <-> on_border ts c)).
  { rewrite (TD s Hs). cbn [lift rbind].
    assert (DEC : (forall f, In f (Dv (tris m) c) -> nxo m c f <> None) \/ exists f, In f (Dv (tris m) c) /\ nxo m c f = None).
    { generalize (Dv (tris m) c). induction l as [|x l IH]; [left; intros ? []|]. destruct (nxo m c x) eqn:Q.
      - destruct IH as [IH|(f & I & J)]; [left; intros f [<-|Hf]; [congruence|auto]|right; exists f; split; [now right|exact J]].
      - right. exists x. split; [now left|exact Q]. }
    destruct DEC as [NN|BD].
    - destruct (closed_fan (nxo m c) (pvo m c) (Dv (tris m) c) (nxD m SFm NBm c) (nx_inv m SFm NBm c) s Hs (fun f => fan_conn m SFm NBm c s f Hs) NN) as (l & P & ND & Q & ALL & _).
      exists l, true. split.
      + apply (walk_to_stop (nxo m c)); auto.
        * intros g Hg. apply TD, ALL. now right.
        * now inversion ND.
        * assert (length (s :: l) <= length (Dv (tris m) c))%nat by (apply NoDup_incl_length; [exact ND|intros x Hx; now apply ALL]). cbn [length] in *. lia.
      + split; [discriminate|]. intros B. rewrite <- TS in B. apply (border_nx m SFm NBm) in B as (F & HF & Q'). now apply NN in Q'.
    - destruct (open_fan (nxo m c) (pvo m c) (Dv (tris m) c) (nxD m SFm NBm c) (pvD m SFm NBm c) (nx_inv m SFm NBm c) s Hs (fun f => fan_conn m SFm NBm c s f Hs) BD)
        as (a & b & PA & QA & NDA & IA & _).
      exists a, false. split.
      + apply (walk_to_none (nxo m c)); auto.
        * intros s' Q HIn. injection Q as <-. now inversion NDA.
        * assert (length (s :: a) <= length (Dv (tris m) c))%nat by (apply NoDup_incl_length; [exact NDA|intros x [<-|Hx]; auto]). cbn [length] in *. lia.
      + split; [|reflexivity]. intros _. rewrite <- TS. now apply (border_nx m SFm NBm). }
  destruct WK as (l & b & QW & QB). destruct (lift (next_face m c s)) as [[f|]|] eqn:QN; cbn [rbind] in QW |- *; try discriminate. rewrite QW. cbn [rbind ret].
  set (m1 := upd_vert m c (mkVt (posn m c) s (negb b) false)).
  assert (Hc' : (c < length (mV m))%nat) by lia.
  assert (L1 : length (mV m1) = nv) by (unfold m1; rewrite upd_len; auto).
  assert (T1 : tris m1 = ts) by exact TS.
  assert (G1 : forall u, getV m1 u = if Nat.eqb u c then mkVt (posn m c) s (negb b) false else getV m u) by (intros u; unfold m1; now apply upd_get).
  assert (SF1 : surface (tris m1) (length (mV m1))) by (rewrite T1, L1; exact SF).
  assert (ST1 : forall v, (v < length (mV m1))%nat -> touches (tris m1) (vstart (getV m1 v)) v).
  { intros v Hv. rewrite L1 in Hv. rewrite G1, T1. destruct (Nat.eqb_spec v c) as [->|N]; [cbn [vstart]; now apply A4|now apply A4]. }
  assert (VAL : exists k, valence m1 fuel c = ret k /\ degree ts c k).
  { assert (LD1 : (length (Dv (tris m1) c) <= fuel)%nat) by (rewrite T1, <- TS; lia). assert (Hc1 : (c < length (mV m1))%nat) by lia.
    destruct b; cbn [negb] in *.
    - assert (NBD : ~ on_border (tris m1) c) by (rewrite T1, <- QB; discriminate).
      destruct (interior_fan m1 SF1 NBm ST1 fuel c Hc1 LD1 NBD) as (fl & F1 & _ & _ & F4 & _ & F6 & F7).
      exists (length fl). unfold valence. rewrite G1, Nat.eqb_refl. cbn [vbnd]. rewrite F1. split; [reflexivity|].
      exists (map (nvo m1 c) fl). rewrite map_length. rewrite T1 in F7. auto.
    - assert (BD : on_border (tris m1) c) by (rewrite T1; now apply QB).
      assert (VB : vbnd (getV m1 c) = true) by (rewrite G1, Nat.eqb_refl; reflexivity).
      destruct (border_fan m1 SF1 NBm ST1 fuel c Hc1 LD1 BD VB) as (ring & a' & b' & F1 & _ & F3 & F4 & F5 & _).
      exists (length ring). rewrite F1, F3. split; [reflexivity|]. rewrite <- F3. exists ring. rewrite T1 in F5. auto. }
  destruct VAL as (k & QV & DK). rewrite QV. cbn [rbind ret]. eexists. split; [reflexivity|].
  set (x := mkVt (posn m c) s (negb b) (if negb b then Nat.eqb k 4 else Nat.eqb k 6)).
  assert (G2 : forall u, getV (upd_vert m1 c x) u = if Nat.eqb u c then x else getV m u).
  { intros u. rewrite upd_get by lia. rewrite G1. now destruct (Nat.eqb u c). }
  split; [exact A1|]. split; [rewrite upd_len; lia|]. split; [|split; [|split]].
  - intros v Hv. unfold posn. rewrite G2. destruct (Nat.eqb_spec v c) as [->|N]; [unfold x; cbn [vP]; now apply A3|now apply A3].
  - intros v Hv. rewrite G2. destruct (Nat.eqb_spec v c) as [->|N]; [now apply A4|now apply A4].
  - intros v Hv. rewrite G2. destruct (Nat.eqb_spec v c) as [->|N]; [now apply A5|now apply A5].
  - intros v Hv Hv'. rewrite G2. destruct (Nat.eqb_spec v c) as [->|N]; [|apply A6; auto; lia]. unfold x; cbn [vbnd vreg]. split.
    + rewrite negb_true_iff. exact QB.
    + destruct b; cbn [negb]; rewrite Nat.eqb_eq; (split; [intros ->; exact DK|intros D; now apply (degree_unique ts c)]).
Qed.
Lemma fold_stage k : forall c m, (c + k = nv)%nat -> stage c m -> exists m', foldR (finish_vertex fuel ts) (seq c k) m = ret m' /\ stage nv m'.
Proof.
  induction k as [|k IH]; intros c m Q S0; cbn [seq foldR].
  - exists m. split; [reflexivity|]. replace nv with c by lia. exact S0.
  - destruct (finish_ok c m S0) as (m1 & Q1 & S1); [lia|]. fold (@foldR mesh nat). rewrite Q1. cbn [rbind ret]. apply (IH (S c)); [lia|exact S1].
Qed.
Lemma make_ok : exists m, loop_make fuel ts ps = ret m /\ tris m = ts /\ map vP (mV m) = ps /\ mesh_ok m.
Proof.
  unfold loop_make. fold nv. set (g := fun v => mkVt (nth v ps vzero) (match start_face ts v with Some s => s | None => 0%nat end) false false).
  assert (S0 : stage 0 (mkMesh (linked_faces ts) (map g (seq 0 nv)))).
  { assert (G : forall v, (v < nv)%nat -> getV (mkMesh (linked_faces ts) (map g (seq 0 nv))) v = g v).
    { intros v Hv. unfold getV; cbn [mV]. rewrite nth_indep with (d' := g 0%nat) by (now rewrite map_length, seq_length). rewrite (map_nth g). now rewrite nth_seq0. }
    split; [reflexivity|]. split; [cbn [mV]; now rewrite map_length, seq_length|].
    assert (SS : forall v, (v < nv)%nat -> start_face ts v = Some (vstart (g v)) /\ touches ts (vstart (g v)) v).
    { intros v Hv. unfold g; cbn [vstart]. pose proof (start_spec ts v) as X. destruct (start_face ts v); [auto|]. destruct (sf_used ts nv SF v Hv) as (F & T). now apply X in T. }
    split; [|split; [|split]].
    - intros v Hv. unfold posn. now rewrite G.
    - intros v Hv. rewrite G by auto. now apply SS.
    - intros v Hv. rewrite G by auto. now apply SS.
    - intros v Hv. lia. }
  destruct (fold_stage nv 0 _ eq_refl S0) as (m & Q & ST1). exists m. split; [exact Q|]. pose proof (stage_tris _ _ ST1) as T. split; [exact T|].
  pose proof (stage_NB _ _ ST1) as NB1. destruct ST1 as (A1 & A2 & A3 & A4 & A5 & A6). split.
  - apply (nth_ext _ _ vzero vzero); rewrite ?map_length; [exact A2|]. intros v Hv. rewrite A2 in Hv. rewrite <- A3 by exact Hv.
    unfold posn, getV. change vzero with (vP (mkVt vzero 0 false false)) at 1. now rewrite map_nth.
  - unfold mesh_ok. rewrite T, A2. split; [exact NB1|]. split; [exact A4|]. split; intros v Hv; now apply A6.
Qed.
End Make.
(** a vertex without a triangle *)
Lemma foldR_in fuel ts l m m' v : foldR (finish_vertex fuel ts) l m = ret m' -> In v l -> exists F, touches ts F v.
Proof.
  revert m. induction l as [|x l IH]; intros m Q HI; [destruct HI|]; cbn [foldR] in Q; fold (@foldR mesh nat) in Q. destruct HI as [->|H].
  - unfold finish_vertex in Q. pose proof (start_spec ts v) as X. destruct (start_face ts v) as [s|]; [now exists s|discriminate].
  - destruct (finish_vertex fuel ts m x) as [[m1|]|]; cbn [rbind] in Q; try discriminate. now apply (IH m1).
Qed.
Lemma make_used fuel ts ps m v : loop_make fuel ts ps = ret m -> (v < length ps)%nat -> exists F, touches ts F v.
Proof. intros Q Hv. apply (foldR_in fuel ts _ _ _ v Q). apply in_seq. lia. Qed.
