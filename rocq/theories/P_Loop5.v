(** One level of subdivision, assembled. *)
From Coq Require Import Reals List Bool Arith Lia Relations Permutation.
From Verif Require Import Base M_Loop S_Loop P_Loop1 P_Loop2 P_Loop3 P_Loop4.
Import ListNotations.

Lemma nth_seq0 i k : (i < k)%nat -> nth i (seq 0 k) 0%nat = i.
Proof. intros H. now rewrite seq_nth. Qed.

Section Asm.
Variables (m : mesh) (fuel : nat).
Let ts := tris m.
Let nv := length (mV m).
Let d := first_slots ts.
Let nv' := (nv + length d)%nat.
Hypothesis SF : surface ts nv.
Hypothesis OK : mesh_ok m.
Hypothesis FU : (length ts <= fuel)%nat.
Notation T := (tri_at ts).
Notation n := (length ts).
Notation o := (odd_id m).

Definition Qe v y := vstart y = ch ts v (vstart (getV m v)) /\ vbnd y = vbnd (getV m v) /\ vreg y = vreg (getV m v) /\
  (if vbnd (getV m v) then border_rule ts (posn m) (1/8)%R v (vP y) else inner_rule ts (posn m) loop_beta v (vP y)).
Definition Qo (x : (nat * nat) * (nat * c3)) y := let F := fst (snd x) in let k := snd (snd x) in
  vstart y = (4 * F + 3)%nat /\ vreg y = true /\
  (vbnd y = true <-> border ts (T F k) (T F (NEXT k)) \/ border ts (T F (NEXT k)) (T F k)) /\
  edge_rule ts (posn m) (T F k) (T F (NEXT k)) (vP y).

Lemma refine1_runs : exists evens odds, refine1 fuel m = ret (mkMesh (newF m) (evens ++ odds)) /\
  Forall2 Qe (seq 0 nv) evens /\ Forall2 Qo d odds.
Proof.
  destruct (mapR_ok (even_vert m fuel) Qe (seq 0 nv)) as (evens & E1' & F1).
  { intros v Hv. apply in_seq in Hv. apply (even_ok m SF OK fuel v); [unfold nv in *; lia|exact FU]. }
  destruct (mapR_ok (odd_vert m) Qo d) as (odds & E2' & F2).
  { intros x Hx. apply (odd_ok m SF OK x Hx). }
  exists evens, odds. split; [|auto]. unfold refine1. fold nv ts d. rewrite E1'. cbn [rbind ret]. rewrite E2'. cbn [rbind ret].
  rewrite (children_ok m SF OK). reflexivity.
Qed.

Variables (evens odds : list vert).
Hypothesis FE : Forall2 Qe (seq 0 nv) evens.
Hypothesis FO : Forall2 Qo d odds.
Let m' := mkMesh (newF m) (evens ++ odds).
Let ts' := tris m'.
Lemma evens_len : length evens = nv. Proof. rewrite <- (Forall2_len _ _ _ FE). apply seq_length. Qed.
Lemma odds_len : length odds = length d. Proof. symmetry. exact (Forall2_len _ _ _ FO). Qed.
Lemma mV'_len : length (mV m') = nv'. Proof. cbn. rewrite app_length, evens_len, odds_len. reflexivity. Qed.
Lemma ts'_len : length ts' = (4 * n)%nat. Proof. unfold ts'. rewrite tris_len. cbn [mF m']. apply (newF_len m). Qed.
Lemma getF_corner F k : (F < n)%nat -> getF m' (4 * F + cnum k) = corner_pure m F k.
Proof.
  intros HF. unfold getF, m'; cbn [mF]. unfold newF. pose proof (cnum_lt k) as CK.
  destruct (concat4 (four m) (mkF (mkV 0 0 0)%nat (mkV None None None)) (fun _ => eq_refl) n 0) as [_ X].
  unfold ts in *. rewrite X by (auto; lia). destruct k; reflexivity.
Qed.
Lemma getF_mid F : (F < n)%nat -> getF m' (4 * F + 3) = middle_child m F.
Proof.
  intros HF. unfold getF, m'; cbn [mF]. unfold newF.
  destruct (concat4 (four m) (mkF (mkV 0 0 0)%nat (mkV None None None)) (fun _ => eq_refl) n 0) as [_ X].
  unfold ts in *. rewrite X by (auto; lia). reflexivity.
Qed.
Lemma HC1 F k : (F < n)%nat -> tri_at ts' (4 * F + cnum k) k = T F k /\ tri_at ts' (4 * F + cnum k) (NEXT k) = o F k /\
  tri_at ts' (4 * F + cnum k) (PREV k) = o F (PREV k).
Proof.
  intros HF. unfold ts'. rewrite !tri_getF, getF_corner by auto. unfold corner_pure; cbn [fv]. rewrite !at3_tab3, c3_eqb_refl.
  destruct k; cbn; auto.
Qed.
Lemma HC2 F k : (F < n)%nat -> tri_at ts' (4 * F + 3) k = o F k.
Proof. intros HF. unfold ts'. rewrite tri_getF, getF_mid by auto. unfold middle_child; cbn [fv]. now rewrite at3_tab3. Qed.
Lemma O1 F k : (F < n)%nat -> (nv <= o F k < nv')%nat. Proof. apply (o_range m). Qed.
Lemma O2 F k G j : (F < n)%nat -> (G < n)%nat -> (o F k = o G j <-> slot_key ts (F, k) = slot_key ts (G, j)). Proof. apply (o_key m). Qed.
Lemma O3 x : (nv <= x < nv')%nat -> exists F k, (F < n)%nat /\ o F k = x. Proof. apply (o_surj m). Qed.
Lemma NVV : (nv <= nv')%nat. Proof. unfold nv'. lia. Qed.
Lemma surface' : surface ts' nv'.
Proof. apply (split_surface ts ts' nv nv' o SF NVV O1 O2 O3 ts'_len HC1 HC2). Qed.
Lemma DD a b H : dedge ts' a b H <-> de ts o a b H. Proof. apply (dedge_de ts ts' nv nv' o NVV ts'_len HC1 HC2 a b H). Qed.
Lemma ff_corner F k j : (F < n)%nat -> at3 (ff (getF m' (4 * F + cnum k))) j =
  if c3_eqb j k then kid m (at3 (ff (getF m F)) k) (T F k)
  else if c3_eqb j (PREV k) then kid m (at3 (ff (getF m F)) (PREV k)) (T F k) else Some (4 * F + 3)%nat.
Proof. intros HF. rewrite getF_corner by auto. unfold corner_pure; cbn [ff]. now rewrite at3_tab3. Qed.
Lemma ff_mid F j : (F < n)%nat -> at3 (ff (getF m' (4 * F + 3))) j = Some (4 * F + cnum (NEXT j))%nat.
Proof. intros HF. rewrite getF_mid by auto. unfold middle_child; cbn [ff]. now rewrite at3_tab3. Qed.
Lemma NBm F k G : (F < n)%nat -> (at3 (ff (getF m F)) k = Some G <-> dedge ts (T F (NEXT k)) (T F k) G). Proof. apply (NB m OK). Qed.

Lemma TO F k G j : (F < n)%nat -> (G < n)%nat -> T F k <> o G j. Proof. apply (T_not_o ts ts' nv nv' o SF NVV O1 ts'_len). Qed.
Ltac clash := exfalso; match goal with
  | X : tri_at _ ?F ?k = odd_id _ ?G ?j |- _ => exact (TO F k G j ltac:(assumption) ltac:(assumption) X)
  | X : odd_id _ ?G ?j = tri_at _ ?F ?k |- _ => exact (TO F k G j ltac:(assumption) ltac:(assumption) (eq_sym X)) end.
(** soundness: a neighbour reference leads across the edge *)
Lemma nb_sound H k G : (H < length ts')%nat -> at3 (ff (getF m' H)) k = Some G -> dedge ts' (tri_at ts' H (NEXT k)) (tri_at ts' H k) G.
Proof.
  intros HL. destruct (face_cases ts ts' nv nv' NVV ts'_len H HL) as (F & HF & [(i & ->)| ->]).
  - rewrite ff_corner by auto. destruct (HC1 F i HF) as (A & B & C). destruct (corner_cases k i) as [-> |[-> | ->]].
    + rewrite c3_eqb_refl, A, B. destruct (at3 (ff (getF m F)) i) as [K|] eqn:Q; [|discriminate]. cbn [kid]. intros X. injection X as <-.
      apply NBm in Q; auto. destruct Q as (HK & j & A1 & A2). rewrite <- A2. rewrite (ch_eq ts nv SF) by exact HK. apply DD.
      rewrite (o_rev ts o O2 F i K j) by auto. pose proof (de_in ts o K (NEXT j) HK) as Y. now rewrite prev_next in Y.
    + replace (c3_eqb (NEXT i) i) with false by (now destruct i). replace (c3_eqb (NEXT i) (PREV i)) with false by (now destruct i).
      intros X. injection X as <-. rewrite next_next, B, C. apply DD. pose proof (de_mid ts o F (PREV i) HF) as Y. now rewrite next_prev in Y.
    + replace (c3_eqb (PREV i) i) with false by (now destruct i). rewrite c3_eqb_refl, next_prev, A, C.
      destruct (at3 (ff (getF m F)) (PREV i)) as [K|] eqn:Q; [|discriminate]. cbn [kid]. intros X. injection X as <-.
      apply NBm in Q; auto. rewrite next_prev in Q. destruct Q as (HK & j & A1 & A2). rewrite <- A1.
      rewrite (ch_eq ts nv SF) by exact HK. apply DD. rewrite (o_rev ts o O2 F (PREV i) K j); auto; [|now rewrite next_prev]. now constructor.
  - rewrite ff_mid by auto. intros X. injection X as <-. rewrite !HC2 by auto. apply DD.
    pose proof (de_cut ts o F (NEXT k) HF) as Y. now rewrite prev_next in Y.
Qed.
Lemma kid_none g v : kid m g v = None <-> g = None. Proof. destruct g; cbn; split; congruence. Qed.
Lemma ff_none H k : (H < length ts')%nat -> (at3 (ff (getF m' H)) k = None <-> exists F i, (F < n)%nat /\ H = (4 * F + cnum i)%nat /\
  ((k = i /\ at3 (ff (getF m F)) i = None) \/ (k = PREV i /\ at3 (ff (getF m F)) (PREV i) = None))).
Proof.
  intros HL. split.
  - destruct (face_cases ts ts' nv nv' NVV ts'_len H HL) as (F & HF & [(i & ->)| ->]).
    + rewrite ff_corner by auto. intros Q. exists F, i. split; [exact HF|]. split; [reflexivity|].
      destruct (corner_cases k i) as [-> |[-> | ->]].
      * rewrite c3_eqb_refl in Q. apply kid_none in Q. auto.
      * replace (c3_eqb (NEXT i) i) with false in Q by (now destruct i). replace (c3_eqb (NEXT i) (PREV i)) with false in Q by (now destruct i). discriminate.
      * replace (c3_eqb (PREV i) i) with false in Q by (now destruct i). rewrite c3_eqb_refl in Q. apply kid_none in Q. auto.
    + rewrite ff_mid by auto. discriminate.
  - intros (F & i & HF & -> & [[-> Q]|[-> Q]]); rewrite ff_corner by auto.
    + now rewrite c3_eqb_refl, Q.
    + replace (c3_eqb (PREV i) i) with false by (now destruct i). now rewrite c3_eqb_refl, Q.
Qed.
Lemma nb_complete H k G : (H < length ts')%nat -> dedge ts' (tri_at ts' H (NEXT k)) (tri_at ts' H k) G -> at3 (ff (getF m' H)) k <> None.
Proof.
  intros HL X Q. apply ff_none in Q as (F & i & HF & -> & [[-> Q]|[-> Q]]); auto; destruct (HC1 F i HF) as (A & B & C).
  - rewrite A, B in X. apply DD in X. inversion X as [K j HK A1 A2|K j HK A1 A2|K j HK A1 A2|K j HK A1 A2]; subst; try clash.
    destruct (o_same ts nv o SF O2 F i K (PREV j) HF HK (eq_sym A1)) as [[<- Z]|[Z1 Z2]].
    + apply (sf_inj ts nv SF) in A2; auto. rewrite A2 in Z. now destruct i.
    + rewrite next_prev in Z2. assert (Y : at3 (ff (getF m F)) i = Some K).
      { apply NBm; auto. fold ts. rewrite <- Z1, <- Z2. now apply dedge_mk'. }
      congruence.
  - rewrite next_prev, A, C in X. apply DD in X. inversion X as [K j HK A1 A2|K j HK A1 A2|K j HK A1 A2|K j HK A1 A2]; subst; try clash.
    destruct (o_same ts nv o SF O2 F (PREV i) K j HF HK (eq_sym A2)) as [[<- Z]|[Z1 Z2]].
    + apply (sf_inj ts nv SF) in A1; auto. rewrite A1 in Z. now destruct i.
    + rewrite next_prev in Z1. assert (Y : at3 (ff (getF m F)) (PREV i) = Some K).
      { apply NBm; auto. fold ts. rewrite next_prev, <- Z1, <- Z2. now apply dedge_mk. }
      congruence.
Qed.
Lemma NB' H k G : (H < length ts')%nat -> (at3 (ff (getF m' H)) k = Some G <-> dedge ts' (tri_at ts' H (NEXT k)) (tri_at ts' H k) G).
Proof.
  intros HL. split; [now apply nb_sound|]. intros X. destruct (at3 (ff (getF m' H)) k) as [K|] eqn:Q.
  - f_equal. apply (sf_orient ts' nv' surface' _ _ _ _ (nb_sound H k K HL Q) X).
  - exfalso. exact (nb_complete H k G HL X Q).
Qed.
(** vertices of the new mesh *)
Lemma getV_even v : (v < nv)%nat -> Qe v (getV m' v).
Proof.
  intros Hv. unfold getV, m'; cbn [mV]. rewrite app_nth1 by (rewrite evens_len; auto).
  pose proof (Forall2_nth Qe _ _ v 0%nat (mkVt vzero 0 false false) FE) as X. rewrite seq_length, nth_seq0 in X by auto. auto.
Qed.
Lemma Qo_slot i F k : (i < length d)%nat -> (F < n)%nat -> o F k = (nv + i)%nat ->
  let y := getV m' (o F k) in
  (exists F0 k', (F0 < n)%nat /\ o F0 k' = o F k /\ vstart y = (4 * F0 + 3)%nat) /\ vreg y = true /\
  (vbnd y = true <-> border ts (T F k) (T F (NEXT k)) \/ border ts (T F (NEXT k)) (T F k)) /\
  edge_rule ts (posn m) (T F k) (T F (NEXT k)) (vP y).
Proof.
  intros Hi HF Q y. pose proof (Forall2_nth Qo _ _ i ((0,0),(0,k0))%nat (mkVt vzero 0 false false) FO Hi) as X.
  assert (Ey : nth i odds (mkVt vzero 0 false false) = y).
  { unfold y, getV, m'; cbn [mV]. rewrite Q, app_nth2, evens_len by (rewrite evens_len; lia). f_equal. lia. }
  rewrite Ey in X. pose proof (o_nth m i Hi) as ON. cbv zeta in ON. fold ts in ON. fold d nv in ON. set (x := nth i d ((0,0),(0,k0))%nat) in *. destruct ON as (A & B & C).
  destruct X as (X1 & X2 & X3 & X4). split; [exists (fst (snd x)), (snd (snd x)); rewrite C; auto|]. split; [exact X2|].
  assert (OO : o (fst (snd x)) (snd (snd x)) = o F k) by (rewrite C, Q; reflexivity).
  destruct (o_same ts nv o SF O2 _ _ F k A HF OO) as [[E1' E2']|[Z1 Z2]].
  - rewrite E1', E2' in *. auto.
  - rewrite <- Z1, <- Z2 in X3, X4. split; [rewrite X3; tauto|]. now apply edge_rule_sym.
Qed.
Lemma getV_odd F k : (F < n)%nat ->
  let y := getV m' (o F k) in
  (exists F0 k', (F0 < n)%nat /\ o F0 k' = o F k /\ vstart y = (4 * F0 + 3)%nat) /\ vreg y = true /\
  (vbnd y = true <-> border ts (T F k) (T F (NEXT k)) \/ border ts (T F (NEXT k)) (T F k)) /\
  edge_rule ts (posn m) (T F k) (T F (NEXT k)) (vP y).
Proof.
  intros HF. pose proof (o_range m F k HF) as X. fold ts nv d in X. apply (Qo_slot (o F k - nv)%nat); auto; lia.
Qed.
Lemma ST' v : (v < nv')%nat -> touches ts' (vstart (getV m' v)) v.
Proof.
  intros Hv. destruct (lt_dec v nv) as [L|L].
  - destruct (getV_even v L) as (A & _). rewrite A. destruct (ST m OK v L) as (k & HF & Q). fold ts in HF, Q.
    apply (touch_even ts ts' nv nv' o NVV O1 ts'_len HC1 HC2); auto. exists (vstart (getV m v)), k. split; [exact HF|]. split; [exact Q|].
    rewrite <- Q at 1. now apply (ch_eq ts nv SF).
  - destruct (O3 v) as (F & k & HF & <-); [fold ts nv d; unfold nv' in Hv; lia|]. destruct (getV_odd F k HF) as ((F0 & k' & H0 & Q & ->) & _).
    apply (touch_odd ts ts' nv nv' o SF NVV O1 ts'_len HC1 HC2); auto. exists F0, k'. auto.
Qed.
Lemma bnd_ff mm : let t := tris mm in (forall F k G, (F < length t)%nat -> (at3 (ff (getF mm F)) k = Some G <-> dedge t (tri_at t F (NEXT k)) (tri_at t F k) G)) ->
  forall v, on_border t v <-> exists F k, (F < length t)%nat /\ tri_at t F k = v /\ at3 (ff (getF mm F)) k = None.
Proof.
  intros t NBt v. split.
  - intros (w & B). pose proof B as B0. destruct B as [(F & HF & k & <- & <-) _]. exists F, k. split; [exact HF|]. split; [reflexivity|].
    now apply (none_border mm NBt).
  - intros (F & k & HF & <- & Q). exists (tri_at t F (NEXT k)). now apply (none_border mm NBt).
Qed.
Lemma BD' v : (v < nv')%nat -> (vbnd (getV m' v) = true <-> on_border ts' v).
Proof.
  intros Hv. pose proof (bnd_ff m' NB' v) as W'. cbv zeta in W'. fold ts' in W'. rewrite W'.
  pose proof (bnd_ff m NBm v) as W. cbv zeta in W. fold ts in W. destruct (lt_dec v nv) as [L|L].
  - destruct (getV_even v L) as (_ & A & _). rewrite A. etransitivity; [exact (BD m OK v L)|]. fold ts. rewrite W. split.
    + intros (F & k & HF & <- & Q). exists (4 * F + cnum k)%nat, k. split; [now apply (ch_lt ts ts' nv nv' NVV ts'_len)|]. split; [now apply HC1|].
      apply ff_none; [now apply (ch_lt ts ts' nv nv' NVV ts'_len)|]. exists F, k. auto.
    + intros (H & k & HL & Q1 & Q2). apply ff_none in Q2 as (F & i & HF & -> & [[-> Q]|[-> Q]]); auto; destruct (HC1 F i HF) as (B1 & B2 & B3).
      * exists F, i. rewrite <- Q1, B1. auto.
      * exfalso. rewrite B3 in Q1. pose proof (o_range m F (PREV i) HF) as X. fold ts nv d in X. lia.
  - destruct (O3 v) as (F & k & HF & <-); [fold ts nv d; unfold nv' in Hv; lia|]. destruct (getV_odd F k HF) as (_ & _ & A & _). rewrite A. split.
    + intros [B|B].
      * apply (none_border m NBm) in B; auto. assert (HL : (4 * F + cnum (NEXT k) < length ts')%nat) by now apply (ch_lt ts ts' nv nv' NVV ts'_len).
        exists (4 * F + cnum (NEXT k))%nat, k. split; [exact HL|]. destruct (HC1 F (NEXT k) HF) as (_ & _ & B3). rewrite prev_next in B3.
        split; [exact B3|]. apply ff_none; auto. exists F, (NEXT k). rewrite prev_next. auto.
      * exfalso. apply (proj2 B). exists F. now apply dedge_mk.
    + intros (H & j & HL & Q1 & Q2). apply ff_none in Q2 as (G & i & HG & -> & [[-> Q]|[-> Q]]); auto; destruct (HC1 G i HG) as (B1 & B2 & B3).
      * exfalso. rewrite B1 in Q1. exact (T_not_o ts ts' nv nv' o SF NVV O1 ts'_len _ _ _ _ HG HF Q1).
      * rewrite B3 in Q1. apply (none_border m NBm) in Q; auto. fold ts in Q. rewrite next_prev in Q.
        destruct (o_same ts nv o SF O2 G (PREV i) F k HG HF Q1) as [[<- <-]|[Z1 Z2]].
        -- rewrite next_prev. auto.
        -- rewrite next_prev in Z1. rewrite Z1, Z2. auto.
Qed.
(** degrees through the number of triangles *)
Lemma links_degree mm f : let t := tris mm in surface t (length (mV mm)) ->
  (forall F k G, (F < length t)%nat -> (at3 (ff (getF mm F)) k = Some G <-> dedge t (tri_at t F (NEXT k)) (tri_at t F k) G)) ->
  (forall v, (v < length (mV mm))%nat -> touches t (vstart (getV mm v)) v) ->
  (forall v, (v < length (mV mm))%nat -> (vbnd (getV mm v) = true <-> on_border t v)) ->
  (length t <= f)%nat -> forall v, (v < length (mV mm))%nat ->
  degree t v (length (Dv t v) + if vbnd (getV mm v) then 1 else 0)%nat.
Proof.
  intros t S NBt STt BDt FUt v Hv. pose proof (Dv_len t v) as LD. destruct (vbnd (getV mm v)) eqn:FL.
  - assert (BV : on_border t v) by now apply BDt.
    destruct (border_fan mm S NBt STt f v Hv ltac:(fold t; lia) BV FL) as (ring & a & b & A1 & A2 & A3 & A4 & A5 & _). exists ring. auto.
  - assert (BV : ~ on_border t v) by (intros X; apply BDt in X; auto; congruence).
    destruct (interior_fan mm S NBt STt f v Hv ltac:(fold t; lia) BV) as (l & A1 & A2 & A3 & A4 & A5 & A6 & A7).
    exists (map (nvo mm v) l). rewrite map_length. split; [exact A6|]. split; [fold t in A4; lia|exact A7].
Qed.
Lemma deg_old v : (v < nv)%nat -> degree ts v (length (Dv ts v) + if vbnd (getV m v) then 1 else 0)%nat.
Proof. intros Hv. exact (links_degree m n SF NBm (ST m OK) (BD m OK) (le_n _) v Hv). Qed.
Lemma deg_new v : (v < nv')%nat -> degree ts' v (length (Dv ts' v) + if vbnd (getV m' v) then 1 else 0)%nat.
Proof.
  rewrite <- mV'_len. apply (links_degree m' (length ts')); fold ts'; rewrite ?mV'_len.
  - exact surface'. - exact NB'. - exact ST'. - exact BD'. - lia.
Qed.
Lemma mesh_ok' : mesh_ok m'.
Proof.
  unfold mesh_ok. fold ts'. rewrite mV'_len. split; [exact NB'|]. split; [exact ST'|]. split; [exact BD'|]. intros v Hv.
  pose proof (deg_new v Hv) as DN. destruct (lt_dec v nv) as [L|L].
  - destruct (getV_even v L) as (_ & A & B & _). rewrite A, B in *. rewrite (even_Dv ts ts' nv nv' o SF NVV O1 ts'_len HC1 HC2 v L) in DN.
    pose proof (deg_old v L) as DO. pose proof (proj2 (proj2 (proj2 OK)) v L) as RG. fold ts in RG. rewrite RG.
    set (q := if vbnd (getV m v) then 4%nat else 6%nat) in *. split; intros X.
    + now rewrite (degree_unique ts v _ _ X DO).
    + now rewrite (degree_unique ts' v _ _ X DN).
  - destruct (O3 v) as (F & k & HF & <-); [fold ts nv d; unfold nv' in Hv; lia|]. destruct (getV_odd F k HF) as (_ & RG & A & _).
    split; [|auto]. intros _. destruct (vbnd (getV m' (o F k))) eqn:FL.
    + assert (B : border ts (T F k) (T F (NEXT k))).
      { destruct (proj1 A eq_refl) as [B|B]; [exact B|]. exfalso. apply (proj2 B). exists F. now apply dedge_mk. }
      rewrite (odd_Dv_border ts ts' nv nv' o SF NVV O1 O2 ts'_len HC1 HC2 F k HF B) in DN. exact DN.
    + assert (EX : exists G, dedge ts (T F (NEXT k)) (T F k) G).
      { destruct (at3 (ff (getF m F)) k) as [G|] eqn:Q; [exists G; now apply NBm|]. exfalso. apply (none_border m NBm) in Q; auto.
        assert (false = true) by (apply A; auto). discriminate. }
      rewrite (odd_Dv_inner ts ts' nv nv' o SF NVV O1 O2 ts'_len HC1 HC2 F k HF EX) in DN. exact DN.
Qed.
End Asm.
