(** Splitting every triangle of a surface in four gives a surface; border, fans and degrees. *)
From Coq Require Import Reals List Bool Arith Lia Relations Permutation.
From Verif Require Import Base M_Loop S_Loop P_Loop1 P_Loop2.
Import ListNotations.

Lemma ekey_eq a b c d : ekey a b = ekey c d <-> (a = c /\ b = d) \/ (a = d /\ b = c).
Proof.
  unfold ekey. destruct (Nat.ltb_spec a b), (Nat.ltb_spec c d); split; intros X;
    try (injection X as -> ->); try (destruct X as [[-> ->]|[-> ->]]); auto; try lia; f_equal; lia.
Qed.

Section Split.
Variables (ts ts' : list (V3 nat)) (nv nv' : nat) (o : nat -> c3 -> nat).
Hypothesis SF : surface ts nv.
Hypothesis NVV : (nv <= nv')%nat.
Hypothesis O1 : forall F k, (F < length ts)%nat -> (nv <= o F k < nv')%nat.
Hypothesis O2 : forall F k G j, (F < length ts)%nat -> (G < length ts)%nat -> (o F k = o G j <-> slot_key ts (F, k) = slot_key ts (G, j)).
Hypothesis O3 : forall x, (nv <= x < nv')%nat -> exists F k, (F < length ts)%nat /\ o F k = x.
Hypothesis L4 : length ts' = (4 * length ts)%nat.
Hypothesis C1 : forall F k, (F < length ts)%nat -> tri_at ts' (4 * F + cnum k) k = tri_at ts F k /\
  tri_at ts' (4 * F + cnum k) (NEXT k) = o F k /\ tri_at ts' (4 * F + cnum k) (PREV k) = o F (PREV k).
Hypothesis C2 : forall F k, (F < length ts)%nat -> tri_at ts' (4 * F + 3) k = o F k.
Notation T := (tri_at ts). Notation T' := (tri_at ts'). Notation n := (length ts).

Lemma o_same F k G j : (F < n)%nat -> (G < n)%nat -> o F k = o G j ->
  (F = G /\ k = j) \/ (T G j = T F (NEXT k) /\ T G (NEXT j) = T F k).
Proof.
  intros HF HG Q. apply O2 in Q; auto. unfold slot_key in Q; cbn in Q. apply ekey_eq in Q as [[A B]|[A B]]; [left|right; auto].
  assert (Q : F = G) by (apply (sf_orient ts nv SF (T F k) (T F (NEXT k))); [now apply dedge_mk|rewrite A, B; now apply dedge_mk]).
  subst G. split; [reflexivity|]. now apply (sf_inj ts nv SF F).
Qed.
Lemma o_rev F k G j : (F < n)%nat -> (G < n)%nat -> T G j = T F (NEXT k) -> T G (NEXT j) = T F k -> o F k = o G j.
Proof. intros HF HG A B. apply O2; auto. unfold slot_key; cbn. apply ekey_eq. right. auto. Qed.
Lemma o_inj F j k : (F < n)%nat -> o F j = o F k -> j = k.
Proof.
  intros HF Q. apply o_same in Q as [[_ Q]|[A B]]; auto. apply (sf_inj ts nv SF F) in A, B; auto. subst k. destruct j; discriminate.
Qed.
(** triangles that share two edges are the same *)
Lemma share2 F G j k j' k' : (F < n)%nat -> (G < n)%nat -> j <> k -> o F j = o G j' -> o F k = o G k' -> F = G.
Proof.
  intros HF HG NE A B. apply o_same in A as [[A _]|[A1 A2]]; auto. apply o_same in B as [[B _]|[B1 B2]]; auto.
  apply (sf_simple ts nv SF); auto. intros i.
  assert (X : i = j \/ i = NEXT j \/ i = k \/ i = NEXT k) by (destruct i, j, k; cbn; auto; congruence).
  destruct X as [->|[->|[->| ->]]]; [rewrite <- A2|rewrite <- A1|rewrite <- B2|rewrite <- B1]; now apply touches_mk.
Qed.

(** the faces of the new complex *)
Lemma face_cases H : (H < length ts')%nat -> exists F, (F < n)%nat /\ ((exists k, H = (4 * F + cnum k)%nat) \/ H = (4 * F + 3)%nat).
Proof.
  intros HL. exists (H / 4)%nat. pose proof (Nat.div_mod H 4 ltac:(lia)) as Q. pose proof (Nat.mod_upper_bound H 4 ltac:(lia)).
  split; [rewrite L4 in HL; apply Nat.div_lt_upper_bound; lia|]. remember (H mod 4)%nat as r. destruct r as [|[|[|[|r]]]]; try lia.
  - left. exists k0. unfold cnum. lia. - left. exists k1. unfold cnum. lia. - left. exists k2. unfold cnum. lia.
Qed.
Lemma ch_lt F k : (F < n)%nat -> (4 * F + cnum k < length ts')%nat. Proof. pose proof (cnum_lt k). lia. Qed.
Lemma mid_lt F : (F < n)%nat -> (4 * F + 3 < length ts')%nat. Proof. lia. Qed.
Lemma ch_inj F k G j : (4 * F + cnum k = 4 * G + cnum j)%nat -> F = G /\ k = j.
Proof. pose proof (cnum_lt k). pose proof (cnum_lt j). intros Q. assert (F = G) by lia. split; [auto|]. apply cnum_inj. lia. Qed.

(** directed edges of the new complex *)
Inductive de : nat -> nat -> nat -> Prop :=
| de_out F k : (F < n)%nat -> de (T F k) (o F k) (4 * F + cnum k)
| de_in F k : (F < n)%nat -> de (o F (PREV k)) (T F k) (4 * F + cnum k)
| de_cut F k : (F < n)%nat -> de (o F k) (o F (PREV k)) (4 * F + cnum k)
| de_mid F k : (F < n)%nat -> de (o F k) (o F (NEXT k)) (4 * F + 3).
Lemma dedge_de a b H : dedge ts' a b H <-> de a b H.
Proof.
  split.
  - intros (HL & i & <- & <-). destruct (face_cases H HL) as (F & HF & [(k & ->)| ->]).
    + destruct (C1 F k HF) as (A & B & C). destruct (corner_cases i k) as [->|[->| ->]].
      * rewrite A, B. now constructor. * rewrite next_next, B, C. now constructor. * rewrite next_prev, C, A. now constructor.
    + rewrite !C2 by auto. now constructor.
  - intros [F k HF|F k HF|F k HF|F k HF].
    + destruct (C1 F k HF) as (A & B & C). split; [now apply ch_lt|]. exists k. auto.
    + destruct (C1 F k HF) as (A & B & C). split; [now apply ch_lt|]. exists (PREV k). rewrite next_prev. auto.
    + destruct (C1 F k HF) as (A & B & C). split; [now apply ch_lt|]. exists (NEXT k). rewrite next_next. auto.
    + split; [now apply mid_lt|]. exists k. rewrite !C2 by auto. auto.
Qed.
Lemma T_not_o F k G j : (F < n)%nat -> (G < n)%nat -> T F k <> o G j.
Proof. intros HF HG Q. pose proof (sf_range ts nv SF F k HF). pose proof (O1 G j HG). lia. Qed.
Ltac clash := exfalso; match goal with
  | X : T ?F ?k = o ?G ?j |- _ => exact (T_not_o F k G j ltac:(assumption) ltac:(assumption) X)
  | X : o ?G ?j = T ?F ?k |- _ => exact (T_not_o F k G j ltac:(assumption) ltac:(assumption) (eq_sym X)) end.

Lemma split_orient a b H H' : dedge ts' a b H -> dedge ts' a b H' -> H = H'.
Proof.
  rewrite !dedge_de. intros X Y. destruct X as [F k HF|F k HF|F k HF|F k HF]; inversion Y as [G j HG A B|G j HG A B|G j HG A B|G j HG A B]; subst; try clash.
  - symmetry in B. apply o_same in B as [[-> ->]|[Q1 Q2]]; auto. exfalso. rewrite A in Q1. apply (sf_inj ts nv SF) in Q1; auto. now destruct k.
  - symmetry in A. apply o_same in A as [[Q1 Q2]|[Q1 Q2]]; auto.
    + apply prev_inj in Q2. now subst.
    + exfalso. rewrite !next_prev in *. rewrite B in Q2. apply (sf_inj ts nv SF) in Q2; auto. now destruct k.
  - assert (Q : F = G) by (apply (share2 F G k (PREV k) j (PREV j)); auto; intros Z; now destruct k). subst G.
    apply o_inj in A; auto. now subst.
  - assert (Q : F = G) by (apply (share2 F G k (PREV k) j (NEXT j)); auto; intros Z; now destruct k). subst G.
    apply o_inj in A, B; auto. subst. now destruct k.
  - assert (Q : F = G) by (apply (share2 F G k (NEXT k) j (PREV j)); auto; intros Z; now destruct k). subst G.
    apply o_inj in A, B; auto. subst. now destruct k.
  - assert (Q : F = G) by (apply (share2 F G k (NEXT k) j (NEXT j)); auto; intros Z; now destruct k). now subst G.
Qed.
Lemma split_inj H j k : (H < length ts')%nat -> T' H j = T' H k -> j = k.
Proof.
  intros HL. destruct (face_cases H HL) as (F & HF & [(i & ->)| ->]).
  - destruct (C1 F i HF) as (A & B & C).
    destruct (corner_cases j i) as [->|[->| ->]], (corner_cases k i) as [->|[->| ->]]; rewrite ?A, ?B, ?C; auto; intros Q; try clash.
    + apply o_inj in Q; auto. now destruct i. + apply o_inj in Q; auto. now destruct i.
  - rewrite !C2 by auto. now apply o_inj.
Qed.
Lemma split_range H k : (H < length ts')%nat -> (T' H k < nv')%nat.
Proof.
  intros HL. destruct (face_cases H HL) as (F & HF & [(i & ->)| ->]).
  - destruct (C1 F i HF) as (A & B & C). pose proof (sf_range ts nv SF F i HF). pose proof (O1 F i HF). pose proof (O1 F (PREV i) HF).
    destruct (corner_cases k i) as [->|[->| ->]]; rewrite ?A, ?B, ?C; lia.
  - rewrite C2 by auto. apply O1; auto.
Qed.
(** who touches what *)
Lemma touch_even H v : (v < nv)%nat -> (touches ts' H v <-> exists F k, (F < n)%nat /\ T F k = v /\ H = (4 * F + cnum k)%nat).
Proof.
  intros Hv. split.
  - intros (i & HL & Q). destruct (face_cases H HL) as (F & HF & [(k & ->)| ->]).
    + destruct (C1 F k HF) as (A & B & C). pose proof (O1 F k HF). pose proof (O1 F (PREV k) HF).
      destruct (corner_cases i k) as [->|[->| ->]]; [exists F, k; rewrite <- Q, A; auto|lia|lia].
    + rewrite C2 in Q by auto. pose proof (O1 F i HF). lia.
  - intros (F & k & HF & <- & ->). exists k. split; [now apply ch_lt|]. now apply C1.
Qed.
Lemma touch_odd H F k : (F < n)%nat -> (touches ts' H (o F k) <-> exists G j, (G < n)%nat /\ o G j = o F k /\
  (H = (4 * G + cnum j)%nat \/ H = (4 * G + cnum (NEXT j))%nat \/ H = (4 * G + 3)%nat)).
Proof.
  intros HF. split.
  - intros (i & HL & Q). destruct (face_cases H HL) as (G & HG & [(j & ->)| ->]).
    + destruct (C1 G j HG) as (A & B & C). destruct (corner_cases i j) as [->|[->| ->]].
      * rewrite A in Q. clash. * exists G, j. rewrite <- Q. auto. * exists G, (PREV j). rewrite <- Q, next_prev. auto.
    + rewrite C2 in Q by auto. exists G, i. auto.
  - intros (G & j & HG & <- & [->|[->| ->]]).
    + exists (NEXT j). split; [now apply ch_lt|]. now apply C1.
    + exists j. split; [now apply ch_lt|]. destruct (C1 G (NEXT j) HG) as (A & B & C). now rewrite prev_next in C.
    + exists j. split; [now apply mid_lt|]. now apply C2.
Qed.
Lemma split_simple H H' : (H < length ts')%nat -> (H' < length ts')%nat -> (forall k, touches ts' H' (T' H k)) -> H = H'.
Proof.
  intros HL HL' TT. destruct (face_cases H HL) as (F & HF & X), (face_cases H' HL') as (G & HG & Y).
  assert (OO : forall j, touches ts' H' (o F j) -> exists i, o F j = o G i).
  { intros j Tj. apply touch_odd in Tj as (G' & j' & HG' & Q & Z); auto. exists j'. rewrite <- Q.
    assert (G' = G); [|now subst]. destruct Z as [->|[->| ->]], Y as [(y & Y)| Y]; pose proof (cnum_lt j'); pose proof (cnum_lt (NEXT j'));
      try pose proof (cnum_lt y); lia. }
  assert (FG : F = G).
  { destruct X as [(k & ->)| ->].
    - destruct (C1 F k HF) as (A & B & C). pose proof (TT (NEXT k)) as T1. rewrite B in T1. pose proof (TT (PREV k)) as T2. rewrite C in T2.
      destruct (OO _ T1) as (i1 & Q1), (OO _ T2) as (i2 & Q2). apply (share2 F G k (PREV k) i1 i2); auto. now destruct k.
    - pose proof (TT k0) as T1. rewrite C2 in T1 by auto. pose proof (TT k1) as T2. rewrite C2 in T2 by auto.
      destruct (OO _ T1) as (i1 & Q1), (OO _ T2) as (i2 & Q2). apply (share2 F G k0 k1 i1 i2); auto. discriminate. }
  subst G. destruct X as [(k & ->)| ->], Y as [(y & ->)| ->]; auto.
  - pose proof (TT k) as T1. destruct (C1 F k HF) as (A & B & C). rewrite A in T1. apply touch_even in T1; [|now apply (sf_range ts nv SF)].
    destruct T1 as (F' & k' & HF' & Q & Z). apply ch_inj in Z as [<- <-]. apply (sf_inj ts nv SF) in Q; auto. now subst.
  - pose proof (TT k) as T1. destruct (C1 F k HF) as (A & B & C). rewrite A in T1. destruct T1 as (i & _ & Q). rewrite C2 in Q by auto. clash.
  - (* the middle triangle has three new vertices, a corner one only two *)
    pose proof (TT (PREV (PREV y))) as T1. rewrite C2 in T1 by auto. destruct T1 as (i & _ & Q). destruct (C1 F y HF) as (A & B & C).
    destruct (corner_cases i y) as [->|[->| ->]].
    + rewrite A in Q. clash.
    + rewrite B in Q. apply o_inj in Q; auto. now destruct y.
    + rewrite C in Q. apply o_inj in Q; auto. now destruct y.
Qed.
Lemma split_used v : (v < nv')%nat -> exists H, touches ts' H v.
Proof.
  intros Hv. destruct (lt_dec v nv) as [L|L].
  - destruct (sf_used ts nv SF v L) as (F & k & HF & Q). exists (4 * F + cnum k)%nat. apply touch_even; auto. exists F, k. auto.
  - destruct (O3 v) as (F & k & HF & <-); [lia|]. exists (4 * F + 3)%nat. apply touch_odd; auto. exists F, k. auto.
Qed.
(** fans *)
Lemma odd_chain1 F k : (F < n)%nat -> around ts' (o F k) (4 * F + cnum k) (4 * F + 3).
Proof. intros HF. exists (o F (PREV k)). rewrite !dedge_de. split; [now constructor|]. rewrite <- (next_prev k) at 2. now constructor. Qed.
Lemma odd_chain2 F k : (F < n)%nat -> around ts' (o F k) (4 * F + 3) (4 * F + cnum (NEXT k)).
Proof. intros HF. exists (o F (NEXT k)). rewrite !dedge_de. split; [now constructor|]. rewrite <- (prev_next k) at 2. now constructor. Qed.
Lemma odd_chain3 F k G j : (F < n)%nat -> (G < n)%nat -> T G j = T F (NEXT k) -> T G (NEXT j) = T F k ->
  around ts' (o F k) (4 * F + cnum (NEXT k)) (4 * G + cnum j).
Proof.
  intros HF HG A B. exists (T F (NEXT k)). rewrite !dedge_de. split.
  - pose proof (de_in F (NEXT k) HF) as X. now rewrite prev_next in X.
  - rewrite (o_rev F k G j) by auto. rewrite <- A. now constructor.
Qed.
Definition ch v F := (4 * F + cnum (if Nat.eqb (T F k0) v then k0 else if Nat.eqb (T F k1) v then k1 else k2))%nat.
Lemma ch_eq F k : (F < n)%nat -> ch (T F k) F = (4 * F + cnum k)%nat.
Proof.
  intros HF. unfold ch. assert (X : forall j, j <> k -> Nat.eqb (T F j) (T F k) = false).
  { intros j Hj. apply Nat.eqb_neq. intros Q. apply (sf_inj ts nv SF) in Q; auto. }
  destruct k; rewrite ?Nat.eqb_refl, ?X by discriminate; reflexivity.
Qed.
Lemma clos_map (R1 R2 : nat -> nat -> Prop) (f : nat -> nat) : (forall a b, R1 a b -> R2 (f a) (f b)) ->
  forall a b, clos_refl_sym_trans nat R1 a b -> clos_refl_sym_trans nat R2 (f a) (f b).
Proof. intros H a b. induction 1; [apply rst_step; auto|apply rst_refl|now apply rst_sym|eapply rst_trans; eauto]. Qed.
Lemma ch_around v F G : around ts v F G -> around ts' v (ch v F) (ch v G).
Proof.
  intros (w & (HF & k & A1 & A2) & (HG & j & B1 & B2)). rewrite <- A1 at 2. rewrite ch_eq by auto. rewrite <- B2 at 2. rewrite ch_eq by auto.
  exists (o F k). rewrite !dedge_de. split; [rewrite <- A1; now constructor|].
  rewrite (o_rev F k G j); auto; try congruence. rewrite <- B2. pose proof (de_in G (NEXT j) HG) as X. now rewrite prev_next in X.
Qed.
Lemma split_fan v H H' : touches ts' H v -> touches ts' H' v -> clos_refl_sym_trans nat (around ts' v) H H'.
Proof.
  intros X Y. destruct (lt_dec v nv) as [L|L].
  - apply touch_even in X as (F & k & HF & A & ->), Y as (G & j & HG & B & ->); auto.
    rewrite <- (ch_eq F k), <- (ch_eq G j), A, B by auto. apply (clos_map (around ts v)); [apply ch_around|].
    apply (sf_fan ts nv SF); [exists k|exists j]; now split.
  - assert (Hv : (v < nv')%nat) by (destruct X as (i & HL & <-); now apply split_range).
    destruct (O3 v) as (F & k & HF & <-); [lia|].
    apply touch_odd in X as (G & j & HG & A & X); auto. apply touch_odd in Y as (G' & j' & HG' & B & Y); auto.
    assert (IN : forall (G : nat) (j : c3) (H : nat), (G < n)%nat -> o G j = o F k -> (H = (4 * G + cnum j)%nat \/ H = (4 * G + cnum (NEXT j))%nat \/ H = (4 * G + 3)%nat) ->
      clos_refl_sym_trans nat (around ts' (o F k)) (4 * G + 3)%nat H).
    { intros G0 j0 H0 HG0 <- [-> |[-> | ->]].
      - apply rst_sym, rst_step, odd_chain1; auto. - apply rst_step, odd_chain2; auto. - apply rst_refl. }
    apply rst_trans with (4 * G + 3)%nat; [apply rst_sym; apply (IN G j); auto|].
    apply rst_trans with (4 * G' + 3)%nat; [|apply (IN G' j'); auto].
    assert (Q : o G j = o G' j') by congruence. apply o_same in Q as [[-> _]|[Q1 Q2]]; auto; [apply rst_refl|].
    apply rst_trans with (4 * G + cnum (NEXT j))%nat; [apply (IN G j); auto|].
    apply rst_trans with (4 * G' + cnum j')%nat; [|apply rst_sym; apply (IN G' j'); auto].
    apply rst_step. rewrite <- A. now apply odd_chain3.
Qed.
Lemma split_surface : surface ts' nv'.
Proof.
  split; [exact split_range|]. split; [exact split_inj|]. split; [exact split_orient|]. split; [exact split_simple|].
  split; [exact split_used|exact split_fan].
Qed.
(** number of triangles at old and new vertices *)
Lemma even_Dv v : (v < nv)%nat -> length (Dv ts' v) = length (Dv ts v).
Proof.
  intros Hv. rewrite <- (map_length (ch v) (Dv ts v)). apply Permutation_length, NoDup_Permutation; [apply Dv_nodup| |].
  - apply NoDup_map_inj; [apply Dv_nodup|]. intros x y Hx Hy Q. apply Dv_in in Hx as (k & HF & A), Hy as (j & HG & B).
    rewrite <- A in Q at 1. rewrite ch_eq in Q by auto. rewrite <- B in Q. rewrite ch_eq in Q by auto. now apply ch_inj in Q.
  - intros H. rewrite Dv_in, touch_even, in_map_iff by auto. split.
    + intros (F & k & HF & <- & ->). exists F. rewrite ch_eq by auto. split; [reflexivity|]. apply Dv_in. now exists k.
    + intros (F & <- & HIn). apply Dv_in in HIn as (k & HF & <-). rewrite ch_eq by auto. exists F, k. auto.
Qed.
Lemma odd_Dv F k : (F < n)%nat -> length (Dv ts' (o F k)) =
  if (existsb (fun G => existsb (fun j => Nat.eqb (T G j) (T F (NEXT k)) && Nat.eqb (T G (NEXT j)) (T F k)) [k0; k1; k2]) (seq 0 n)) then 6%nat else 3%nat.
Proof.
  intros HF. destruct (existsb _ _) eqn:X.
  - apply existsb_exists in X as (G & HG & X). apply existsb_exists in X as (j & _ & X). apply andb_prop in X as [A B].
    apply Nat.eqb_eq in A, B. apply in_seq in HG as [_ HG]. cbn in HG.
    pose proof (o_rev F k G j HF HG A B) as Q.
    assert (FG : F <> G).
    { intros <-. apply (sf_inj ts nv SF) in A, B; auto. subst j. now destruct k. }
    change 6%nat with (length [4 * F + cnum k; 4 * F + cnum (NEXT k); 4 * F + 3; 4 * G + cnum j; 4 * G + cnum (NEXT j); 4 * G + 3]%nat).
    apply Permutation_length, NoDup_Permutation; [apply Dv_nodup| |].
    + pose proof (cnum_lt k). pose proof (cnum_lt (NEXT k)). pose proof (cnum_lt j). pose proof (cnum_lt (NEXT j)).
      assert (cnum k <> cnum (NEXT k)) by (now destruct k). assert (cnum j <> cnum (NEXT j)) by (now destruct j).
      repeat constructor; cbn [In]; lia.
    + intros H. rewrite Dv_in, touch_odd by auto. split.
      * intros (G' & j' & HG' & Q' & Z). destruct (o_same F k G' j' HF HG' (eq_sym Q')) as [[<- <-]|[A' B']].
        -- destruct Z as [-> |[-> | ->]]; cbn; auto 10.
        -- assert (E1' : G' = G). { apply (sf_orient ts nv SF (T F (NEXT k)) (T F k)); [rewrite <- A', <- B'|rewrite <- A, <- B]; now apply dedge_mk. }
           subst G'. assert (j' = j) by (apply (sf_inj ts nv SF G); auto; congruence). subst j'.
           destruct Z as [-> |[-> | ->]]; cbn; auto 10.
      * intros [<-|[<-|[<-|[<-|[<-|[<-|[]]]]]]]; [exists F, k|exists F, k|exists F, k|exists G, j|exists G, j|exists G, j]; auto.
  - change 3%nat with (length [4 * F + cnum k; 4 * F + cnum (NEXT k); 4 * F + 3]%nat).
    apply Permutation_length, NoDup_Permutation; [apply Dv_nodup| |].
    + pose proof (cnum_lt k). pose proof (cnum_lt (NEXT k)). assert (cnum k <> cnum (NEXT k)) by (now destruct k).
      repeat constructor; cbn [In]; lia.
    + intros H. rewrite Dv_in, touch_odd by auto. split.
      * intros (G' & j' & HG' & Q' & Z). destruct (o_same F k G' j' HF HG' (eq_sym Q')) as [[<- <-]|[A' B']].
        -- destruct Z as [-> |[-> | ->]]; cbn; auto 10.
        -- exfalso. assert (Y : existsb (fun G => existsb (fun j => Nat.eqb (T G j) (T F (NEXT k)) && Nat.eqb (T G (NEXT j)) (T F k)) [k0; k1; k2]) (seq 0 n) = true).
           { apply existsb_exists. exists G'. split; [apply in_seq; lia|]. apply existsb_exists. exists j'. split; [destruct j'; cbn; auto|].
             rewrite A', B', !Nat.eqb_refl. reflexivity. }
           congruence.
      * intros [<-|[<-|[<-|[]]]]; exists F, k; auto.
Qed.
Lemma odd_Dv_border F k : (F < n)%nat -> border ts (T F k) (T F (NEXT k)) -> length (Dv ts' (o F k)) = 3%nat.
Proof.
  intros HF [_ B]. rewrite odd_Dv by auto. destruct (existsb _ _) eqn:X; [|reflexivity]. exfalso.
  apply existsb_exists in X as (G & HG & X). apply existsb_exists in X as (j & _ & X). apply andb_prop in X as [P Q].
  apply Nat.eqb_eq in P, Q. apply in_seq in HG as [_ HG]. apply B. exists G. rewrite <- P, <- Q. now apply dedge_mk.
Qed.
Lemma odd_Dv_inner F k : (F < n)%nat -> (exists G, dedge ts (T F (NEXT k)) (T F k) G) -> length (Dv ts' (o F k)) = 6%nat.
Proof.
  intros HF (G & HG & j & A & B). rewrite odd_Dv by auto. destruct (existsb _ _) eqn:X; [reflexivity|]. exfalso.
  assert (Y : existsb (fun G => existsb (fun j => Nat.eqb (T G j) (T F (NEXT k)) && Nat.eqb (T G (NEXT j)) (T F k)) [k0; k1; k2]) (seq 0 n) = true).
  { apply existsb_exists. exists G. split; [apply in_seq; lia|]. apply existsb_exists. exists j. split; [destruct j; cbn; auto|].
    rewrite A, B, !Nat.eqb_refl. reflexivity. }
  congruence.
Qed.
End Split.
