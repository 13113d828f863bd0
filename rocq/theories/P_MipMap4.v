(** Mip maps: construction and lookup. *)
From Coq Require Import Reals List ZArith Bool Lra Lia.
From Verif Require Import Base M_Utility M_Film M_MipMap S_Texture P_Film P_Utility P_MipMap1 P_MipMap2 P_MipMap3.
Import ListNotations.
Open Scope R_scope.

Record good (m : mip) (l0 : image) (a b : Z) : Prop := mkGood {
  g_a : (0 <= a)%Z; g_b : (0 <= b)%Z;
  g_len : Z.of_nat (length (m_pyr m)) = (1 + Z.max a b)%Z;
  g_0 : nth_error (m_pyr m) 0 = Some l0;
  g_lv : forall i li, nth_error (m_pyr m) i = Some li ->
    shaped li (fst (lshape i (2 ^ a) (2 ^ b))) (snd (lshape i (2 ^ a) (2 ^ b))) /\
    forall li', nth_error (m_pyr m) (S i) = Some li' -> down (m_wrap m) li = Ok li' }.

Lemma levels_count a b : (0 <= a)%Z -> (0 <= b)%Z -> Ztrunc (log2R (IZR (Z.max (2 ^ a) (2 ^ b)))) = Z.max a b.
Proof.
  intros A B. rewrite max_pow by assumption. rewrite log2_pow by lia. rewrite Ztrunc_nonneg by (apply IZR_le; lia). apply Zfloor_IZR.
Qed.
Lemma good_pyr w tri an l0 a b W H : (0 <= a)%Z -> (0 <= b)%Z -> shaped l0 (2 ^ a) (2 ^ b) ->
  exists p, pyramid w (Z.to_nat (Ztrunc (log2R (IZR (Z.max (2 ^ a) (2 ^ b)))))) l0 = Ok p /\
    good (mkMip w tri an p W H) l0 a b.
Proof.
  intros A B Sh. rewrite levels_count by assumption.
  destruct (pyramid_ok w (Z.to_nat (Z.max a b)) l0 _ _ Sh) as (p & -> & L & Z0 & P). exists p. split; [reflexivity|].
  constructor; cbn [m_pyr m_wrap]; auto. rewrite L. lia.
Qed.
Lemma make_pow w tri an sp img a b : (0 <= a)%Z -> (0 <= b)%Z -> shaped img (2 ^ a) (2 ^ b) ->
  exists p, mip_make w tri an sp img = Ok (mkMip w tri an p (2 ^ a) (2 ^ b)) /\ good (mkMip w tri an p (2 ^ a) (2 ^ b)) img a b.
Proof.
  intros A B Sh. unfold mip_make. rewrite (shaped_rows _ _ _ Sh), (shaped_cols _ _ _ Sh), !is_pow_2_pow by assumption. cbn [andb bind]. cbv zeta.
  destruct (good_pyr w tri an img a b (2 ^ a) (2 ^ b) A B Sh) as (p & -> & G). exists p. split; [reflexivity|exact G].
Qed.
Lemma make_square w tri an sp img n : shaped img n n ->
  exists m l0 k, mip_make w tri an sp img = Ok m /\ good m l0 k k /\ m_wrap m = w /\ m_tri m = tri /\
    (2 ^ k)%Z = next_pow_2 n /\
    (forall c, w <> BLACK -> 0 <= c -> within img n n c c -> within l0 (2 ^ k) (2 ^ k) c c).
Proof.
  intros Sh. destruct (Sh) as (Np & _). destruct (next_pow_2_main n ltac:(lia)) as (k & K & NP & Q & Lt0). destruct (is_pow_2 n) eqn:P.
  - assert (E1 : n = (2 ^ k)%Z).
    { apply is_pow_2_only in P as (j & J & ->); [|lia]. rewrite <- NP. unfold next_pow_2. rewrite log2_pow, Zceil_IZR by exact J.
      unfold int_pow2. destruct (0 <=? j)%Z eqn:X; [reflexivity|lia]. }
    rewrite E1 in Sh. destruct (make_pow w tri an sp img k k K K Sh) as (p & HM & G).
    eexists _, img, k. split; [exact HM|]. split; [exact G|]. cbn. rewrite NP, E1. repeat split; auto; apply H1; assumption.
  - unfold mip_make. rewrite (shaped_rows _ _ _ Sh), (shaped_cols _ _ _ Sh), P. cbn [andb]. cbv zeta.
    destruct (resample_square w sp img n Sh) as (l0 & -> & S0 & C0 & _). cbn [bind]. rewrite NP in S0, C0 |- *.
    destruct (good_pyr w tri an l0 k k (2 ^ k) (2 ^ k) K K S0) as (p & -> & G). cbn [bind].
    eexists _, l0, k. split; [reflexivity|]. split; [exact G|]. cbn. repeat split; auto.
    + intros. rewrite (C0 c); auto; [lra|]. intros i' j' Hi Hj. specialize (H1 i' j' Hi Hj). lra.
    + intros. rewrite (C0 c); auto; [lra|]. intros i' j' Hi Hj. specialize (H1 i' j' Hi Hj). lra.
Qed.

Section Lookup.
Context {m : mip} {l0 : image} {a b : Z} (G : good m l0 a b).
Let W := m_wrap m.
Lemma top_eq : n_levels m = (1 + Z.max a b)%Z. Proof. apply (g_len _ _ _ _ G). Qed.
Lemma level_ex lv : (0 <= lv < n_levels m)%Z -> exists l, get1 (m_pyr m) lv = Ok l /\ nth_error (m_pyr m) (Z.to_nat lv) = Some l /\
  shaped l (fst (lshape (Z.to_nat lv) (2 ^ a) (2 ^ b))) (snd (lshape (Z.to_nat lv) (2 ^ a) (2 ^ b))).
Proof.
  intros H. unfold n_levels in H. destruct (nth_error (m_pyr m) (Z.to_nat lv)) as [l|] eqn:Q; [|apply nth_error_None in Q; lia].
  exists l. split; [|split; [reflexivity|apply (g_lv _ _ _ _ G _ _ Q)]]. unfold get1. rewrite np_index_in by lia. cbn [bind]. now rewrite Q.
Qed.
(** bilinear interpolation of the level [l] *)
Definition bil (w : wrap) (l : image) (r c : Z) (s t : R) : R :=
  let x := s * IZR r - / 2 in let y := t * IZR c - / 2 in
  let i := Zfloor x in let j := Zfloor y in let dx := x - IZR i in let dy := y - IZR j in
  (1 - dx) * (1 - dy) * tx w l r c i j + (1 - dx) * dy * tx w l r c i (j + 1) + dx * (1 - dy) * tx w l r c (i + 1) j + dx * dy * tx w l r c (i + 1) (j + 1).
Lemma triangle_ok lv s t l r c : let lv' := zclip lv 0 (n_levels m - 1) in
  nth_error (m_pyr m) (Z.to_nat lv') = Some l -> shaped l r c -> triangle m lv s t = Ok (bil W l r c s t).
Proof.
  intros lv' H Sh. unfold triangle. fold lv'. pose proof top_eq. pose proof (g_a _ _ _ _ G). pose proof (g_b _ _ _ _ G).
  pose proof (zclip_range lv 0 (n_levels m - 1) ltac:(lia)) as B. fold lv' in B.
  destruct (level_ex lv' ltac:(lia)) as (l' & -> & H' & _). rewrite H in H'. injection H' as <-. cbn [bind]. cbv zeta.
  rewrite (shaped_rows _ _ _ Sh), (shaped_cols _ _ _ Sh), !(texel_ok _ l r c _ _ Sh). reflexivity.
Qed.
Lemma bil_within w l r c s t lo hi : shaped l r c -> within l r c lo hi -> okb w lo hi -> lo <= bil w l r c s t <= hi.
Proof.
  intros (R & C & _) H B. unfold bil. cbv zeta.
  set (x := s * IZR r - / 2). set (y := t * IZR c - / 2). destruct (Zfloor_spec x) as [X1 X2]. destruct (Zfloor_spec y) as [Y1 Y2].
  pose proof (tx_within w l r c lo hi (Zfloor x) (Zfloor y) R C H B) as A1.
  pose proof (tx_within w l r c lo hi (Zfloor x) (Zfloor y + 1) R C H B) as A2.
  pose proof (tx_within w l r c lo hi (Zfloor x + 1) (Zfloor y) R C H B) as A3.
  pose proof (tx_within w l r c lo hi (Zfloor x + 1) (Zfloor y + 1) R C H B) as A4.
  set (p := tx w l r c (Zfloor x) (Zfloor y)) in *. set (q := tx w l r c (Zfloor x) (Zfloor y + 1)) in *.
  set (u := tx w l r c (Zfloor x + 1) (Zfloor y)) in *. set (v := tx w l r c (Zfloor x + 1) (Zfloor y + 1)) in *.
  set (dx := x - IZR (Zfloor x)). set (dy := y - IZR (Zfloor y)). assert (D1 : 0 <= dx < 1) by (unfold dx; lra). assert (D2 : 0 <= dy < 1) by (unfold dy; lra).
  assert (M : lo <= (1 - dy) * p + dy * q <= hi) by (split; nra). assert (N : lo <= (1 - dy) * u + dy * v <= hi) by (split; nra).
  replace ((1 - dx) * (1 - dy) * p + (1 - dx) * dy * q + dx * (1 - dy) * u + dx * dy * v) with
    ((1 - dx) * ((1 - dy) * p + dy * q) + dx * ((1 - dy) * u + dy * v)) by ring. split; nra.
Qed.
Lemma levels_within lo hi : within l0 (2 ^ a) (2 ^ b) lo hi -> okb W lo hi -> forall i li, nth_error (m_pyr m) i = Some li ->
  within li (fst (lshape i (2 ^ a) (2 ^ b))) (snd (lshape i (2 ^ a) (2 ^ b))) lo hi.
Proof. intros H B. apply (pyramid_within W lo hi B _ _ _ l0); [apply (g_0 _ _ _ _ G)|exact H|apply (g_lv _ _ _ _ G)]. Qed.
Lemma triangle_within lv s t lo hi : within l0 (2 ^ a) (2 ^ b) lo hi -> okb W lo hi -> exists x, triangle m lv s t = Ok x /\ lo <= x <= hi.
Proof.
  intros H B. pose proof top_eq. pose proof (g_a _ _ _ _ G). pose proof (g_b _ _ _ _ G).
  pose proof (zclip_range lv 0 (n_levels m - 1) ltac:(lia)) as Bl.
  destruct (level_ex (zclip lv 0 (n_levels m - 1)) ltac:(lia)) as (l & _ & Hl & Sh).
  eexists. split; [apply (triangle_ok lv s t l _ _ Hl Sh)|]. apply bil_within; auto. eapply levels_within; eauto.
Qed.
Lemma look_up3_within s t width lo hi : within l0 (2 ^ a) (2 ^ b) lo hi -> okb W lo hi -> exists x, look_up3 m s t width = Ok x /\ lo <= x <= hi.
Proof.
  intros H B. unfold look_up3. cbv zeta. set (level := _ + _). destruct (Rltb level 0) eqn:Q; [now apply triangle_within|].
  destruct (Rleb _ level) eqn:Q1; [now apply triangle_within|]. Rb.
  destruct (triangle_within (ftoi level) s t lo hi H B) as (x & -> & X). destruct (triangle_within (ftoi level + 1) s t lo hi H B) as (y & -> & Y).
  cbn [bind]. eexists. split; [reflexivity|]. unfold ftoi. destruct (Zfloor_spec level). split; nra.
Qed.
Lemma look_up6_tri s t a0 b0 a1 b1 lo hi : m_tri m = true -> within l0 (2 ^ a) (2 ^ b) lo hi -> okb W lo hi ->
  exists x, look_up6 m s t a0 b0 a1 b1 = Ok x /\ lo <= x <= hi.
Proof. intros T H B. unfold look_up6. rewrite T. now apply look_up3_within. Qed.
(** the coarsest level is one texel *)
Lemma top_shape : exists l, nth_error (m_pyr m) (Z.to_nat (Z.max a b)) = Some l /\ shaped l 1 1.
Proof.
  pose proof top_eq. pose proof (g_a _ _ _ _ G). pose proof (g_b _ _ _ _ G).
  destruct (level_ex (Z.max a b) ltac:(lia)) as (l & _ & Hl & Sh). exists l. split; [exact Hl|].
  rewrite lshape_top in Sh; auto; lia.
Qed.
End Lookup.
