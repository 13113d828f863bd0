(** Arrays, texels and the image pyramid. *)
From Coq Require Import Reals List ZArith Bool Lra Lia.
From Verif Require Import Base M_Utility M_Film M_MipMap S_Texture P_Film P_Utility.
Import ListNotations.
Open Scope R_scope.

Lemma shaped_rows l r c : shaped l r c -> rows l = r.
Proof. intros (_ & _ & H & _). exact H. Qed.
Lemma shaped_cols l r c : shaped l r c -> cols l = c.
Proof.
  intros (R & C & L & F). unfold cols. destruct l as [|x l]; [cbn in L; lia|]. now inversion F.
Qed.
Lemma get2_px l r c i j : shaped l r c -> (0 <= i < r)%Z -> (0 <= j < c)%Z -> get2 l i j = Ok (pixel l i j).
Proof.
  intros (R & C & L & F) Hi Hj. unfold get2. rewrite (get1_in [] l i) by lia. cbn [bind].
  assert (Z.of_nat (length (nth (Z.to_nat i) l [])) = c).
  { apply (proj1 (List.Forall_forall _ _) F). apply nth_In. lia. }
  rewrite (get1_in 0) by lia. reflexivity.
Qed.
Lemma mapM_ok {A B} (f : A -> res B) (g : A -> B) l : (forall a, In a l -> f a = Ok (g a)) -> mapM f l = Ok (map g l).
Proof.
  induction l as [|a l IH]; intros H; [reflexivity|]. cbn. rewrite H by (now left). cbn. rewrite IH by (intros; apply H; now right). reflexivity.
Qed.
Lemma Zrange_length a b : length (Zrange a b) = Z.to_nat (b - a).
Proof. unfold Zrange. now rewrite map_length, seq_length. Qed.
Lemma Zrange_nth a b k d : (k < Z.to_nat (b - a))%nat -> nth k (Zrange a b) d = (a + Z.of_nat k)%Z.
Proof.
  intros H. unfold Zrange.
  rewrite (nth_indep _ d ((fun k => (a + Z.of_nat k)%Z) 0%nat)) by (rewrite map_length, seq_length; exact H).
  rewrite (map_nth (fun k => (a + Z.of_nat k)%Z)). now rewrite seq_nth.
Qed.
Lemma fill_ok r c f g : (0 < r)%Z -> (0 < c)%Z ->
  (forall i j, (0 <= i < r)%Z -> (0 <= j < c)%Z -> f i j = Ok (g i j)) ->
  exists m, fill r c f = Ok m /\ shaped m r c /\ forall i j, (0 <= i < r)%Z -> (0 <= j < c)%Z -> pixel m i j = g i j.
Proof.
  intros R C H. exists (map (fun i => map (fun j => g i j) (Zrange 0 c)) (Zrange 0 r)). split; [|split].
  - unfold fill. apply mapM_ok. intros i Hi. apply Zrange_In in Hi. apply mapM_ok. intros j Hj. apply Zrange_In in Hj. now apply H.
  - repeat split; auto; [rewrite map_length, Zrange_length; lia|]. apply List.Forall_forall. intros row HIn. apply in_map_iff in HIn as (i & <- & _).
    rewrite map_length, Zrange_length. lia.
  - intros i j Hi Hj. unfold pixel.
    rewrite (nth_indep _ [] ((fun i => map (fun j => g i j) (Zrange 0 c)) 0%Z)) by (rewrite map_length, Zrange_length; lia).
    rewrite (map_nth (fun i => map (fun j => g i j) (Zrange 0 c))). rewrite Zrange_nth by lia.
    rewrite (nth_indep _ 0 ((fun j => g (0 + Z.of_nat (Z.to_nat i))%Z j) 0%Z)) by (rewrite map_length, Zrange_length; lia).
    rewrite (map_nth (fun j => g (0 + Z.of_nat (Z.to_nat i))%Z j)). rewrite Zrange_nth by lia. f_equal; lia.
Qed.

(** the value of a texel *)
Definition tx (w : wrap) (l : image) (r c s t : Z) : R :=
  match w with
  | REPEAT => pixel l (s mod r) (t mod c)
  | CLAMP => pixel l (zclip s 0 (r - 1)) (zclip t 0 (c - 1))
  | BLACK => if (s <? 0)%Z || (r <=? s)%Z || (t <? 0)%Z || (c <=? t)%Z then 0 else pixel l s t
  end.
Lemma zclip_range x lo hi : (lo <= hi)%Z -> (lo <= zclip x lo hi <= hi)%Z.
Proof. unfold zclip. lia. Qed.
Lemma texel_ok w l r c s t : shaped l r c -> texel w l s t = Ok (tx w l r c s t).
Proof.
  intros H. unfold texel, tx. rewrite (shaped_rows l r c H), (shaped_cols l r c H). destruct (H) as (R & C & _).
  destruct w.
  - apply (get2_px l r c); auto; apply Z.mod_pos_bound; assumption.
  - destruct (_ || _) eqn:Q; [reflexivity|]. repeat (apply orb_false_iff in Q as [Q ?]).
    apply (get2_px l r c); auto; lia.
  - apply (get2_px l r c); auto; apply zclip_range || idtac; try (pose proof (zclip_range s 0 (r - 1)); pose proof (zclip_range t 0 (c - 1)); lia).
Qed.
Definition okb (w : wrap) (lo hi : R) : Prop := match w with BLACK => lo <= 0 <= hi | _ => True end.
Lemma tx_within w l r c lo hi s t : (0 < r)%Z -> (0 < c)%Z -> within l r c lo hi -> okb w lo hi -> lo <= tx w l r c s t <= hi.
Proof.
  intros R C H B. unfold tx. destruct w; cbn in B.
  - apply H; apply Z.mod_pos_bound; assumption.
  - destruct (_ || _) eqn:Q; [exact B|]. repeat (apply orb_false_iff in Q as [Q ?]). apply H; lia.
  - pose proof (zclip_range s 0 (r - 1)). pose proof (zclip_range t 0 (c - 1)). apply H; lia.
Qed.

(** one level down *)
Definition half (x : Z) : Z := Z.max 1 (x / 2).
Lemma half_pos x : (0 < half x)%Z. Proof. unfold half. lia. Qed.
Definition avg4 (w : wrap) (l : image) (r c s t : Z) : R :=
  / 4 * (tx w l r c (2 * s) (2 * t) + tx w l r c (2 * s + 1) (2 * t) + tx w l r c (2 * s) (2 * t + 1) + tx w l r c (2 * s + 1) (2 * t + 1)).
Lemma down_ok w l r c : shaped l r c -> exists m, down w l = Ok m /\ shaped m (half c) (half r) /\
  forall a b, (0 <= a < half c)%Z -> (0 <= b < half r)%Z -> pixel m a b = avg4 w l r c b a.
Proof.
  intros H. unfold down. rewrite (shaped_rows l r c H), (shaped_cols l r c H).
  apply (fill_ok _ _ _ (fun t s => avg4 w l r c s t)); try apply half_pos.
  intros t s _ _. rewrite !(texel_ok w l r c _ _ H). reflexivity.
Qed.
Lemma down_within w l r c m lo hi : shaped l r c -> within l r c lo hi -> okb w lo hi -> down w l = Ok m -> within m (half c) (half r) lo hi.
Proof.
  intros H W B D. destruct (down_ok w l r c H) as (m' & D' & S' & P). rewrite D in D'. injection D' as <-.
  intros a b Ha Hb. rewrite P by assumption. destruct H as (R & C & _). unfold avg4.
  pose proof (tx_within w l r c lo hi (2 * b) (2 * a) R C W B). pose proof (tx_within w l r c lo hi (2 * b + 1) (2 * a) R C W B).
  pose proof (tx_within w l r c lo hi (2 * b) (2 * a + 1) R C W B). pose proof (tx_within w l r c lo hi (2 * b + 1) (2 * a + 1) R C W B). lra.
Qed.
(** shapes of the levels: they alternate *)
Fixpoint lshape (k : nat) (r c : Z) : Z * Z := match k with O => (r, c) | S k => lshape k (half c) (half r) end.
Lemma pyramid_ok w n : forall l r c, shaped l r c -> exists p, pyramid w n l = Ok p /\ length p = S n /\ nth_error p 0 = Some l /\
  forall i li, nth_error p i = Some li -> shaped li (fst (lshape i r c)) (snd (lshape i r c)) /\
    forall li', nth_error p (S i) = Some li' -> down w li = Ok li'.
Proof.
  induction n as [|n IH]; intros l r c H.
  - exists [l]. cbn. refine (conj eq_refl (conj eq_refl (conj eq_refl _))). intros [|i] li Hi; cbn in Hi; [injection Hi as <-|destruct i; discriminate].
    split; [exact H|]. discriminate.
  - cbn [pyramid]. destruct (down_ok w l r c H) as (m & D & Sm & _). rewrite D. cbn [bind].
    destruct (IH m (half c) (half r) Sm) as (p & -> & L & Z0 & P). cbn [bind].
    exists (l :: p). cbn [length nth_error]. refine (conj eq_refl (conj (f_equal S L) (conj eq_refl _))). intros [|i] li Hi.
    + cbn in Hi. injection Hi as <-. split; [exact H|]. rewrite Z0. intros li' Q; injection Q as <-. exact D.
    + cbn [nth_error lshape] in Hi |- *. apply (P i li Hi).
Qed.
Lemma pyramid_within w lo hi : okb w lo hi -> forall p r c l, nth_error p 0 = Some l -> within l r c lo hi ->
  (forall i li, nth_error p i = Some li -> shaped li (fst (lshape i r c)) (snd (lshape i r c)) /\
    forall li', nth_error p (S i) = Some li' -> down w li = Ok li') ->
  forall i li, nth_error p i = Some li -> within li (fst (lshape i r c)) (snd (lshape i r c)) lo hi.
Proof.
  intros B p. induction p as [|x p IH]; intros r c l Z0 W P i li Hi; [destruct i; discriminate|].
  cbn in Z0. injection Z0 as ->. destruct i as [|i]; [cbn in Hi; injection Hi as <-; exact W|].
  cbn in Hi. destruct p as [|y p]; [destruct i; discriminate|].
  destruct (P 0%nat l eq_refl) as [Sl D]. specialize (D y eq_refl). cbn [lshape fst snd] in Sl |- *.
  apply (IH (half c) (half r) y); auto.
  - eapply down_within; eauto.
  - intros j lj Hj. apply (P (S j) lj). exact Hj.
Qed.

Lemma half_pow k : (0 <= k)%Z -> half (2 ^ k) = (2 ^ Z.max 0 (k - 1))%Z.
Proof.
  intros H. unfold half. destruct (Z.eq_dec k 0) as [->|N]; [reflexivity|].
  rewrite Z.max_r with (n := 0%Z) by lia.
  assert (Q : (2 ^ k / 2 = 2 ^ (k - 1))%Z).
  { replace k with (k - 1 + 1)%Z at 1 by lia. rewrite Z.pow_add_r by lia. now rewrite Z.div_mul by lia. }
  rewrite Q. pose proof (Z.pow_pos_nonneg 2 (k - 1)). lia.
Qed.
Lemma lshape_pow n : forall a b, (0 <= a)%Z -> (0 <= b)%Z ->
  lshape n (2 ^ a) (2 ^ b) = if Nat.even n then (2 ^ Z.max 0 (a - Z.of_nat n), 2 ^ Z.max 0 (b - Z.of_nat n))%Z
                             else (2 ^ Z.max 0 (b - Z.of_nat n), 2 ^ Z.max 0 (a - Z.of_nat n))%Z.
Proof.
  induction n as [|n IH]; intros a b A B.
  - cbn. f_equal; f_equal; lia.
  - cbn [lshape]. rewrite !half_pow by assumption. rewrite IH by lia.
    rewrite Nat.even_succ, <- Nat.negb_even. destruct (Nat.even n); cbn [negb]; f_equal; f_equal; lia.
Qed.
Lemma lshape_top a b n : (0 <= a)%Z -> (0 <= b)%Z -> (Z.max a b <= Z.of_nat n)%Z -> lshape n (2 ^ a) (2 ^ b) = (1, 1)%Z.
Proof.
  intros A B H. rewrite lshape_pow by assumption. rewrite !Z.max_l by lia. now destruct (Nat.even n).
Qed.
Lemma lshape_pos n : forall r c, (0 < r)%Z -> (0 < c)%Z -> (0 < fst (lshape n r c))%Z /\ (0 < snd (lshape n r c))%Z.
Proof. induction n as [|n IH]; intros r c R C; [now cbn|]. cbn. apply IH; apply half_pos. Qed.
Lemma log2_pow k : (0 <= k)%Z -> log2R (IZR (2 ^ k)) = IZR k.
Proof. intros H. unfold log2R. rewrite IZR_pow2 by exact H. rewrite ln_exp. field. pose proof ln2_pos; lra. Qed.
Lemma max_pow a b : (0 <= a)%Z -> (0 <= b)%Z -> Z.max (2 ^ a) (2 ^ b) = (2 ^ Z.max a b)%Z.
Proof.
  intros A B. destruct (Z.le_ge_cases a b) as [H|H].
  - rewrite (Z.max_r a b) by exact H. apply Z.max_r. apply Z.pow_le_mono_r; lia.
  - rewrite (Z.max_l a b) by exact H. apply Z.max_l. apply Z.pow_le_mono_r; lia.
Qed.
