(** Building and looking up a mip map. *)
From Coq Require Import Reals List ZArith Bool Lra Lia.
From Verif Require Import Base M_Utility M_Film M_MipMap S_Texture P_Film P_Utility P_MipMap1 P_MipMap2.
Import ListNotations.
Open Scope R_scope.

(** ** resampling *)
Definition wrapped (w : wrap) (ores o : Z) : Z := match w with REPEAT => (o mod ores)%Z | CLAMP => zclip o 0 (ores - 1) | BLACK => o end.
Definition tapv (w : wrap) (ores nres i : Z) (g : Z -> R) (j : Z) : R :=
  let o := wrapped w ores (rs_first ores nres i + j) in
  if (0 <=? o)%Z && (o <? ores)%Z then rs_weight ores nres i j * g o else 0.
Lemma rs_tap_ok w ores nres i src g : (forall o, (0 <= o < ores)%Z -> src o = Ok (g o)) ->
  rs_tap w ores nres i src = Ok (tapv w ores nres i g 0 + tapv w ores nres i g 1 + tapv w ores nres i g 2 + tapv w ores nres i g 3).
Proof.
  intros H.
  assert (St : forall a j, (do a <- Ok a;
    let o := (rs_first ores nres i + j)%Z in
    let o := match w with REPEAT => (o mod ores)%Z | CLAMP => zclip o 0 (ores - 1) | BLACK => o end in
    if (0 <=? o)%Z && (o <? ores)%Z then do x <- src o; Ok (a + rs_weight ores nres i j * x) else Ok a) = Ok (a + tapv w ores nres i g j)).
  { intros a j. cbn [bind]. cbv zeta. unfold tapv. cbv zeta. fold (wrapped w ores (rs_first ores nres i + j)).
    destruct (_ && _) eqn:Q.
    - apply andb_true_iff in Q as [Q1 Q2]. rewrite H by lia. reflexivity.
    - f_equal. ring. }
  unfold rs_tap. cbn [fold_left]. rewrite St. rewrite St. rewrite St. rewrite St. f_equal. ring.
Qed.
Lemma wrapped_in w ores o : (0 < ores)%Z -> w <> BLACK -> (0 <= wrapped w ores o < ores)%Z.
Proof.
  intros H W. destruct w; cbn; [apply Z.mod_pos_bound; exact H|contradiction|]. pose proof (zclip_range o 0 (ores - 1)). lia.
Qed.
Lemma tap_const w ores nres i g c : (0 < ores)%Z -> w <> BLACK -> (forall o, (0 <= o < ores)%Z -> g o = c) ->
  tapv w ores nres i g 0 + tapv w ores nres i g 1 + tapv w ores nres i g 2 + tapv w ores nres i g 3 = c.
Proof.
  intros H W G.
  assert (T : forall j, tapv w ores nres i g j = rs_weight ores nres i j * c).
  { intros j. unfold tapv. cbv zeta. pose proof (wrapped_in w ores (rs_first ores nres i + j) H W) as B.
    destruct (_ && _) eqn:Q; [now rewrite G by exact B|]. apply andb_false_iff in Q as [Q|Q]; [apply Z.leb_gt in Q|apply Z.ltb_ge in Q]; lia. }
  rewrite !T. rewrite <- !Rmult_plus_distr_r, weights_sum. ring.
Qed.
Lemma next_pow_pos x : (1 <= x)%Z -> (0 < next_pow_2 x)%Z.
Proof. intros H. destruct (next_pow_2_main x H) as (k & K & -> & _). apply Z.pow_pos_nonneg; lia. Qed.

Lemma resample_square w sp img n : shaped img n n -> exists m, resample_image w sp img = Ok m /\
  shaped m (next_pow_2 n) (next_pow_2 n) /\
  (forall c, w <> BLACK -> 0 <= c -> (forall i j, (0 <= i < n)%Z -> (0 <= j < n)%Z -> pixel img i j = c) ->
    forall i j, (0 <= i < next_pow_2 n)%Z -> (0 <= j < next_pow_2 n)%Z -> pixel m i j = c) /\
  (sp = true -> forall i j, (0 <= i < next_pow_2 n)%Z -> (0 <= j < next_pow_2 n)%Z -> 0 <= pixel m i j).
Proof.
  intros Sh. unfold resample_image. rewrite (shaped_rows _ _ _ Sh), (shaped_cols _ _ _ Sh). destruct (Sh) as (Np & _).
  pose proof (next_pow_pos n ltac:(lia)) as Pp. cbv zeta.
  set (N := next_pow_2 n) in *.
  set (g1 := fun t s => tapv w n N s (fun o => pixel img t o) 0 + tapv w n N s (fun o => pixel img t o) 1 +
                        tapv w n N s (fun o => pixel img t o) 2 + tapv w n N s (fun o => pixel img t o) 3).
  destruct (fill_ok n N (fun t s => rs_tap w n N s (fun o => get2 img t o)) g1 Np Pp) as (r1 & -> & S1 & P1).
  { intros i j Hi Hj. apply rs_tap_ok. intros o Ho. now apply (get2_px img n n). }
  cbn [bind].
  set (h := fun t s => tapv w n N t (fun o => pixel r1 o s) 0 + tapv w n N t (fun o => pixel r1 o s) 1 +
                       tapv w n N t (fun o => pixel r1 o s) 2 + tapv w n N t (fun o => pixel r1 o s) 3).
  destruct (fill_ok N N (fun t s => do x <- rs_tap w n N t (fun o => get2 r1 o s); Ok (if sp then Rmax 0 x else x))
    (fun t s => if sp then Rmax 0 (h t s) else h t s) Pp Pp) as (m & -> & S2 & P2).
  { intros i j Hi Hj. rewrite (rs_tap_ok w n N i _ (fun o => pixel r1 o j)); [reflexivity|]. intros o Ho. now apply (get2_px r1 n N). }
  exists m. refine (conj eq_refl (conj S2 (conj _ _))).
  - intros c W C0 HC i j Hi Hj. rewrite P2 by assumption.
    assert (HH : h i j = c).
    { unfold h. apply tap_const; auto. intros o Ho. rewrite P1 by assumption. unfold g1. apply tap_const; auto. }
    rewrite HH. destruct sp; [apply Rmax_right; exact C0|reflexivity].
  - intros -> i j Hi Hj. rewrite P2 by assumption. apply Rmax_l.
Qed.

(** ** failure of non-square images *)
Definition oki {A} (x : res A) : Prop := match x with Ok _ => True | Err e => e = IndexError end.
Lemma oki_bind {A B} (x : res A) (f : A -> res B) : oki x -> (forall a, oki (f a)) -> oki (bind x f).
Proof. destruct x; cbn; auto. Qed.
Lemma oki_get1 {A} (l : list A) i : oki (get1 l i).
Proof. unfold get1, np_index. destruct (_ && _); cbn; [destruct nth_error; cbn; auto|]. destruct (_ && _); cbn; [destruct nth_error; cbn; auto|reflexivity]. Qed.
Lemma oki_get2 {A} (m : list (list A)) i j : oki (get2 m i j).
Proof. apply oki_bind; [apply oki_get1|intros; apply oki_get1]. Qed.
Lemma mapM_err {A B} (f : A -> res B) l : (forall a, oki (f a)) -> (exists a, In a l /\ f a = Err IndexError) -> mapM f l = Err IndexError.
Proof.
  intros O. induction l as [|x l IH]; intros (a & Ha & Hf); [destruct Ha|]. cbn. destruct (f x) as [b|e] eqn:Q.
  - cbn. destruct Ha as [->|Ha]; [congruence|]. rewrite IH by (exists a; auto). reflexivity.
  - cbn. pose proof (O x) as Ox. rewrite Q in Ox. cbn in Ox. now subst.
Qed.
Lemma oki_mapM {A B} (f : A -> res B) l : (forall a, oki (f a)) -> oki (mapM f l).
Proof. intros O. induction l as [|x l IH]; [exact I|]. cbn. apply oki_bind; [apply O|]. intros b. apply oki_bind; [exact IH|]. intros; exact I. Qed.
Lemma oki_tap w ores nres i src : (forall o, oki (src o)) -> oki (rs_tap w ores nres i src).
Proof.
  intros O. unfold rs_tap. assert (G : forall l acc, oki acc -> oki (fold_left (fun acc j => do a <- acc;
    let o := (rs_first ores nres i + j)%Z in
    let o := match w with REPEAT => (o mod ores)%Z | CLAMP => zclip o 0 (ores - 1) | BLACK => o end in
    if (0 <=? o)%Z && (o <? ores)%Z then do x <- src o; Ok (a + rs_weight ores nres i j * x) else Ok a) l acc)).
  { induction l as [|j l IH]; intros acc Ha; [exact Ha|]. cbn [fold_left]. apply IH. apply oki_bind; [exact Ha|]. intros a. cbv zeta.
    destruct (_ && _); [|exact I]. apply oki_bind; [apply O|intros; exact I]. }
  apply G. exact I.
Qed.
Lemma fold_err {A} (f : res R -> A -> res R) l : (forall a, f (Err IndexError) a = Err IndexError) -> fold_left f l (Err IndexError) = Err IndexError.
Proof. intros H. induction l as [|a l IH]; [reflexivity|]. cbn. now rewrite H. Qed.
(** the last output reads the last input with its second tap *)
Lemma first_last ores nres : (1 <= ores)%Z -> (ores <= nres)%Z -> rs_first ores nres (nres - 1) = (ores - 2)%Z.
Proof.
  intros H1 H2. unfold rs_first, ftoi, rs_center. apply Zfloor_unique. rewrite !minus_IZR.
  assert (N : 1 <= IZR ores) by (apply IZR_le; lia). assert (M : IZR ores <= IZR nres) by (apply IZR_le; lia).
  replace ((IZR nres - 1 + / 2) * IZR ores / IZR nres) with (IZR ores - / 2 * (IZR ores / IZR nres)) by (field; lra).
  assert (Q : 0 < IZR ores / IZR nres <= 1).
  { split; [apply Rdiv_lt_0_compat; lra|]. apply Rmult_le_reg_r with (IZR nres); [lra|]. unfold Rdiv. rewrite Rmult_assoc, Rinv_l by lra. lra. }
  lra.
Qed.
Lemma tap_err w ores nres src : (1 <= ores)%Z -> (ores <= nres)%Z -> (forall o, oki (src o)) -> src (ores - 1)%Z = Err IndexError ->
  rs_tap w ores nres (nres - 1) src = Err IndexError.
Proof.
  intros H1 H2 O HE. unfold rs_tap. cbn [fold_left].
  match goal with |- bind (bind (bind ?X _) _) _ = _ => assert (HX : X = Err IndexError \/ exists a, X = Ok a) end.
  { cbn [bind]. cbv zeta. destruct (_ && _); [|right; eexists; reflexivity].
    match goal with |- context [src ?o] => pose proof (O o) as Oo; destruct (src o) as [x|e] end; cbn; [right; eexists; reflexivity|left; cbn in Oo; now subst]. }
  destruct HX as [->|[a ->]]; [reflexivity|]. cbn [bind]. cbv zeta. rewrite first_last by assumption.
  replace (ores - 2 + 1)%Z with (ores - 1)%Z by lia.
  assert (W : match w with REPEAT => ((ores - 1) mod ores)%Z | BLACK => (ores - 1)%Z | CLAMP => zclip (ores - 1) 0 (ores - 1) end = (ores - 1)%Z).
  { destruct w; [apply Z.mod_small; lia|reflexivity|unfold zclip; lia]. }
  rewrite W. replace ((0 <=? ores - 1)%Z && (ores - 1 <? ores)%Z) with true by (symmetry; apply andb_true_iff; split; [apply Z.leb_le|apply Z.ltb_lt]; lia).
  rewrite HE. reflexivity.
Qed.
Lemma np_index_out n i : (Z.of_nat n <= i)%Z -> np_index n i = Err IndexError.
Proof.
  intros H. unfold np_index. replace (i <? Z.of_nat n)%Z with false by (symmetry; apply Z.ltb_ge; lia).
  replace (i <? 0)%Z with false by (symmetry; apply Z.ltb_ge; lia). now rewrite !andb_false_r.
Qed.
Lemma get2_out l r c i j : shaped l r c -> (r <= i \/ (0 <= i < r /\ c <= j))%Z -> get2 l i j = Err IndexError.
Proof.
  intros (R & C & L & F) H. unfold get2. destruct (Z_lt_le_dec i r) as [Hi|Hi].
  - destruct H as [H|[H Hj]]; [lia|]. rewrite (get1_in [] l i) by lia. cbn [bind].
    assert (Z.of_nat (length (nth (Z.to_nat i) l [])) = c) by (apply (proj1 (List.Forall_forall _ _) F); apply nth_In; lia).
    unfold get1. rewrite np_index_out by lia. reflexivity.
  - unfold get1. rewrite np_index_out by lia. reflexivity.
Qed.
Lemma next_pow_ge x : (1 <= x)%Z -> (x <= next_pow_2 x)%Z.
Proof. intros H. destruct (next_pow_2_main x H) as (k & K & -> & Q & _). exact Q. Qed.
Lemma resample_nonsquare w sp img r c : shaped img r c -> r <> c -> resample_image w sp img = Err IndexError.
Proof.
  intros Sh N. unfold resample_image. rewrite (shaped_rows _ _ _ Sh), (shaped_cols _ _ _ Sh). destruct (Sh) as (R & C & _).
  cbv zeta. unfold fill at 1. rewrite mapM_err; [reflexivity| |].
  { intros t. apply oki_mapM. intros s. apply oki_tap. intros o. apply oki_get2. }
  pose proof (next_pow_ge r ltac:(lia)).
  exists (if (r <? c)%Z then r else 0%Z). split; [apply Zrange_In; destruct (r <? c)%Z eqn:Q; lia|].
  apply mapM_err; [intros s; apply oki_tap; intros o; apply oki_get2|]. exists (next_pow_2 r - 1)%Z. split; [apply Zrange_In; lia|].
  apply tap_err; [lia|assumption|intros o; apply oki_get2|]. apply (get2_out img r c); auto. destruct (r <? c)%Z eqn:Q; lia.
Qed.
