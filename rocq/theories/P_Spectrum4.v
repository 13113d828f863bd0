From Coq Require Import Reals Lra Lia List ZArith Bool Psatz.
From Verif Require Import Base M_Film S_Film P_Film P_Film2 M_Spectrum S_Spectrum P_Spectrum P_Spectrum2 P_Spectrum3.
Import ListNotations.
Open Scope R_scope.

Lemma nth_cs_add a b i : length a = length b -> nth i (cs_add a b) 0 = nth i a 0 + nth i b 0.
Proof.
  revert b i. induction a as [|x a IH]; intros [|y b] i H; cbn in H; try lia; destruct i; cbn; try lra.
  apply IH. lia.
Qed.
Lemma cs_add_length a b : length a = length b -> length (cs_add a b) = length a.
Proof. intros. unfold cs_add. rewrite map_length, combine_length. lia. Qed.
Lemma nth_cs_scale k a i : nth i (cs_scale k a) 0 = k * nth i a 0.
Proof. revert i. induction a; intros [|i]; cbn; try lra. apply IHa. Qed.
Lemma cs_scale_length k a : length (cs_scale k a) = length a.
Proof. apply map_length. Qed.
Lemma nth_cs_clip0 a i : nth i (cs_clip0 a) 0 = Rmax 0 (nth i a 0).
Proof. revert i. induction a; intros [|i]; cbn; auto; symmetry; apply Rmax_left; lra. Qed.
Lemma nth_repeat0 n i : nth i (repeat 0 n) 0 = 0.
Proof. revert i. induction n; intros [|i]; cbn; auto. Qed.
Lemma from_rgb_nth k B rgb i : basis_ok B ->
  let '(lo, me, hi) := argsort3 rgb in
  let sp := match lo with O => (b_cyan B, b_green B, b_blue B) | S O => (b_magenta B, b_red B, b_blue B)
            | _ => (b_yellow B, b_red B, b_green B) end in
  let get i := let '(p, q, r) := sp in match i with O => p | S O => q | _ => r end in
  length (from_rgb_branch k B rgb) = N_SPECTRAL /\
  nth i (from_rgb_branch k B rgb) 0 =
  Rmax 0 (k * (vnth rgb lo * nth i (b_white B) 0 + (vnth rgb me - vnth rgb lo) * nth i (get lo) 0 +
     (vnth rgb hi - vnth rgb me) * nth i (get hi) 0)).
Proof.
  intros (W & C & M & Y & R0 & G & Bl). destruct (argsort3 rgb) as [[lo me] hi] eqn:S.
  intros sp g. assert (E0 : from_rgb_branch k B rgb = cs_clip0 (cs_scale k (cs_add (cs_add (cs_add (repeat 0 N_SPECTRAL)
    (cs_scale (vnth rgb lo) (b_white B))) (cs_scale (vnth rgb me - vnth rgb lo) (g lo)))
    (cs_scale (vnth rgb hi - vnth rgb me) (g hi))))).
  { unfold from_rgb_branch. rewrite S. reflexivity. }
  rewrite E0. clear E0.
  assert (GL : forall j, length (g j) = N_SPECTRAL).
  { intros j. unfold g, sp. destruct lo as [|[|lo]], j as [|[|j]]; assumption. }
  clearbody g. clear sp S.
  assert (L1 : length (cs_add (repeat 0 N_SPECTRAL) (cs_scale (vnth rgb lo) (b_white B))) = N_SPECTRAL)
    by (rewrite cs_add_length; rewrite repeat_length; [reflexivity|now rewrite cs_scale_length]).
  assert (L2 : forall x, length (cs_add (cs_add (repeat 0 N_SPECTRAL) (cs_scale (vnth rgb lo) (b_white B))) (cs_scale x (g lo))) = N_SPECTRAL)
    by (intros; rewrite cs_add_length; [exact L1|rewrite L1, cs_scale_length; auto]).
  split.
  - unfold cs_clip0. rewrite map_length, cs_scale_length, cs_add_length; [apply L2|]. rewrite L2, cs_scale_length. auto.
  - rewrite nth_cs_clip0, nth_cs_scale.
    rewrite nth_cs_add by (rewrite L2, cs_scale_length; auto).
    rewrite nth_cs_add by (rewrite L1, cs_scale_length; auto).
    rewrite nth_cs_add by (rewrite repeat_length, cs_scale_length; auto).
    rewrite nth_repeat0, !nth_cs_scale. f_equal. f_equal. ring.
Qed.
