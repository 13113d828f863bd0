(** Proofs about direct lighting, non-negativity, superposition, sample requests. *)
From Coq Require Import Reals Lra Lia List Bool ZArith.
From Verif Require Import Base M_Geometry M_MonteCarlo M_Aggregate M_Reflection M_Utility M_Spectrum M_Sampler M_Film M_Light M_Integrator.
From Verif Require Import S_Reflection S_Integrator P_Reflection P_Film P_MonteCarlo P_Integrator.
Import ListNotations.
Open Scope R_scope.

Lemma nn_add a b : nn a -> nn b -> nn (vadd a b).
Proof. unfold nn, vadd, vmap2; cbn. lra. Qed.
Lemma nn_mul a b : nn a -> nn b -> nn (smul a b).
Proof. unfold nn, smul, vmap2; cbn. intros (?&?&?) (?&?&?). repeat split; now apply Rmult_le_pos. Qed.
Lemma nn_scale k a : 0 <= k -> nn a -> nn (vscale k a).
Proof. unfold nn, vscale, vmap; cbn. intros ? (?&?&?). repeat split; now apply Rmult_le_pos. Qed.
Lemma nn_div k a : 0 < k -> nn a -> nn (sdiv a k).
Proof.
  unfold nn, sdiv, vmap; cbn. intros K (?&?&?). pose proof (Rinv_0_lt_compat _ K).
  repeat split; apply Rmult_le_pos; lra.
Qed.
Lemma nn_spec x : 0 <= x -> nn (spec x).
Proof. unfold nn, spec; cbn. lra. Qed.

Section Path.
Context {V : Type} (e : env V) (u : nat -> R) (md : Z)
  (direct : nat -> V -> raydiff -> vec -> vec -> vec -> bsdf -> nat -> res (vec * nat))
  (ps : nat -> res (R * R * R)).
Hypothesis PH : physical e.
Hypothesis U : forall k, 0 < u k.
Hypothesis D : forall bounce v r p n wo b k L k', v_bsdf e v r = Ok (p, b) -> direct bounce v r p n wo b k = Ok (L, k') -> nn L.

Lemma sum_le_nn r : forall ls beta L, (forall l, In l ls -> nn (lt_le l r)) -> nn beta -> nn L ->
  nn (fold_left (fun acc l => vadd acc (smul beta (lt_le l r))) ls L).
Proof.
  induction ls as [|l ls IH]; intros beta L H B HL; [exact HL|]. cbn. apply IH; [intros; apply H; now right|exact B|].
  apply nn_add; [exact HL|]. apply nn_mul; [exact B|]. apply H. now left.
Qed.
Lemma step_nn s : nn (p_beta s) -> nn (p_L s) ->
  match path_step e u md direct ps s with
  | inl (Ok (L, _, _)) => nn L
  | inl (Err _) => True
  | inr s' => nn (p_beta s') /\ nn (p_L s')
  end.
Proof.
  intros B HL. destruct PH as (P1 & P2 & P3 & P4 & _). unfold path_step.
  set (L1 := if (p_bounce s =? 0)%nat || p_spb s then _ else _).
  assert (N1 : nn L1).
  { unfold L1. destruct (_ || _); [|exact HL]. apply nn_add; [exact HL|]. apply nn_mul; [exact B|apply P1]. }
  clearbody L1. destruct (v_bsdf e (p_v s) (p_r s)) as [[p b]|x] eqn:Q1; [|exact Logic.I].
  set (n := b_dgs_nn e (p_v s) (p_r s)).
  destruct (direct (p_bounce s) (p_v s) (p_r s) p n (vneg (rdir (p_r s))) b (p_k s)) as [[Ld k1]|x] eqn:Q2; [|exact Logic.I].
  cbv zeta. set (L2 := vadd L1 (smul (p_beta s) Ld)).
  assert (N2 : nn L2) by (apply nn_add; [exact N1|]; apply nn_mul; [exact B|]; eapply D; [exact Q1|exact Q2]).
  clearbody L2.
  match goal with |- match (match ?x with Ok _ => _ | Err _ => _ end) with _ => _ end =>
    destruct x as [[[[u0 u1] uc] k2]|?] eqn:Q3 end; [|exact Logic.I].
  destruct (bsdf_sample b (vneg (rdir (p_r s))) u0 u1 uc ALL) as [sm|x] eqn:Q4; [|exact Logic.I].
  destruct (P4 _ _ _ _ _ _ _ _ _ Q1 Q4) as [F1 F2].
  destruct (spec_is_black (sm_f sm) || Reqb (sm_pdf sm) 0) eqn:Q5; [exact N2|].
  apply orb_false_elim in Q5 as [_ Q5]. Rb. assert (F3 : 0 < sm_pdf sm) by lra.
  destruct (sm_wi sm) as [wi|]; [|exact Logic.I].
  set (beta1 := smul (p_beta s) _).
  assert (NB : nn beta1).
  { apply nn_mul; [exact B|]. apply nn_div; [exact F3|]. apply nn_scale; [apply Rabs_pos|exact F1]. }
  clearbody beta1. set (r1 := child_ray p wi (p_r s) (v_eps e (p_v s))). clearbody r1.
  match goal with |- context [let '(_, _) := ?x in _] => destruct x as [[stop beta2] k3] eqn:Q6 end.
  assert (NB2 : stop = false -> nn beta2).
  { intros ->. destruct (SAMPLE_DEPTH <? p_bounce s)%nat; [|congruence].
    destruct (Rltb (pmin (/ 2) (rgb_y beta1)) (u k2)) eqn:Q7; [congruence|]. Rb.
    injection Q6 as <- _. apply nn_div; [|exact NB]. pose proof (U k2). lra. }
  destruct stop; [exact N2|]. specialize (NB2 eq_refl). cbn [orb].
  destruct (Z.of_nat (p_bounce s) =? md)%Z; [exact N2|].
  destruct (hit e r1) as [r2 [v'|]].
  - destruct (1 <? p_bounce s)%nat.
    + pose proof (P3 (inl r2) k3) as PT. destruct (transmittance e (inl r2) k3) as [T k']. cbn [fst] in PT. cbn.
      split; [|exact N2]. now apply nn_mul.
    + cbn. now split.
  - apply sum_le_nn; [intros; now apply P2|exact NB2|exact N2].
Qed.
Lemma loop_nn fuel : forall s L k c, nn (p_beta s) -> nn (p_L s) ->
  path_loop e u md direct ps fuel s = Some (Ok (L, k, c)) -> nn L.
Proof.
  induction fuel as [|fuel IH]; intros s L k c B HL Q; [discriminate|]. cbn in Q.
  pose proof (step_nn s B HL) as G. destruct (path_step e u md direct ps s) as [[[[L' k'] c']|x]|s'].
  - injection Q as <- <- <-. exact G.
  - discriminate.
  - destruct G. eapply IH; eauto.
Qed.
End Path.

(** superposition *)
Section Super.
Context {V : Type} (e1 e2 e : env V) (u : nat -> R) (md : Z)
  (d1 d2 d : nat -> V -> raydiff -> vec -> vec -> vec -> bsdf -> nat -> res (vec * nat))
  (ps : nat -> res (R * R * R)).
Hypothesis BL : both_lit e1 e2 e.
Hypothesis DD : forall bounce v r p n wo b k L1 L2 k1 k2,
  d1 bounce v r p n wo b k = Ok (L1, k1) -> d2 bounce v r p n wo b k = Ok (L2, k2) ->
  k1 = k2 /\ d bounce v r p n wo b k = Ok (vadd L1 L2, k1).

Lemma vadd_assoc4 a b c d' : vadd (vadd a b) (vadd c d') = vadd (vadd a c) (vadd b d').
Proof. unfold vadd, vmap2; cbn. f_equal; ring. Qed.
Lemma smul_add a b c : smul a (vadd b c) = vadd (smul a b) (smul a c).
Proof. unfold smul, vadd, vmap2; cbn. f_equal; ring. Qed.
Definition lsum (ls : list light) r : vec := fold_right (fun l a => vadd (lt_le l r) a) (spec 0) ls.
Lemma fold_lsum r beta : forall ls L, fold_left (fun acc l => vadd acc (smul beta (lt_le l r))) ls L = vadd L (smul beta (lsum ls r)).
Proof.
  induction ls as [|l ls IH]; intros L; cbn.
  - unfold lsum; cbn. destruct L as [a b c]. unfold vadd, smul, spec, vmap2; cbn. f_equal; ring.
  - rewrite IH. unfold lsum; cbn [fold_right]. fold (lsum ls r). unfold vadd, smul, vmap2; cbn. f_equal; ring.
Qed.
Lemma lsum_app a b r : lsum (a ++ b) r = vadd (lsum a r) (lsum b r).
Proof.
  induction a as [|x a IH].
  - change (lsum [] r) with (spec 0); cbn [app]. destruct (lsum b r) as [x y z]. unfold vadd, vmap2, spec; cbn. f_equal; ring.
  - unfold lsum in *; cbn [fold_right app]; rewrite IH. unfold vadd, vmap2; cbn. f_equal; ring.
Qed.

Definition lockstep (s1 s2 s : @pst V) : Prop :=
  p_bounce s1 = p_bounce s /\ p_bounce s2 = p_bounce s /\ p_v s1 = p_v s /\ p_v s2 = p_v s /\ p_r s1 = p_r s /\
  p_r s2 = p_r s /\ p_spb s1 = p_spb s /\ p_spb s2 = p_spb s /\ p_beta s1 = p_beta s /\ p_beta s2 = p_beta s /\
  p_k s1 = p_k s /\ p_k s2 = p_k s /\ p_calls s1 = p_calls s /\ p_calls s2 = p_calls s /\
  p_L s = vadd (p_L s1) (p_L s2).

Lemma step_super s1 s2 s : lockstep s1 s2 s ->
  match path_step e1 u md d1 ps s1, path_step e2 u md d2 ps s2 with
  | inl (Ok (L1, k1, c1)), inl (Ok (L2, k2, c2)) =>
      path_step e u md d ps s = inl (Ok (vadd L1 L2, k1, c1)) /\ k2 = k1 /\ c2 = c1
  | inr s1', inr s2' => exists s', path_step e u md d ps s = inr s' /\ lockstep s1' s2' s'
  | inl (Err _), _ | _, inl (Err _) => True
  | _, _ => False
  end.
Proof.
  destruct s1 as [bo1 v1 r1 sp1 be1 L1 k1 c1], s2 as [bo2 v2 r2 sp2 be2 L2 k2 c2], s as [bo v r sp be L k c].
  unfold lockstep; cbn [p_bounce p_v p_r p_spb p_beta p_L p_k p_calls].
  intros (?&?&?&?&?&?&?&?&?&?&?&?&?&?&?); subst.
  destruct BL as (BH & BB & BN & BE & BT & BLE & BLI). unfold path_step.
  cbn [p_bounce p_v p_r p_spb p_beta p_L p_k p_calls].
  destruct (BB v r) as [<- <-]. destruct (v_bsdf e v r) as [[p b]|x]; [|exact Logic.I].
  destruct (BN v r) as [<- <-]. set (n := b_dgs_nn e v r). set (wo := vneg (rdir r)).
  destruct (d1 bo v r p n wo b k) as [[Ld1 k1]|x] eqn:Q1; [|exact Logic.I].
  destruct (d2 bo v r p n wo b k) as [[Ld2 k2]|x] eqn:Q2.
  2: { repeat match goal with |- context [match ?y with _ => _ end] => destruct y end; exact Logic.I. }
  destruct (DD _ _ _ _ _ _ _ _ _ _ _ _ Q1 Q2) as [<- Q3]. rewrite Q3. cbv zeta.
  set (A1 := if (bo =? 0)%nat || sp then vadd L1 _ else L1).
  set (A2 := if (bo =? 0)%nat || sp then vadd L2 _ else L2).
  set (A := if (bo =? 0)%nat || sp then vadd (vadd L1 L2) _ else vadd L1 L2).
  assert (HA : A = vadd A1 A2).
  { unfold A, A1, A2. destruct (_ || _); [|reflexivity]. rewrite BLE, smul_add. apply vadd_assoc4. }
  rewrite HA. rewrite smul_add, vadd_assoc4. clear HA. clearbody A A1 A2.
  set (M1 := vadd A1 (smul be Ld1)). set (M2 := vadd A2 (smul be Ld2)).
  match goal with |- context [if (bo <? SAMPLE_DEPTH)%nat then ?x else ?y] =>
    destruct (if (bo <? SAMPLE_DEPTH)%nat then x else y) as [[[[u0 u1] uc] k2]|x2] end; [|exact Logic.I].
  destruct (bsdf_sample b wo u0 u1 uc ALL) as [sm|x]; [|exact Logic.I].
  destruct (spec_is_black (sm_f sm) || Reqb (sm_pdf sm) 0); [auto|].
  destruct (sm_wi sm) as [wi|]; [|exact Logic.I].
  destruct (BE v) as [<- <-].
  match goal with |- context [let '(_, _) := (if (SAMPLE_DEPTH <? bo)%nat then ?x else ?y) in _] =>
    destruct (if (SAMPLE_DEPTH <? bo)%nat then x else y) as [[stop beta2] k3] end.
  destruct (stop || _); [auto|]. set (r' := child_ray p wi r (v_eps e v)).
  destruct (BH r') as [<- <-]. destruct (hit e r') as [r2 [v'|]].
  - destruct (1 <? bo)%nat.
    + destruct (BT (inl r2) k3) as [<- <-]. destruct (transmittance e (inl r2) k3) as [T k'].
      eexists. split; [reflexivity|]. unfold lockstep; cbn. repeat split.
    + eexists. split; [reflexivity|]. unfold lockstep; cbn. repeat split.
  - unfold sum_le. rewrite !fold_lsum, BLI, lsum_app, smul_add. split; [|auto]. do 4 f_equal. apply vadd_assoc4.
Qed.
Lemma loop_super fuel : forall s1 s2 s L1 k1 c1 L2 k2 c2, lockstep s1 s2 s ->
  path_loop e1 u md d1 ps fuel s1 = Some (Ok (L1, k1, c1)) -> path_loop e2 u md d2 ps fuel s2 = Some (Ok (L2, k2, c2)) ->
  path_loop e u md d ps fuel s = Some (Ok (vadd L1 L2, k1, c1)).
Proof.
  induction fuel as [|fuel IH]; intros s1 s2 s L1 k1 c1 L2 k2 c2 LS Q1 Q2; [discriminate|]. cbn in *.
  pose proof (step_super s1 s2 s LS) as G.
  destruct (path_step e1 u md d1 ps s1) as [[[[L1' k1'] c1']|x]|s1'], (path_step e2 u md d2 ps s2) as [[[[L2' k2'] c2']|y]|s2'];
    try discriminate; try contradiction.
  - injection Q1 as <- <- <-. injection Q2 as <- <- <-. destruct G as (-> & _). reflexivity.
  - destruct G as (s' & -> & LS'). eapply IH; eauto.
Qed.
End Super.

(** direct lighting *)
Lemma pick_match l flags : forall c b, pick l flags c = Some b -> match_flag b flags = true.
Proof.
  induction l as [|x l IH]; cbn; intros c b H; [discriminate|]. destruct (match_flag x flags) eqn:M.
  - destruct (c =? 0)%Z; [injection H as <-; exact M|eauto].
  - eauto.
Qed.
Lemma nospec b : match_flag b NOSPEC = true -> (Z.land (bdf_type b) SPECULAR =? 0)%Z = true.
Proof.
  unfold match_flag. intros H. apply Z.eqb_eq in H. apply Z.eqb_eq.
  rewrite <- H, <- Z.land_assoc. change (Z.land NOSPEC SPECULAR) with 0%Z. apply Z.land_0_r.
Qed.
Section Direct.
Context {V : Type} (e : env V) (u : nat -> R).
Lemma bsdf_half_nothing l p wo b bsmp Ld Ld' : direct_bsdf_half l p wo b bsmp NOSPEC Ld = Ok Ld' -> Ld' = Ld.
Proof.
  unfold direct_bsdf_half. destruct (lt_delta l); [congruence|]. destruct bsmp as [[u0 u1] uc].
  destruct (bsdf_sample b wo u0 u1 uc NOSPEC) as [s|x]; cbn [bind]; [|discriminate].
  intros H. repeat match type of H with context [match ?x with _ => _ end] => destruct x; try congruence end.
Qed.
(** and it cannot fail when sampling does not *)
Lemma bsdf_half_ok l p wo b u0 u1 uc Ld s : bsdf_sample b wo u0 u1 uc NOSPEC = Ok s ->
  direct_bsdf_half l p wo b (u0, u1, uc) NOSPEC Ld = Ok Ld.
Proof.
  intros H. unfold direct_bsdf_half. destruct (lt_delta l); [reflexivity|]. rewrite H. cbn [bind].
  destruct (negb (is_black (sm_f s)) && Rltb 0 (sm_pdf s)) eqn:Q; [|reflexivity].
  apply andb_prop in Q as [_ Q]. Rb. unfold bsdf_sample in H.
  destruct (n_components b NOSPEC =? 0)%nat; [injection H as <-; cbn in Q; lra|].
  destruct (pick (bs_bdfs b) NOSPEC (pick_index uc (n_components b NOSPEC))) as [lo|] eqn:PK; [|discriminate].
  apply pick_match, nospec in PK.
  destruct (bdf_sample lo (w2l b wo) u0 u1) as [[pdf o]|x]; [|discriminate]. cbn [bind] in H.
  destruct (Reqb pdf 0) eqn:Q2; Rb; [injection H as <-; cbn in Q; lra|].
  destruct o as [[wi f]|]; [|discriminate]. injection H as <-. cbn. rewrite PK. reflexivity.
Qed.
Lemma estimate_eq l p n wo eps time b lsmp bsmp k Ld k' :
  estimate_direct e l p n wo eps time b lsmp bsmp NOSPEC k = Ok (Ld, k') ->
  direct_light_half e l p n wo eps time b lsmp NOSPEC k = Ok (Ld, k').
Proof.
  unfold estimate_direct. destruct (direct_light_half e l p n wo eps time b lsmp NOSPEC k) as [[L k1]|x]; cbn [bind]; [|discriminate].
  destruct (direct_bsdf_half l p wo b bsmp NOSPEC L) as [L'|x] eqn:Q; cbn [bind]; [|discriminate].
  apply bsdf_half_nothing in Q. congruence.
Qed.

Lemma light_index_main x n i : (0 < n)%nat -> 0 <= x < 1 ->
  (0 <= light_index x n < Z.of_nat n)%Z /\
  (light_index x n = Z.of_nat i <-> INR i / INR n <= x < INR (S i) / INR n).
Proof.
  intros N X. assert (PN : 0 < INR n) by now apply lt_0_INR.
  assert (B : (0 <= Zfloor (x * INR n) < Z.of_nat n)%Z).
  { split; [apply Zfloor_ge; nra|]. apply Zfloor_lt. rewrite <- INR_IZR_INZ. nra. }
  assert (L : light_index x n = Zfloor (x * INR n)) by (unfold light_index; lia).
  rewrite L. split; [exact B|].
  assert (EQ : (INR i / INR n <= x < INR (S i) / INR n) <-> (INR i <= x * INR n < INR i + 1)).
  { rewrite S_INR. split; intros [A C]; split.
    - apply Rmult_le_compat_r with (r := INR n) in A; [|lra]. unfold Rdiv in A. rewrite Rmult_assoc, Rinv_l in A by lra. lra.
    - apply Rmult_lt_compat_r with (r := INR n) in C; [|lra]. unfold Rdiv in C. rewrite Rmult_assoc, Rinv_l in C by lra. lra.
    - apply Rmult_le_reg_r with (INR n); [lra|]. unfold Rdiv. rewrite Rmult_assoc, Rinv_l by lra. lra.
    - apply Rmult_lt_reg_r with (INR n); [lra|]. unfold Rdiv. rewrite Rmult_assoc, Rinv_l by lra. lra. }
  rewrite EQ, (INR_IZR_INZ i). split.
  - intros <-. apply Zfloor_spec.
  - intros. now apply Zfloor_unique.
Qed.

(** averaging over the samples of a light *)
Lemma all_samples_sum l offs p n wo eps time b : forall js Ld k L k',
  all_samples e u l offs p n wo eps time b js Ld k = Ok (L, k') ->
  exists xs, length xs = length js /\ L = vadd Ld (vsum xs) /\
    Forall (fun x => exists ls bs i i', estimate_direct e l p n wo eps time b ls bs NOSPEC i = Ok (x, i')) xs.
Proof.
  induction js as [|j js IH]; intros Ld k L k' H; cbn [all_samples] in H.
  - injection H as <- <-. exists []. split; [reflexivity|]. split; [|constructor]. unfold vsum; cbn.
    destruct Ld as [x y z]; unfold vadd, vmap2, spec; cbn. f_equal; ring.
  - match type of H with bind ?x _ = _ => destruct x as [[[a c] k1]|?] end; cbn [bind] in H; [|discriminate].
    destruct (estimate_direct e l p n wo eps time b a c NOSPEC k1) as [[x k2]|?] eqn:Q; cbn [bind] in H; [|discriminate].
    destruct (IH _ _ _ _ H) as (xs & A & B & C). exists (x :: xs). split; [cbn; congruence|]. split.
    + rewrite B. unfold vsum; cbn [fold_right]. unfold vadd, vmap2; cbn. f_equal; ring.
    + constructor; [|exact C]. now exists a, c, k1, k2.
Qed.
End Direct.

(** sample requests *)
Lemma nth_error_map_length {A} (l : list (list A)) i n : nth_error (map (@length A) l) i = Some n ->
  exists x, nth_error l i = Some x /\ length x = n.
Proof. rewrite nth_error_map. destruct (nth_error l i) as [x|]; cbn; [|discriminate]. intros H. injection H as <-. now exists x. Qed.
Lemma readable_ok s d1 d2 o j : filled s d1 d2 -> nth_error d1 (of_com o) = Some (of_n o) ->
  nth_error d2 (of_dir o) = Some (of_n o) -> (j < of_n o)%nat -> readable s o j.
Proof.
  intros [F1 F2] A B J. subst d1 d2. apply nth_error_map_length in A as (l1 & A1 & A2).
  apply nth_error_map_length in B as (l2 & B1 & B2). unfold readable, smp_from_sample, idx. rewrite A1, B1. cbn [bind].
  destruct (nth_error l2 j) as [q|] eqn:Q2; [|apply nth_error_None in Q2; lia].
  destruct (nth_error l1 j) as [c|] eqn:Q1; [|apply nth_error_None in Q1; lia].
  cbn [bind]. eexists. reflexivity.
Qed.
Lemma nth_error_mid {A} (a : list A) x b : nth_error (a ++ x :: b) (length a) = Some x.
Proof. induction a; cbn; auto. Qed.
Definition extends (s s' : sample) (a b : list nat) : Prop := n1D s' = n1D s ++ a /\ n2D s' = n2D s ++ b.
Lemma offset_make_spec n s s' o : offset_make n s = (s', o) ->
  extends s s' [n] [n] /\ of_n o = n /\ of_com o = length (n1D s) /\ of_dir o = length (n2D s).
Proof.
  unfold offset_make, add_1d, add_2d, extends. cbn. intros H. injection H as <- <-. cbn. rewrite !app_length. cbn.
  repeat split; lia.
Qed.
Definition offset_in (s : sample) (o : offset) : Prop :=
  nth_error (n1D s) (of_com o) = Some (of_n o) /\ nth_error (n2D s) (of_dir o) = Some (of_n o).
Lemma offset_in_ext s s' a b o : extends s s' a b -> offset_in s o -> offset_in s' o.
Proof.
  intros [A B] [C D]. unfold offset_in. rewrite A, B. split; (rewrite nth_error_app1; [assumption|]).
  - apply nth_error_Some. congruence.
  - apply nth_error_Some. congruence.
Qed.
Lemma offset_make_in n s s' o : offset_make n s = (s', o) -> offset_in s' o /\ of_n o = n.
Proof.
  intros H. apply offset_make_spec in H as ([A B] & C & D & F). unfold offset_in. rewrite A, B, C, D, F.
  split; [|reflexivity]. split; apply nth_error_mid.
Qed.
Lemma extends_trans s1 s2 s3 a b c d : extends s1 s2 a b -> extends s2 s3 c d -> extends s1 s3 (a ++ c) (b ++ d).
Proof. unfold extends. intros [-> ->] [-> ->]. now rewrite !app_assoc. Qed.
Definition po_in (s : sample) (o : path_offs) : Prop :=
  nth_error (n1D s) (po_num o) = Some 1%nat /\
  (offset_in s (po_light o) /\ of_n (po_light o) = 1%nat) /\ (offset_in s (po_bsdf o) /\ of_n (po_bsdf o) = 1%nat) /\
  (offset_in s (po_path o) /\ of_n (po_path o) = 1%nat).
Lemma path_request_spec n : forall s s' po, path_request n s = (s', po) ->
  length po = n /\ (exists a b, extends s s' a b) /\ Forall (po_in s') po.
Proof.
  induction n as [|n IH]; intros s s' po H; cbn [path_request] in H.
  - injection H as <- <-. split; [reflexivity|]. split; [|constructor]. exists [], []. unfold extends. now rewrite !app_nil_r.
  - destruct (offset_make 1 s) as [s1 lo] eqn:Q1. destruct (add_1d s1 1) as [s2 num] eqn:Q2.
    destruct (offset_make 1 s2) as [s3 bo] eqn:Q3. destruct (offset_make 1 s3) as [s4 po0] eqn:Q4.
    destruct (path_request n s4) as [s5 rest] eqn:Q5. injection H as <- <-.
    destruct (IH _ _ _ Q5) as (A & (a & b & X5) & F).
    pose proof (offset_make_spec _ _ _ _ Q1) as (X1 & _). pose proof (offset_make_spec _ _ _ _ Q3) as (X3 & _).
    pose proof (offset_make_spec _ _ _ _ Q4) as (X4 & _).
    assert (X2 : extends s1 s2 [1%nat] [] /\ num = length (n1D s1)).
    { unfold add_1d in Q2. injection Q2 as <- <-. unfold extends; cbn. rewrite app_nil_r, app_length; cbn. repeat split. lia. }
    destruct X2 as [X2 NUM].
    split; [cbn; congruence|]. split.
    { eexists _, _. eapply extends_trans; [exact X1|]. eapply extends_trans; [exact X2|].
      eapply extends_trans; [exact X3|]. eapply extends_trans; [exact X4|exact X5]. }
    constructor; [|exact F].
    pose proof (extends_trans _ _ _ _ _ _ _ X4 X5) as X45. pose proof (extends_trans _ _ _ _ _ _ _ X3 X45) as X35.
    pose proof (extends_trans _ _ _ _ _ _ _ X2 X35) as X25.
    destruct (offset_make_in _ _ _ _ Q1) as [I1 N1]. destruct (offset_make_in _ _ _ _ Q3) as [I3 N3].
    destruct (offset_make_in _ _ _ _ Q4) as [I4 N4]. unfold po_in; cbn. split; [|split; [|split]].
    + destruct X25 as [-> _]. rewrite NUM. cbn. apply nth_error_mid.
    + split; [eapply offset_in_ext; eauto|exact N1].
    + split; [eapply offset_in_ext; [|exact I3]; eauto|exact N3].
    + split; [eapply offset_in_ext; [|exact I4]; eauto|exact N4].
Qed.
Lemma direct_request_spec ns : forall s s' lo bo, direct_request ns s = (s', lo, bo) ->
  map of_n lo = ns /\ map of_n bo = ns /\ (exists a b, extends s s' a b) /\ Forall (offset_in s') lo /\ Forall (offset_in s') bo.
Proof.
  induction ns as [|n ns IH]; intros s s' lo bo H; cbn [direct_request] in H.
  - injection H as <- <- <-. repeat split; try constructor. exists [], []. unfold extends. now rewrite !app_nil_r.
  - destruct (offset_make n s) as [s1 l1] eqn:Q1. destruct (offset_make n s1) as [s2 b1] eqn:Q2.
    destruct (direct_request ns s2) as [[s3 los] bos] eqn:Q3. injection H as <- <- <-.
    destruct (IH _ _ _ _ Q3) as (A & B & (a & b & X) & C & D).
    pose proof (offset_make_spec _ _ _ _ Q1) as (X1 & _). pose proof (offset_make_spec _ _ _ _ Q2) as (X2 & _).
    destruct (offset_make_in _ _ _ _ Q1) as [I1 N1]. destruct (offset_make_in _ _ _ _ Q2) as [I2 N2].
    pose proof (extends_trans _ _ _ _ _ _ _ X2 X) as X23.
    split; [cbn; congruence|]. split; [cbn; congruence|]. split; [|split].
    + eexists _, _. eapply extends_trans; eauto.
    + constructor; [|exact C]. eapply offset_in_ext; eauto.
    + constructor; [|exact D]. eapply offset_in_ext; [|exact I2]; eauto.
Qed.

Lemma ph_nn f g : 0 <= power_heuristic 1 f 1 g.
Proof.
  unfold power_heuristic. cbv zeta. set (a := INR 1 * f). set (b := INR 1 * g). pose proof (Rle_0_sqr a). pose proof (Rle_0_sqr b).
  unfold Rsqr in *. destruct (Req_dec (a * a + b * b) 0) as [Q|Q].
  - rewrite Q. unfold Rdiv. rewrite Rinv_0. lra.
  - apply Rmult_le_pos; [lra|]. left. apply Rinv_0_lt_compat. lra.
Qed.
Section DirectNN.
Context {V : Type} (e : env V) (u : nat -> R).
Hypothesis PH : physical e.
Lemma light_half_nn l v r p b n wo eps time a k L k' : In l (lights e) -> v_bsdf e v r = Ok (p, b) ->
  direct_light_half e l p n wo eps time b a NOSPEC k = Ok (L, k') -> nn L.
Proof.
  intros HI HB. destruct PH as (_ & _ & PT & _ & PL & PF). unfold direct_light_half.
  destruct (lt_sample l p eps a time) as [[[[Li wi] lpdf] vis]|?] eqn:Q1; cbn [bind]; [|discriminate].
  destruct (Rltb 0 lpdf && negb (is_black Li)) eqn:Q2.
  2: { intros H. injection H as <- <-. apply nn_spec; lra. }
  apply andb_prop in Q2 as [Q2 _]. Rb.
  destruct (bsdf_f b wo wi NOSPEC) as [f|?] eqn:Q3; cbn [bind]; [|discriminate].
  destruct (negb (is_black f) && _).
  2: { intros H. injection H as <- <-. apply nn_spec; lra. }
  pose proof (PT (inr vis) k) as T0. destruct (transmittance e (inr vis) k) as [T k1]. cbn [fst] in T0.
  assert (G : nn (smul f (smul Li T))).
  { apply nn_mul; [eapply PF; eauto|]. apply nn_mul; [eapply PL; eauto|exact T0]. }
  destruct (lt_delta l); intros H; injection H as <- <-; apply nn_scale; try exact G.
  - apply Rmult_le_pos; [apply Rabs_pos|]. left. now apply Rinv_0_lt_compat.
  - apply Rmult_le_pos; [apply Rmult_le_pos; [apply Rabs_pos|apply ph_nn]|]. left. now apply Rinv_0_lt_compat.
Qed.
Lemma one_light_nn offs v r p b n wo eps time k L k' : v_bsdf e v r = Ok (p, b) ->
  uniform_sample_one_light e u offs p n wo eps time b k = Ok (L, k') -> nn L.
Proof.
  intros HB. unfold uniform_sample_one_light. destruct (length (lights e) =? 0)%nat.
  { intros H. injection H as <- <-. apply nn_spec; lra. }
  match goal with |- context [bind ?m0 _] => destruct m0 as [[x k0]|?] end; cbn [bind]; [|discriminate].
  destruct (get1 (lights e) (light_index x (length (lights e)))) as [l|?] eqn:Q1; cbn [bind]; [|discriminate].
  match goal with |- context [bind ?x _] => destruct x as [[[a c] k1]|?] end; cbn [bind]; [|discriminate].
  destruct (estimate_direct e l p n wo eps time b a c NOSPEC k1) as [[Ld k2]|?] eqn:Q2; cbn [bind]; [|discriminate].
  intros H. injection H as <- <-. cbn [fst]. apply nn_scale; [apply pos_INR|].
  apply estimate_eq in Q2. eapply light_half_nn; [|exact HB|exact Q2].
  unfold get1 in Q1. destruct (np_index _ _) as [i|?]; cbn [bind] in Q1; [|discriminate].
  destruct (nth_error (lights e) i) eqn:Q3; [|discriminate]. injection Q1 as <-. eapply nth_error_In; eauto.
Qed.
Lemma path_direct_nn s po bounce v r p n wo b k L k' : v_bsdf e v r = Ok (p, b) ->
  path_direct e u s po bounce v r p n wo b k = Ok (L, k') -> nn L.
Proof.
  intros HB. unfold path_direct. destruct (bounce <? SAMPLE_DEPTH)%nat.
  - destruct (idx po bounce) as [o|?]; cbn [bind]; [|discriminate]. now apply one_light_nn with (v := v) (r := r).
  - now apply one_light_nn with (v := v) (r := r).
Qed.
End DirectNN.

(** transmission is black without a volume integrator *)
Section Black.
Context {V : Type} (e : env V) (u : nat -> R) (md : Z) (stm : R)
  (local : V -> raydiff -> vec -> vec -> vec -> bsdf -> nat -> res (vec * nat)).
Hypothesis NV : vol e = None.
Lemma li_T fuel r i k L T i' k' c : renderer_li e u md stm local fuel r i k = Some (Ok (L, T, i', k', c)) -> T = spec 0.
Proof.
  destruct fuel as [|fuel]; cbn [renderer_li]; [discriminate|]. destruct (negb _); [discriminate|].
  destruct (hit e r) as [r1 h]. rewrite NV. unfold obind.
  match goal with |- context [match ?x with None => None | Some _ => _ end] => destruct x as [[[[[L0 i0] k0] c0]|?]|] end;
    try discriminate. intros H. injection H as <- <- <- <- <-. reflexivity.
Qed.
Lemma transmit_black fuel r b p n i k L i' k' c :
  specular e u (renderer_li e u md stm local fuel) true r b p n i k = Some (Ok (L, i', k', c)) -> L = spec 0.
Proof.
  unfold specular. cbv beta iota delta [smp_from_rand].
  match goal with |- context [bsdf_sample ?a ?b ?c ?d ?e ?f] => destruct (bsdf_sample a b c d e f) as [s|x] end; [|discriminate].
  destruct (Rltb 0 (sm_pdf s) && negb (is_black (sm_f s))); [|intros H; injection H as <- <- <- <-; reflexivity].
  destruct (sm_wi s) as [wi|]; [|discriminate]. destruct (Reqb (abs_dot wi n) 0); [intros H; injection H as <- <- <- <-; reflexivity|].
  match goal with |- context [obind (renderer_li e u md stm local fuel ?r2 ?i ?k')] =>
    destruct (renderer_li e u md stm local fuel r2 i k') as [[[[[[Li T] i2] k2] c2]|?]|] eqn:Q end; cbn [obind]; try discriminate.
  apply li_T in Q. subst T. intros H. injection H as <- _ _ _.
  unfold sdiv, vscale, smul, spec, vmap, vmap2; cbn. f_equal; unfold Rdiv; ring.
Qed.
End Black.

(** differentials *)
Lemma dlim_affine f a b : (forall t, f t = a + b * t) -> derivable_pt_lim f 0 b.
Proof.
  intros H eps He. exists (mkposreal 1 Rlt_0_1). intros h Hh _. rewrite !H. rewrite Rplus_0_l.
  replace ((a + b * h - (a + b * 0)) / h - b) with 0 by (field; exact Hh). rewrite Rabs_R0. exact He.
Qed.
Lemma dlim_ext f g x l : (forall t, f t = g t) -> derivable_pt_lim f x l -> derivable_pt_lim g x l.
Proof. intros H D eps He. destruct (D eps He) as [d P]. exists d. intros h A B. rewrite <- !H. now apply P. Qed.
Lemma dlim_cubic f a b c d : (forall t, f t = a + b * t + c * t ^ 2 + d * t ^ 3) -> derivable_pt_lim f 0 b.
Proof.
  intros H eps He. pose proof (Rabs_pos c) as C0. pose proof (Rabs_pos d) as D0.
  set (K := Rabs c + Rabs d + 1). assert (K0 : 0 < K) by (unfold K; lra).
  assert (DP : 0 < Rmin 1 (eps / K)) by (apply Rmin_pos; [lra|]; apply Rdiv_lt_0_compat; lra).
  exists (mkposreal _ DP). intros h Hh HB. cbn in HB. rewrite !H, Rplus_0_l.
  replace ((a + b * h + c * h ^ 2 + d * h ^ 3 - (a + b * 0 + c * 0 ^ 2 + d * 0 ^ 3)) / h - b) with (h * (c + d * h)) by (field; exact Hh).
  rewrite Rabs_mult. assert (H1 : Rabs h < 1) by (eapply Rlt_le_trans; [exact HB|apply Rmin_l]).
  assert (H2 : Rabs h < eps / K) by (eapply Rlt_le_trans; [exact HB|apply Rmin_r]).
  pose proof (Rabs_pos h) as HP.
  assert (B : Rabs (c + d * h) <= Rabs c + Rabs d).
  { eapply Rle_trans; [apply Rabs_triang|]. rewrite Rabs_mult. nra. }
  assert (E1 : Rabs h * K < eps).
  { apply Rmult_lt_compat_r with (r := K) in H2; [|exact K0]. unfold Rdiv in H2. rewrite Rmult_assoc, Rinv_l in H2 by lra. lra. }
  pose proof (Rabs_pos (c + d * h)). assert (Rabs (c + d * h) <= K) by (unfold K; lra). nra.
Qed.
Lemma reflect_deriv wo n dwo dn :
  vderiv (fun t => mirror (moved wo dwo t) (moved n dn t)) (vsub (reflect_diff (mirror wo n) wo n dwo dn) (mirror wo n)).
Proof.
  set (c0 := vdot wo n). set (c1 := vdot dwo n + vdot wo dn). set (c2 := vdot dwo dn).
  assert (DOT : forall t, vdot (moved wo dwo t) (moved n dn t) = c0 + c1 * t + c2 * t ^ 2).
  { intros t. unfold c0, c1, c2, moved, vdot, vadd, vscale, vmap, vmap2; cbn. ring. }
  assert (RD : vsub (reflect_diff (mirror wo n) wo n dwo dn) (mirror wo n) =
    vadd (vneg dwo) (vscale 2 (vadd (vscale c0 dn) (vscale c1 n)))).
  { unfold reflect_diff, dDN_of. fold c0 c1. generalize (mirror wo n). intros m.
    unfold vadd, vsub, vneg, vscale, vmap, vmap2; cbn. f_equal; ring. }
  rewrite RD.
  assert (G : forall (w0 w1 n0 n1 : R) f, (forall t, f t = - (w0 + t * w1) + 2 * (c0 + c1 * t + c2 * t ^ 2) * (n0 + t * n1)) ->
    derivable_pt_lim f 0 (- w1 + 2 * (c0 * n1 + c1 * n0))).
  { intros w0 w1 n0 n1 f Hf. apply dlim_cubic with (a := - w0 + 2 * c0 * n0) (c := 2 * (c1 * n1 + c2 * n0)) (d := 2 * c2 * n1).
    intros t. rewrite Hf. ring. }
  clearbody c0 c1 c2.
  split; [apply (G (vx wo) (vx dwo) (vx n) (vx dn))|split; [apply (G (vy wo) (vy dwo) (vy n) (vy dn))|apply (G (vz wo) (vz dwo) (vz n) (vz dn))]];
    intros t; unfold mirror; rewrite DOT; unfold moved, vadd, vneg, vscale, vmap, vmap2; cbn; ring.
Qed.
Lemma sqrt_deriv eta c0 c1 : 0 < 1 - eta * eta * (1 - c0 * c0) ->
  derivable_pt_lim (fun t => sqrt (1 - eta * eta * (1 - (c0 + c1 * t) * (c0 + c1 * t)))) 0
    (eta * eta * c0 * c1 / sqrt (1 - eta * eta * (1 - c0 * c0))).
Proof.
  intros P. set (g := fun t => 1 - eta * eta * (1 - (c0 + c1 * t) * (c0 + c1 * t))).
  assert (D : derivable_pt_lim g 0 (2 * eta * eta * c0 * c1)).
  { apply dlim_cubic with (a := 1 - eta * eta * (1 - c0 * c0)) (c := eta * eta * c1 * c1) (d := 0). intros t. unfold g. ring. }
  assert (G0 : g 0 = 1 - eta * eta * (1 - c0 * c0)) by (unfold g; ring).
  pose proof (derivable_pt_lim_sqrt (g 0) ltac:(rewrite G0; exact P)) as S.
  pose proof (derivable_pt_lim_comp g sqrt 0 _ _ D S) as C. rewrite G0 in C.
  pose proof (sqrt_lt_R0 _ P) as SP.
  replace (eta * eta * c0 * c1 / sqrt (1 - eta * eta * (1 - c0 * c0)))
    with (/ (2 * sqrt (1 - eta * eta * (1 - c0 * c0))) * (2 * eta * eta * c0 * c1)) by (field; lra).
  exact C.
Qed.
Lemma transmit_deriv eta wo n dwo : vdot n n = 1 -> 0 < 1 - eta * eta * (1 - vdot wo n * vdot wo n) ->
  vderiv (fun t => refract eta (moved wo dwo t) n) (vneg (vsub (transmit_diff eta (refract eta wo n) wo n dwo vzero) (refract eta wo n))).
Proof.
  intros N1 P. set (c0 := vdot wo n) in *. set (c1 := vdot dwo n).
  set (S := sqrt (1 - eta * eta * (1 - c0 * c0))). pose proof (sqrt_lt_R0 _ P) as SP. fold S in SP.
  assert (DOT : forall t, vdot (moved wo dwo t) n = c0 + c1 * t).
  { intros t. unfold c0, c1, moved, vdot, vadd, vscale, vmap, vmap2; cbn. ring. }
  assert (WN : vdot (refract eta wo n) n = - S).
  { unfold refract. fold c0. fold S. transitivity (- eta * c0 + (eta * c0 - S) * vdot n n).
    - unfold c0, vdot, vadd, vscale, vmap, vmap2; cbn. ring.
    - rewrite N1. ring. }
  assert (RD : vneg (vsub (transmit_diff eta (refract eta wo n) wo n dwo vzero) (refract eta wo n)) =
    vadd (vscale (- eta) dwo) (vscale (eta * c1 - eta * eta * c0 * c1 / S) n)).
  { unfold transmit_diff. rewrite WN. replace (vdot (vneg wo) n) with (- c0) by (unfold c0, vdot, vneg, vmap; cbn; ring).
    replace (dDN_of n wo dwo vzero) with c1 by (unfold dDN_of, c1, vdot, vzero; cbn; ring).
    generalize (refract eta wo n). intros m. clearbody c1.
    unfold vadd, vsub, vneg, vscale, vzero, vmap, vmap2; cbn. f_equal; field; lra. }
  rewrite RD.
  assert (G : forall w0 w1 n0 f,
    (forall t, f t = - eta * (w0 + t * w1) + (eta * (c0 + c1 * t) - sqrt (1 - eta * eta * (1 - (c0 + c1 * t) * (c0 + c1 * t)))) * n0) ->
    derivable_pt_lim f 0 (- eta * w1 + (eta * c1 - eta * eta * c0 * c1 / S) * n0)).
  { intros w0 w1 n0 f Hf.
    set (q := fun t => sqrt (1 - eta * eta * (1 - (c0 + c1 * t) * (c0 + c1 * t)))).
    pose proof (sqrt_deriv eta c0 c1 P) as DS. fold S in DS. fold q in DS.
    assert (DA : derivable_pt_lim (fun t => - eta * (w0 + t * w1) + eta * (c0 + c1 * t) * n0) 0 (- eta * w1 + eta * c1 * n0)).
    { apply dlim_affine with (a := - eta * w0 + eta * c0 * n0). intros t. ring. }
    pose proof (derivable_pt_lim_scal q (- n0) 0 _ DS) as DQ.
    pose proof (derivable_pt_lim_plus _ _ _ _ _ DA DQ) as DD.
    replace (- eta * w1 + (eta * c1 - eta * eta * c0 * c1 / S) * n0)
      with (- eta * w1 + eta * c1 * n0 + - n0 * (eta * eta * c0 * c1 / S)) by ring.
    eapply dlim_ext; [|exact DD]. intros t. rewrite Hf. unfold plus_fct, mult_real_fct, q. ring. }
  split; [apply (G (vx wo))|split; [apply (G (vy wo))|apply (G (vz wo))]]; intros t; unfold refract; rewrite DOT;
    unfold moved, vadd, vscale, vmap, vmap2; cbn [vx vy vz]; reflexivity.
Qed.
