(** Path tracing as a sum over the vertices of the path; Russian roulette; recursive integrators. *)
From Coq Require Import Reals Lra Lia List Bool ZArith.
From Coquelicot Require Import Coquelicot.
From Verif Require Import Base M_Geometry M_MonteCarlo M_Aggregate M_Reflection M_Utility M_Spectrum M_Sampler M_Film M_Light M_Integrator.
From Verif Require Import S_Integrator S_Integrator2 P_Integrator P_Integrator2 P_Integrator3.
Import ListNotations.
Open Scope R_scope.

Lemma survivor_eq beta x : survivor beta x =
  if Rltb (pmin (/ 2) (rgb_y beta)) x then None else Some (sdiv beta (pmin (/ 2) (rgb_y beta))).
Proof.
  unfold survivor. replace (1 / 2) with (/ 2) by lra. rewrite pmin_Rmin. cbv zeta. destruct (Rltb _ x); [reflexivity|].
  f_equal. destruct beta as [a b c]. unfold sdiv, vscale, vmap, Rdiv; cbn. f_equal; ring.
Qed.
Lemma smul_vadd a b c : smul a (vadd b c) = vadd (smul a b) (smul a c).
Proof. destruct a, b, c; unfold smul, vadd, vmap2; cbn; f_equal; ring. Qed.
Lemma lsum_map ls r : lsum ls r = vsum (map (fun l => lt_le l r) ls).
Proof. unfold lsum, vsum. induction ls as [|l ls IH]; cbn; [reflexivity|]. now rewrite IH. Qed.

Section Path.
Context {V : Type} (e : env V) (u : nat -> R) (md : Z)
  (direct : nat -> V -> raydiff -> vec -> vec -> vec -> bsdf -> nat -> res (vec * nat))
  (ps : nat -> res (R * R * R)).
Hypothesis NV : vol e = None.
Notation here := (here e u direct ps).
Notation carries := (carries e u md direct ps).

(** what one iteration does, given what happens at the vertex *)
Definition visits (s : @pst V) : Prop := (p_bounce s =? 0)%nat || p_spb s = true.
Definition finish (s : @pst V) (L : vec) (k c : nat) : res path_out + @pst V := inl (Ok (vadd (p_L s) (smul (p_beta s) L), k, c)).

Lemma bsum s L Ld v r : L = vadd (v_le e v (vneg (rdir r))) Ld ->
  vadd (vadd (p_L s) (smul (p_beta s) (v_le e v (vneg (rdir r))))) (smul (p_beta s) Ld) = vadd (@p_L V s) (smul (p_beta s) L).
Proof. intros ->. now rewrite smul_vadd, vadd_ass. Qed.

Lemma step_none s L p k' : visits s -> here (p_bounce s) (p_v s) (p_r s) (p_k s) L p None k' ->
  path_step e u md direct ps s = finish s L k' (p_calls s).
Proof.
  intros Vs (b & Ld & k1 & a & sm & H1 & H2 & H3 & H4 & H5 & H6). unfold path_step. unfold visits in Vs. rewrite Vs, H1, H2.
  assert (B : (if (p_bounce s <? SAMPLE_DEPTH)%nat then do a <- ps (p_bounce s); Ok (a, k1) else Ok (smp_from_rand u k1)) = Ok (a, k')).
  { destruct H4 as [(Q1 & Q2 & ->)|(Q1 & -> & ->)].
    - assert (Q : (p_bounce s <? SAMPLE_DEPTH)%nat = true) by (apply Nat.ltb_lt; exact Q1). rewrite Q, Q2. reflexivity.
    - assert (Q : (p_bounce s <? SAMPLE_DEPTH)%nat = false) by (apply Nat.ltb_ge; exact Q1). rewrite Q, rand3_eq. reflexivity. }
  cbv zeta. rewrite B. destruct a as [[u0 u1] uc]. cbn [fst snd] in H5. rewrite H5.
  assert (Q : spec_is_black (sm_f sm) || Reqb (sm_pdf sm) 0 = true).
  { apply orb_true_iff. destruct H6 as [H6|H6]; [left; now apply black_iff_t|right; now apply Reqb_true]. }
  rewrite Q. unfold finish. now rewrite (bsum s L Ld).
Qed.
Lemma step_some s L p wi w k1 : visits s -> here (p_bounce s) (p_v s) (p_r s) (p_k s) L p (Some (wi, w)) k1 ->
  forall o k2, thinned u (p_bounce s) k1 (smul (p_beta s) w) o k2 ->
  path_step e u md direct ps s =
    match o with
    | None => finish s L k2 (p_calls s)
    | Some beta' =>
        if (Z.of_nat (p_bounce s) =? md)%Z then finish s L k2 (p_calls s)
        else match hit e (child_ray p wi (p_r s) (v_eps e (p_v s))) with
             | (r', None) => inl (Ok (vadd (vadd (p_L s) (smul (p_beta s) L))
                                        (smul beta' (vsum (map (fun l => lt_le l r') (lights e)))), k2, S (p_calls s)))
             | (r', Some v') => inr (mkP (S (p_bounce s)) v' r' true beta' (vadd (p_L s) (smul (p_beta s) L)) k2 (S (p_calls s)))
             end
    end.
Proof.
  intros Vs (b & Ld & k0 & a & sm & H1 & H2 & H3 & H4 & H5 & H6 & H7 & H8 & H9) o k2 T. unfold path_step. unfold visits in Vs. rewrite Vs, H1, H2.
  assert (B : (if (p_bounce s <? SAMPLE_DEPTH)%nat then do a <- ps (p_bounce s); Ok (a, k0) else Ok (smp_from_rand u k0)) = Ok (a, k1)).
  { destruct H4 as [(Q1 & Q2 & ->)|(Q1 & -> & ->)].
    - assert (Q : (p_bounce s <? SAMPLE_DEPTH)%nat = true) by (apply Nat.ltb_lt; exact Q1). rewrite Q, Q2. reflexivity.
    - assert (Q : (p_bounce s <? SAMPLE_DEPTH)%nat = false) by (apply Nat.ltb_ge; exact Q1). rewrite Q, rand3_eq. reflexivity. }
  cbv zeta. rewrite B. destruct a as [[u0 u1] uc]. cbn [fst snd] in H5. rewrite H5.
  assert (Q : spec_is_black (sm_f sm) || Reqb (sm_pdf sm) 0 = false).
  { apply orb_false_iff. split; [now apply black_iff|now apply Reqb_false]. }
  rewrite Q, H8.
  assert (W : smul (p_beta s) (sdiv (vscale (abs_dot wi (b_dgs_nn e (p_v s) (p_r s))) (sm_f sm)) (sm_pdf sm)) = smul (p_beta s) w).
  { f_equal. rewrite H9. destruct (sm_f sm) as [x y z]. unfold sdiv, vscale, vmap, abs_dot, Rdiv; cbn. f_equal; ring. }
  rewrite W. rewrite (bsum s L Ld) by exact H3. unfold finish.
  assert (St : (if (SAMPLE_DEPTH <? p_bounce s)%nat then
         let q := pmin (/ 2) (rgb_y (smul (p_beta s) w)) in
         if Rltb q (u k1) then (true, smul (p_beta s) w, S k1) else (false, sdiv (smul (p_beta s) w) q, S k1)
       else (false, smul (p_beta s) w, k1)) =
     match o with None => (true, smul (p_beta s) w, k2) | Some b' => (false, b', k2) end).
  { destruct T as [(T1 & -> & ->)|(T1 & -> & ->)].
    - assert (Q0 : (SAMPLE_DEPTH <? p_bounce s)%nat = false) by (apply Nat.ltb_ge; exact T1). rewrite Q0. reflexivity.
    - assert (Q0 : (SAMPLE_DEPTH <? p_bounce s)%nat = true) by (apply Nat.ltb_lt; exact T1). rewrite Q0, survivor_eq. cbv zeta.
      destruct (Rltb _ (u k1)); reflexivity. }
  cbv zeta in St. rewrite St. clear St. destruct o as [b'|]; [|cbn [orb]; reflexivity].
  cbn [orb]. destruct (Z.of_nat (p_bounce s) =? md)%Z; [reflexivity|].
  destruct (hit e _) as [r' [v'|]].
  - destruct (1 <? p_bounce s)%nat; [|reflexivity]. rewrite (no_medium e NV).
    assert (Q1 : smul b' (spec 1) = b') by (destruct b' as [x y z]; unfold smul, spec, vmap2; cbn; f_equal; ring). now rewrite Q1.
  - unfold sum_le. rewrite fold_lsum, lsum_map. reflexivity.
Qed.
(** a successful iteration determines what happens at the vertex *)
Lemma step_inv s : (exists x, path_step e u md direct ps s = inl (Err x)) \/
  exists L p k', here (p_bounce s) (p_v s) (p_r s) (p_k s) L p None k' \/
    exists wi w, here (p_bounce s) (p_v s) (p_r s) (p_k s) L p (Some (wi, w)) k'.
Proof.
  unfold path_step. destruct (v_bsdf e (p_v s) (p_r s)) as [[p b]|x] eqn:H1; [|left; eauto].
  destruct (direct (p_bounce s) (p_v s) (p_r s) p (b_dgs_nn e (p_v s) (p_r s)) (vneg (rdir (p_r s))) b (p_k s)) as [[Ld k1]|x] eqn:H2; [|left; eauto].
  cbv zeta.
  assert (B : forall a k', (if (p_bounce s <? SAMPLE_DEPTH)%nat then do a <- ps (p_bounce s); Ok (a, k1) else Ok (smp_from_rand u k1)) = Ok (a, k') ->
    bounce_numbers u ps (p_bounce s) k1 a k').
  { intros a k' H. destruct (p_bounce s <? SAMPLE_DEPTH)%nat eqn:Q.
    - apply Nat.ltb_lt in Q. left. destruct (ps (p_bounce s)) as [a'|?]; cbn in H; [|discriminate]. injection H as <- <-. auto.
    - apply Nat.ltb_ge in Q. right. rewrite rand3_eq in H. injection H as <- <-. auto. }
  match goal with |- context [match ?x with Ok _ => _ | Err _ => _ end] => destruct x as [[[[u0 u1] uc] k2]|?] eqn:H3 end; [|left; eauto].
  specialize (B _ _ eq_refl).
  destruct (bsdf_sample b (vneg (rdir (p_r s))) u0 u1 uc ALL) as [sm|x] eqn:H4; [|left; eauto].
  destruct (spec_is_black (sm_f sm) || Reqb (sm_pdf sm) 0) eqn:H5.
  - right. exists (vadd (v_le e (p_v s) (vneg (rdir (p_r s)))) Ld), p, k2. left. exists b, Ld, k1, (u0, u1, uc), sm.
    repeat (split; [assumption || reflexivity|]). apply orb_true_iff in H5 as [H5|H5]; [left; now apply black_iff_t|right; now Rb].
  - apply orb_false_elim in H5 as [H5 H6]. apply black_iff in H5. Rb.
    destruct (sm_wi sm) as [wi|] eqn:H7; [|left; eauto].
    right. exists (vadd (v_le e (p_v s) (vneg (rdir (p_r s)))) Ld), p, k2. right. eexists wi, _. exists b, Ld, k1, (u0, u1, uc), sm.
    repeat (split; [assumption || reflexivity|]). reflexivity.
Qed.
Lemma thinned_ex i k beta : exists o k', thinned u i k beta o k'.
Proof.
  destruct (le_lt_dec i 3); [exists (Some beta), k; left; auto|exists (survivor beta (u k)), (S k); right; auto].
Qed.

Lemma loop_carries fuel : forall s L k c, visits s ->
  path_loop e u md direct ps fuel s = Some (Ok (L, k, c)) ->
  exists Lr c', carries (p_bounce s) (p_beta s) (p_v s) (p_r s) (p_k s) Lr k c' /\ L = vadd (p_L s) Lr /\ c = (p_calls s + c')%nat.
Proof.
  induction fuel as [|fuel IH]; intros s L k c Vs H; [discriminate|]. cbn [path_loop] in H.
  destruct (step_inv s) as [(x & Q)|(L0 & p & k' & [Q|(wi & w & Q)])].
  - rewrite Q in H. discriminate.
  - rewrite (step_none s L0 p k' Vs Q) in H. injection H as <- <- <-. exists (smul (p_beta s) L0), 0%nat.
    split; [eapply c_absorbed; eauto|]. split; [reflexivity|lia].
  - destruct (thinned_ex (p_bounce s) k' (smul (p_beta s) w)) as (o & k2 & T).
    rewrite (step_some s L0 p wi w k' Vs Q o k2 T) in H. destruct o as [beta'|].
    2: { injection H as <- <- <-. exists (smul (p_beta s) L0), 0%nat. split; [eapply c_dropped; eauto|]. split; [reflexivity|lia]. }
    destruct (Z.of_nat (p_bounce s) =? md)%Z eqn:M.
    { apply Z.eqb_eq in M. injection H as <- <- <-. exists (smul (p_beta s) L0), 0%nat. split; [eapply c_depth; eauto|]. split; [reflexivity|lia]. }
    apply Z.eqb_neq in M. destruct (hit e (child_ray p wi (p_r s) (v_eps e (p_v s)))) as [r' [v'|]] eqn:Hh.
    + apply IH in H; [|unfold visits; cbn; reflexivity]. cbn [p_bounce p_beta p_v p_r p_k p_L p_calls] in H.
      destruct H as (Lr & c' & C & -> & ->). exists (vadd (smul (p_beta s) L0) Lr), (S c'). split; [eapply c_goes_on; eauto|].
      split; [now rewrite vadd_ass|lia].
    + injection H as <- <- <-. eexists _, 1%nat. split; [eapply c_escapes; eauto|]. split; [now rewrite vadd_ass|lia].
Qed.
Lemma carries_loop i beta v r k L k' c : carries i beta v r k L k' c ->
  forall spb L0 c0, (i =? 0)%nat || spb = true -> exists N, forall fuel, (N <= fuel)%nat ->
  path_loop e u md direct ps fuel (mkP i v r spb beta L0 k c0) = Some (Ok (vadd L0 L, k', (c0 + c)%nat)).
Proof.
  induction 1 as [i beta v r k L p k' Q|i beta v r k L p wi w k1 k2 Q T|i beta v r k L p wi w k1 k2 beta' Q T M
    |i beta v r k L p wi w k1 k2 beta' r' Q T M Hh|i beta v r k L p wi w k1 k2 beta' r' v' L' k3 c Q T M Hh C IH]; intros spb L0 c0 Vs.
  1-4: exists 1%nat; intros [|f] Hf; [lia|]; cbn [path_loop].
  - rewrite (step_none (mkP i v r spb beta L0 k c0) L p k' Vs Q). unfold finish; cbn. do 2 f_equal. f_equal. lia.
  - rewrite (step_some (mkP i v r spb beta L0 k c0) L p wi w k1 Vs Q None k2 T). unfold finish; cbn. do 2 f_equal. f_equal. lia.
  - rewrite (step_some (mkP i v r spb beta L0 k c0) L p wi w k1 Vs Q _ k2 T). cbn [p_bounce]. apply Z.eqb_eq in M. rewrite M.
    unfold finish; cbn. do 2 f_equal. f_equal. lia.
  - rewrite (step_some (mkP i v r spb beta L0 k c0) L p wi w k1 Vs Q _ k2 T). cbn [p_bounce]. apply Z.eqb_neq in M. rewrite M.
    cbn [p_r p_v p_L p_beta p_calls]. rewrite Hh. rewrite vadd_ass. do 2 f_equal. f_equal. lia.
  - destruct (IH true (vadd L0 (smul beta L)) (S c0)) as (N & HN); [apply orb_true_r|].
    exists (S N). intros [|f] Hf; [lia|]. cbn [path_loop].
    rewrite (step_some (mkP i v r spb beta L0 k c0) L p wi w k1 Vs Q _ k2 T). cbn [p_bounce]. apply Z.eqb_neq in M. rewrite M.
    cbn [p_r p_v p_L p_beta p_calls]. rewrite Hh. rewrite HN by lia. rewrite vadd_ass. do 2 f_equal. f_equal. lia.
Qed.
End Path.

(** ** Russian roulette *)
Lemma const_int (c a b : R) : is_RInt (fun _ : R => c) a b ((b - a) * c).
Proof. exact (is_RInt_const (V := R_NormedModule) a b c). Qed.
Lemma step_int q a : 0 <= q <= 1 -> is_RInt (fun x => if Rltb q x then 0 else a) 0 1 (q * a).
Proof.
  intros Q. replace (q * a) with (q * a + (1 - q) * 0) by ring.
  apply (is_RInt_Chasles (V := R_NormedModule) _ 0 q 1).
  - apply (is_RInt_ext (fun _ => a)).
    + intros x [H1 H2]. rewrite Rmin_left in H1 by lra. rewrite Rmax_right in H2 by lra.
      destruct (Rltb q x) eqn:C; [Rb; lra|reflexivity].
    + replace (q * a) with ((q - 0) * a) by ring. apply const_int.
  - apply (is_RInt_ext (fun _ => 0)).
    + intros x [H1 H2]. rewrite Rmin_left in H1 by lra. rewrite Rmax_right in H2 by lra.
      destruct (Rltb q x) eqn:C; [reflexivity|Rb; lra].
    + apply const_int.
Qed.
Lemma roulette_mean beta : 0 < rgb_y beta ->
  expected (fun x => match survivor beta x with Some b => b | None => spec 0 end) beta.
Proof.
  intros Y. unfold survivor. cbv zeta. set (q := Rmin (1 / 2) (rgb_y beta)).
  assert (Q : 0 < q <= 1) by (unfold q, Rmin; destruct (Rle_dec (1 / 2) (rgb_y beta)); lra).
  assert (K : forall a, is_RInt (fun x => if Rltb q x then 0 else / q * a) 0 1 a).
  { intros a. assert (Qe : q * (/ q * a) = a) by (field; lra). pose proof (step_int q (/ q * a) ltac:(lra)) as S0. now rewrite Qe in S0. }
  destruct beta as [x y z]. unfold expected; cbn [vx vy vz].
  split; [|split]; (eapply is_RInt_ext; [|apply K]); intros t _; cbv beta; destruct (Rltb q t); reflexivity.
Qed.
