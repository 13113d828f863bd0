(** Property theorems C283: radiance through mirrors is bounded.  Vocabulary: S_Bounded.v, S_Integrator.v. *)
From Coq Require Import Reals Lra Lia List Bool ZArith.
From Verif Require Import Base M_Geometry M_MonteCarlo M_Aggregate M_Reflection M_Utility M_Spectrum M_Sampler M_Film M_Light M_Integrator.
From Verif Require Import S_Reflection S_Sampler S_Integrator S_Integrator2 S_Bounded P_Integrator P_Integrator2 P_Integrator3 Props_Integrator.
Import ListNotations.
Open Scope R_scope.

Lemma geometric_nonneg rho n : 0 <= rho -> 0 <= geometric rho n.
Proof. intros H. induction n; cbn [geometric]; [lra|nra]. Qed.
Lemma geometric_closed rho n : (1 - rho) * geometric rho n = 1 - rho ^ n.
Proof. induction n; cbn [geometric pow]; [ring|]. replace (rho * rho ^ n) with (rho * (1 - (1 - rho) * geometric rho n)) by (rewrite IHn; ring). ring. Qed.
Lemma geometric_mono rho n m : 0 <= rho -> (n <= m)%nat -> geometric rho n <= geometric rho m.
Proof.
  intros H L. induction L as [|m L IH]; [lra|]. assert (Q : forall k, geometric rho k <= geometric rho (S k)); [|specialize (Q m); lra].
  induction k as [|k IHk]; cbn [geometric] in *; nra.
Qed.
Section Bound.
Context {V : Type} (e : env V) (u : nat -> R) (md : Z) (time : R).
Variable local : V -> raydiff -> vec -> vec -> vec -> bsdf -> nat -> res (vec * nat).
Variables (M rho : R).
Hypothesis NV : vol e = None.
Hypothesis KD : keeps_depth e.
Hypothesis M0 : 0 <= M. Hypothesis R0 : 0 <= rho.
Hypothesis HBg : forall r, channels_within M (sum_le e r (spec 1) (spec 0)).
Hypothesis HLoc : forall r0 v r p b k Ld k', hit e r0 = (r, Some v) -> v_bsdf e v r = Ok (p, b) ->
  local v r p (b_dgs_nn e v r) (vneg (rdir r)) b k = Ok (Ld, k') -> channels_within M (vadd (v_le e v (vneg (rdir r))) Ld).
Hypothesis HSp : forall r0 v r p b x y z s wi, hit e r0 = (r, Some v) -> v_bsdf e v r = Ok (p, b) -> bsdf_sample b (vneg (rdir r)) x y z (Z.lor REFLECTION SPECULAR) = Ok s ->
  0 < sm_pdf s -> sm_wi s = Some wi -> channels_within rho (vscale (abs_dot wi (b_dgs_nn e v r) / sm_pdf s) (sm_f s)).
Notation li := (renderer_li e u md time local).
Definition bounded_by (fuel : nat) : Prop := forall r i k L T i' k' n, li fuel r i k = Some (Ok (L, T, i', k', n)) ->
  T = spec 0 /\ channels_within (M * geometric rho (surfaces_left md (rdepth (rd_ray r)))) L.
Lemma sp_channels a b s : channels_within a s -> a <= b -> channels_within b s.
Proof. intros (A & B & C) H. unfold channels_within. lra. Qed.
Lemma sp_zero a : 0 <= a -> channels_within a (spec 0).
Proof. intros H. unfold channels_within, spec; cbn. lra. Qed.
Lemma mirror_bounded fuel : bounded_by fuel -> forall r0 v r p b k L i' k' n, hit e r0 = (r, Some v) -> v_bsdf e v r = Ok (p, b) ->
  specular e u (li fuel) false r b p (b_dgs_nn e v r) v k = Some (Ok (L, i', k', n)) ->
  channels_within (M * (rho * geometric rho (surfaces_left md (rdepth (rd_ray r) + 1)))) L.
Proof.
  intros IH r0 v r p b k L i' k' n EH EB. unfold specular, smp_from_rand.
  assert (G0 : 0 <= M * (rho * geometric rho (surfaces_left md (rdepth (rd_ray r) + 1)))).
  { apply Rmult_le_pos; [exact M0|]. apply Rmult_le_pos; [exact R0|]. now apply geometric_nonneg. }
  destruct (bsdf_sample _ _ _ _ _ _) as [s|] eqn:ES; [|discriminate].
  destruct (Rltb 0 (sm_pdf s) && _) eqn:Q; [|intros [= <- _ _ _]; now apply sp_zero].
  apply andb_true_iff in Q. destruct Q as [Q _]. apply Rltb_true in Q.
  destruct (sm_wi s) as [wi|] eqn:EW; [|discriminate]. destruct (Reqb _ 0); [intros [= <- _ _ _]; now apply sp_zero|].
  pose proof (HSp r0 v r p b _ _ _ s wi EH EB ES Q EW) as HS. set (n0 := b_dgs_nn e v r) in *.
  match goal with |- context [li fuel ?r2 v ?k2] => set (rr := r2); assert (DD : rdepth (rd_ray rr) = (rdepth (rd_ray r) + 1)%Z) end.
  { unfold rr. destruct (rd_has r); [destruct (diffs _ _ _ _ _ _) as [[[[? ?] ?] ?] ?]|]; reflexivity. }
  destruct (li fuel rr v _) as [[[[[[La Ta] ia] ka] na]|]|] eqn:E1; cbn [obind]; try discriminate. intros [= <- _ _ _].
  destruct (IH _ _ _ _ _ _ _ _ E1) as [_ HL]. rewrite DD in HL. set (gg := geometric _ _) in *.
  assert (C : forall a x d f, 0 <= a / d * f <= rho -> 0 <= x <= M * gg -> 0 <= a * (f * x) / d <= M * (rho * gg)).
  { intros a x d f H1 H2. replace (a * (f * x) / d) with (a / d * f * x) by (unfold Rdiv; ring). split; [apply Rmult_le_pos; lra|].
    apply Rle_trans with (rho * (M * gg)); [apply Rmult_le_compat; lra|lra]. }
  destruct HS as (S1 & S2 & S3), HL as (L1 & L2 & L3). unfold channels_within, sdiv, vscale, smul, vmap, vmap2 in *. cbn [vx vy vz] in *.
  split; [|split]; now apply C.
Qed.
Lemma pane_dark fuel : bounded_by fuel -> forall v v0 r p b k L i' k' n,
  specular e u (li fuel) true r b p v0 v k = Some (Ok (L, i', k', n)) -> L = vzero.
Proof.
  intros IH v v0 r p b k L i' k' n. unfold specular, smp_from_rand.
  destruct (bsdf_sample _ _ _ _ _ _) as [s|] eqn:ES; [|discriminate].
  destruct (Rltb 0 (sm_pdf s) && _) eqn:Q; [|now intros [= <- _ _ _]].
  destruct (sm_wi s) as [wi|] eqn:EW; [|discriminate]. destruct (Reqb _ 0); [now intros [= <- _ _ _]|].
  destruct (li fuel _ v _) as [[[[[[La Ta] ia] ka] na]|]|] eqn:E1; cbn [obind]; try discriminate. intros [= <- _ _ _].
  destruct (IH _ _ _ _ _ _ _ _ E1) as [-> _]. unfold sdiv, vscale, smul, vmap, vmap2, spec, vzero. cbn [vx vy vz]. apply V3_eq; cbn; unfold Rdiv; ring.
Qed.
Lemma all_bounded fuel : bounded_by fuel.
Proof.
  induction fuel as [|fuel IH]; intros r i k L T i' k' n; cbn [renderer_li]; [discriminate|].
  destruct (negb _); [discriminate|]. pose proof (KD r) as DR. destruct (hit e r) as [r1 h] eqn:EH. cbn [fst] in DR. rewrite NV.
  assert (ONE : forall s d, channels_within M s -> channels_within (M * geometric rho (surfaces_left md d)) s).
  { intros s d H. apply (sp_channels M); [exact H|]. unfold surfaces_left. cbn [geometric].
    pose proof (geometric_nonneg rho (Z.to_nat (md - 1 - d)) R0). assert (0 <= rho * geometric rho (Z.to_nat (md - 1 - d))) by (now apply Rmult_le_pos). nra. }
  destruct h as [v|].
  2:{ cbn [obind]. intros [= <- <- _ _ _]. split; [reflexivity|]. apply ONE, HBg. }
  unfold surf_li. destruct (v_bsdf e v r1) as [[p b]|] eqn:EB; cbn [obind]; [|discriminate].
  destruct (local _ _ _ _ _ _ _) as [[Ld k1]|] eqn:E1; cbn [obind]; [|discriminate].
  pose proof (HLoc _ _ _ _ _ _ _ _ EH EB E1) as HD. rewrite <- DR. destruct (_ <? md)%Z eqn:DM.
  2:{ cbn [obind]. intros [= <- <- _ _ _]. split; [reflexivity|]. now apply ONE. }
  apply Z.ltb_lt in DM.
  destruct (specular e u _ false _ _ _ _ _ k1) as [[[[[Ra va] k2a] c1a]|]|] eqn:F1; cbn [obind]; try discriminate.
  destruct (specular e u _ true _ _ _ _ _ k2a) as [[[[[Ta va'] k3a] c2a]|]|] eqn:G1; cbn [obind]; try discriminate.
  intros [= <- <- _ _ _]. split; [reflexivity|]. pose proof (mirror_bounded fuel IH _ _ _ _ _ _ _ _ _ _ EH EB F1) as HR. rewrite (pane_dark fuel IH _ _ _ _ _ _ _ _ _ _ G1).
  set (d := rdepth (rd_ray r1)) in *.
  assert (GE : geometric rho (surfaces_left md d) = 1 + rho * geometric rho (surfaces_left md (d + 1))).
  { unfold surfaces_left. replace (Z.to_nat (md - 1 - d)) with (S (Z.to_nat (md - 1 - (d + 1)))) by lia. reflexivity. }
  rewrite GE. destruct HD as (A1 & A2 & A3), HR as (B1 & B2 & B3). unfold channels_within, vadd, vmap2, vzero in *. cbn [vx vy vz] in *. lra.
Qed.
End Bound.

(** C283: radiance through any number of mirrors.  If the light leaving the first surface directly (emission and direct
    light, by whatever method it is estimated) and the background lie between 0 and M in every channel, and no mirror
    reflects more than the fraction rho, then what the recursive integrators return lies between 0 and
    M (1 + rho + ... + rho^(n-1)), n the number of surfaces a path may have: never negative, never unbounded. *)
Theorem C283_bounded (V : Type) (e : env V) (u : nat -> R) (md : Z) (time : R) local (M rho : R) (fuel : nat) (r : raydiff) (i : V) (k : nat) L T i' k' n :
  vol e = None -> keeps_depth e -> 0 <= M -> 0 <= rho ->
  (forall q, channels_within M (sum_le e q (spec 1) (spec 0))) ->
  (forall q0 v q p b j Ld j', hit e q0 = (q, Some v) -> v_bsdf e v q = Ok (p, b) -> local v q p (b_dgs_nn e v q) (vneg (rdir q)) b j = Ok (Ld, j') ->
     channels_within M (vadd (v_le e v (vneg (rdir q))) Ld)) ->
  (forall q0 v q p b x y z s wi, hit e q0 = (q, Some v) -> v_bsdf e v q = Ok (p, b) -> bsdf_sample b (vneg (rdir q)) x y z (Z.lor REFLECTION SPECULAR) = Ok s ->
     0 < sm_pdf s -> sm_wi s = Some wi -> channels_within rho (vscale (abs_dot wi (b_dgs_nn e v q) / sm_pdf s) (sm_f s))) ->
  renderer_li e u md time local fuel r i k = Some (Ok (L, T, i', k', n)) ->
  channels_within (M * geometric rho (surfaces_left md (rdepth (rd_ray r)))) L /\ (rho < 1 -> channels_within (M / (1 - rho)) L).
Proof.
  intros NV KD M0 R0 HB HL HS H. destruct (all_bounded e u md time local M rho NV KD M0 R0 HB HL HS fuel _ _ _ _ _ _ _ _ H) as [_ Q].
  split; [exact Q|]. intros R1. apply (sp_channels _ _ _ Q). unfold Rdiv. apply Rmult_le_compat_l; [exact M0|].
  set (m := surfaces_left md _). apply Rmult_le_reg_l with (1 - rho); [lra|]. rewrite geometric_closed, Rinv_r by lra.
  assert (0 <= rho ^ m) by (now apply pow_le). lra.
Qed.
Print Assumptions C283_bounded.

(** A perfect mirror everywhere that also glows: the hypotheses hold with M = 1 and rho = 1, and for a camera ray and one
    reflection the integrator returns something. *)
Lemma ex_local u v q p n wo j : exists j', whitted_local ex_env u v q p n wo ex_bsdf j = Ok (spec 0, j').
Proof.
  unfold whitted_local. cbn [ex_env lights whitted_lights ex_light lt_sample smp_from_rand bind].
  assert (F0 : forall a c, bsdf_f ex_bsdf a c ALL = Ok vzero).
  { intros a c. unfold bsdf_f, ex_bsdf; cbn. repeat match goal with |- context [if ?b then _ else _] => destruct b end; cbn; f_equal; unfold vzero; try apply V3_eq; cbn; ring. }
  destruct (_ || _); [eexists; reflexivity|]. rewrite F0. cbn [bind].
  assert (B0 : spec_is_black vzero = true) by (unfold spec_is_black, vzero, EPS; cbn; rewrite !(proj2 (Rltb_true _ _)) by lra; reflexivity).
  rewrite B0. cbn [negb andb]. eexists; reflexivity.
Qed.
Lemma ex_sample wo x y z s : bsdf_sample ex_bsdf wo x y z (Z.lor REFLECTION SPECULAR) = Ok s ->
  s = mkSmp 1 (Some (l2w ex_bsdf (mirror_dir (w2l ex_bsdf wo)))) (Some 17%Z) (sdiv (spec 1) (abs_cos_theta (mirror_dir (w2l ex_bsdf wo)))).
Proof.
  unfold bsdf_sample. change (n_components ex_bsdf (Z.lor REFLECTION SPECULAR)) with 1%nat. cbn [Nat.eqb].
  destruct (pick _ _ _) as [b|] eqn:EP; [|discriminate].
  assert (b = SpecularReflection (spec 1) FrFull).
  { unfold ex_bsdf in EP. cbn [bs_bdfs pick] in EP. repeat match goal with H : context [if ?b then _ else _] |- _ => destruct b end; try discriminate; now injection EP. }
  subst b. cbn [bdf_sample bind]. destruct (Reqb 1 0) eqn:Q; [exfalso; apply Reqb_true in Q; lra|]. cbn [Nat.ltb Nat.leb]. intros [= <-]. f_equal.
  unfold sdiv, smul, vmap, vmap2, spec; cbn. apply V3_eq; cbn; unfold Rdiv; ring.
Qed.
Lemma ex_mirror wo : channels_within 1 (vscale (abs_dot (l2w ex_bsdf (mirror_dir (w2l ex_bsdf wo))) (mkV 0 0 1) / 1)
  (sdiv (spec 1) (abs_cos_theta (mirror_dir (w2l ex_bsdf wo))))).
Proof.
  assert (A : abs_dot (l2w ex_bsdf (mirror_dir (w2l ex_bsdf wo))) (mkV 0 0 1) = Rabs (vz wo)).
  { unfold abs_dot, l2w, mirror_dir, w2l, vdot, ex_bsdf; cbn. f_equal. ring. }
  assert (B : abs_cos_theta (mirror_dir (w2l ex_bsdf wo)) = Rabs (vz wo)).
  { unfold abs_cos_theta, cos_theta, mirror_dir, w2l, vdot, ex_bsdf; cbn. f_equal. ring. }
  rewrite A, B. set (q := Rabs (vz wo)). assert (Q : 0 <= q / 1 * (1 / q) <= 1).
  { destruct (Req_dec q 0) as [->|N0]; [unfold Rdiv; rewrite !Rmult_0_l; lra|]. replace (q / 1 * (1 / q)) with 1 by (field; exact N0). lra. }
  unfold channels_within, vscale, sdiv, vmap, spec; cbn. auto.
Qed.
Lemma ex_last r k : rtm r = 0 -> rdepth (rd_ray r) = 1%Z -> exists L T k' n,
  renderer_li ex_env (fun _ => 0) 2 0 (whitted_local ex_env (fun _ => 0)) 1 r tt k = Some (Ok (L, T, tt, k', n)).
Proof.
  intros H D. cbn [renderer_li]. rewrite H. destruct (Reqb 0 0) eqn:Q; [|exfalso; apply Reqb_false in Q; lra]. cbn [negb]. cbn [ex_env hit]. unfold surf_li. cbn [ex_env v_bsdf].
  destruct (ex_local (fun _ => 0) tt r (mkV 0 0 0) (b_dgs_nn ex_env tt r) (vneg (rdir r)) k) as (j & E). rewrite E. rewrite D. cbn [Z.ltb Z.compare Z.add Pos.add Pos.compare Pos.compare_cont obind vol ex_env].
  eexists _, _, _, _. reflexivity.
Qed.
Example C283_ex : vol ex_env = None /\ keeps_depth ex_env /\ (forall q, channels_within 1 (sum_le ex_env q (spec 1) (spec 0))) /\
  (forall u q0 v q p b j Ld j', hit ex_env q0 = (q, Some v) -> v_bsdf ex_env v q = Ok (p, b) -> whitted_local ex_env u v q p (b_dgs_nn ex_env v q) (vneg (rdir q)) b j = Ok (Ld, j') ->
     channels_within 1 (vadd (v_le ex_env v (vneg (rdir q))) Ld)) /\
  (forall q0 v q p b x y z s wi, hit ex_env q0 = (q, Some v) -> v_bsdf ex_env v q = Ok (p, b) -> bsdf_sample b (vneg (rdir q)) x y z (Z.lor REFLECTION SPECULAR) = Ok s ->
     0 < sm_pdf s -> sm_wi s = Some wi -> channels_within 1 (vscale (abs_dot wi (b_dgs_nn ex_env v q) / sm_pdf s) (sm_f s))) /\
  exists L T k n, renderer_li ex_env (fun _ => 0) 2 0 (whitted_local ex_env (fun _ => 0)) 2
    (mkRD (mkRay (mkV 0 0 1) (mkV 0 0 (-1)) (mkV false false false) (Fin 0) PInf 0%Z 0) false vzero vzero vzero vzero) tt 0 = Some (Ok (L, T, tt, k, n)).
Proof.
  split; [reflexivity|]. split; [intros r; reflexivity|]. split.
  { intros q. unfold sum_le, ex_env; cbn [lights fold_left ex_light lt_le]. unfold channels_within, vadd, smul, vmap2, spec; cbn. lra. }
  split.
  { intros u q0 v q p b j Ld j' _ EB. cbn [ex_env v_bsdf] in EB. injection EB as <- <-. destruct (ex_local u v q (mkV 0 0 0) (b_dgs_nn ex_env v q) (vneg (rdir q)) j) as (j2 & ->).
    intros [= <- _]. unfold channels_within, vadd, vmap2, spec; cbn. lra. }
  split.
  { intros q0 v q p b x y z s wi _ EB. cbn [ex_env v_bsdf] in EB. injection EB as <- <-. intros H. apply ex_sample in H. subst s. cbn [sm_pdf sm_wi sm_f]. intros _ [= <-]. apply ex_mirror. }
  set (r0 := mkRD _ _ _ _ _ _). set (li1 := renderer_li ex_env (fun _ => 0) 2 0 (whitted_local ex_env (fun _ => 0)) 1).
  change (exists L T k n, (if negb (Reqb (rtm r0) 0) then Some (Err AssertionError) else
    obind (surf_li ex_env (fun _ => 0) 2 (whitted_local ex_env (fun _ => 0)) li1 r0 tt 0) (fun '(L, isect', k1, c) => Some (Ok (L, spec 0, isect', k1, c)))) = Some (Ok (L, T, tt, k, n))).
  change (rtm r0) with 0. destruct (Reqb 0 0) eqn:Q; [|exfalso; apply Reqb_false in Q; lra]. cbn [negb]. unfold surf_li. cbn [ex_env v_bsdf].
  destruct (ex_local (fun _ => 0) tt r0 (mkV 0 0 0) (b_dgs_nn ex_env tt r0) (vneg (rdir r0)) 0) as (j & E). rewrite E.
  change (rdepth (rd_ray r0) + 1 <? 2)%Z with true. cbv iota.
  assert (F1 : exists L T k n, specular ex_env (fun _ => 0) li1 false r0 ex_bsdf (mkV 0 0 0) (b_dgs_nn ex_env tt r0) tt j = Some (Ok (L, T, k, n))).
  { unfold specular, smp_from_rand. set (wo := vneg (rdir r0)).
    assert (ES : exists s, bsdf_sample ex_bsdf wo 0 0 0 (Z.lor (if false then TRANSMISSION else REFLECTION) SPECULAR) = Ok s).
    { unfold bsdf_sample. change (n_components ex_bsdf _) with 1%nat. cbn [Nat.eqb]. unfold pick_index. rewrite Rmult_0_l.
      replace (Zfloor 0) with 0%Z by (symmetry; apply Zfloor_unique; lra). cbn. destruct (Reqb 1 0); eexists; reflexivity. }
    destruct ES as (s & ES). rewrite ES. apply ex_sample in ES. subst s. cbn [sm_pdf sm_wi sm_f].
    destruct (_ && _); [|eexists _, _, _, _; reflexivity]. destruct (Reqb (abs_dot _ _) 0); [eexists _, _, _, _; reflexivity|]. cbn [rd_has r0].
    match goal with |- context [li1 ?rr tt ?kk] => destruct (ex_last rr kk eq_refl eq_refl) as (L & T & k' & n & EL); unfold li1; rewrite EL end.
    cbn [obind]. eexists _, _, _, _. reflexivity. }
  destruct F1 as (L1 & [] & k1 & n1 & F1). rewrite F1. cbn [obind].
  assert (F2 : forall k, specular ex_env (fun _ => 0) li1 true r0 ex_bsdf (mkV 0 0 0) (b_dgs_nn ex_env tt r0) tt k = Some (Ok (spec 0, tt, S (S (S k)), 0%nat))).
  { intros k. unfold specular, smp_from_rand, bsdf_sample. change (n_components ex_bsdf _) with 0%nat. cbn [Nat.eqb sm_pdf].
    replace (Rltb 0 0) with false; [reflexivity|]. unfold Rltb. destruct (Rlt_dec 0 0); [lra|reflexivity]. }
  rewrite F2. cbn [obind]. eexists _, _, _, _. reflexivity.
Qed.
