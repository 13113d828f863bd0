(** C229, C230: direct light leaves the lights as they are; rays that leave the scene *)
From Coq Require Import Reals Lra Lia List Bool ZArith.
From Verif Require Import Base M_Geometry M_MonteCarlo M_Reflection M_Utility M_Light M_Integrator M_Alias P_Geometry P_Alias Props_Integrator.
Import ListNotations.
Open Scope R_scope.

(** ** C229 *)
(** Without a medium: after any history of requests the light emits what it did, and every answer is the one a fresh light
    gives to that request. *)
Theorem C229_no_medium_partial (V : Type) (e : env V) (a : alight) (qs : list request) (k k' : nat) (Ls : list vec) (em : vec) :
  vol e = None -> serve e a qs k = Ok (Ls, em, k') ->
  em = al_emit a /\ Forall2 (fun q L => exists k0 k1, direct_light_half e (area_light a) (rq_p q) (rq_n q) (rq_wo q) (rq_eps q) (rq_time q)
    (rq_b q) (rq_smp q) (rq_flags q) k0 = Ok (L, k1)) qs Ls.
Proof.
  intros HV. revert k k' Ls em. induction qs as [|q qs IH]; intros k k' Ls em H.
  - injection H as <- <- _. split; [reflexivity|constructor].
  - cbn [serve] in H.
    destruct (area_light_half e a (rq_p q) (rq_n q) (rq_wo q) (rq_eps q) (rq_time q) (rq_b q) (rq_smp q) (rq_flags q) k) as [[[L e1] k1]|x] eqn:Q; [|discriminate].
    cbn [bind] in H. assert (E1 : e1 = al_emit a) by (eapply half_emit_clear; [exact HV|exact Q]). subst e1.
    replace (mkAL (al_emit a) (al_geom a) (al_pdf a)) with a in H by (destruct a; reflexivity).
    destruct (serve e a qs k1) as [[[Ls' e2] k2]|x] eqn:Sv; [|discriminate]. cbn [bind] in H. injection H as <- <- _.
    destruct (IH _ _ _ _ Sv) as [A B]. split; [exact A|]. constructor; [|exact B].
    exists k, k1. rewrite half_value, Q. reflexivity.
Qed.
Print Assumptions C229_no_medium_partial.
(** In a medium that absorbs, the light can only get darker, and never negative. *)
Theorem C229_darker_partial (V : Type) (e : env V) (a : alight) (qs : list request) (k k' : nat) (Ls : list vec) (em : vec) :
  (forall vis j, let T := fst (transmittance e (inr vis) j) in 0 <= vx T <= 1 /\ 0 <= vy T <= 1 /\ 0 <= vz T <= 1) ->
  0 <= vx (al_emit a) -> 0 <= vy (al_emit a) -> 0 <= vz (al_emit a) -> serve e a qs k = Ok (Ls, em, k') ->
  0 <= vx em <= vx (al_emit a) /\ 0 <= vy em <= vy (al_emit a) /\ 0 <= vz em <= vz (al_emit a).
Proof.
  intros HT. revert a k k' Ls em. induction qs as [|q qs IH]; intros a k k' Ls em X Y W H.
  - injection H as _ <- _. lra.
  - cbn [serve] in H.
    destruct (area_light_half e a (rq_p q) (rq_n q) (rq_wo q) (rq_eps q) (rq_time q) (rq_b q) (rq_smp q) (rq_flags q) k) as [[[L e1] k1]|x] eqn:Q; [|discriminate].
    cbn [bind] in H.
    assert (E1 : 0 <= vx e1 <= vx (al_emit a) /\ 0 <= vy e1 <= vy (al_emit a) /\ 0 <= vz e1 <= vz (al_emit a)).
    { destruct (half_emit _ _ _ _ _ _ _ _ _ _ _ _ _ _ Q) as [->|(vis & ->)]; [lra|]. specialize (HT vis k). cbv zeta in HT.
      unfold smul, vmap2; cbn [vx vy vz]. set (T := fst (transmittance e (inr vis) k)) in *. repeat split; nra. }
    destruct (serve e (mkAL e1 (al_geom a) (al_pdf a)) qs k1) as [[[Ls' e2] k2]|x] eqn:Sv; [|discriminate]. cbn [bind] in H. injection H as _ <- _.
    specialize (IH (mkAL e1 (al_geom a) (al_pdf a)) _ _ _ _ ltac:(cbn; lra) ltac:(cbn; lra) ltac:(cbn; lra) Sv). cbn [al_emit] in IH. lra.
Qed.
Print Assumptions C229_darker_partial.
(** In any medium that lets the light be seen, a request that is answered with light multiplies the light's emission by the
    transmittance for good: repeating the same request, as long as the light is not yet black, multiplies the answer again *)
Theorem C229_repeat_refuted (V : Type) (e : env V) (a : alight) (q : request) (k k1 k2 : nat) (wi f T T' : vec) (lp : R) (vis : lray) :
  al_geom a (rq_p q) (rq_eps q) (rq_smp q) (rq_time q) = Ok (true, wi, lp, vis) -> 0 < lp -> bsdf_f (rq_b q) (rq_wo q) wi (rq_flags q) = Ok f ->
  is_black f = false -> hit_p e vis = false -> transmittance e (inr vis) k = (T, k1) -> transmittance e (inr vis) k1 = (T', k2) ->
  is_black (al_emit a) = false -> is_black (smul (al_emit a) T) = false ->
  let c := abs_dot wi (rq_n q) * power_heuristic 1 lp 1 (bsdf_pdf (rq_b q) (rq_wo q) wi (rq_flags q)) / lp in
  serve e a [q; q] k = Ok ([vscale c (smul f (smul (al_emit a) T)); vscale c (smul f (smul (smul (al_emit a) T) T'))],
    smul (smul (al_emit a) T) T', k2).
Proof.
  intros G L F BF O T1 T2 B1 B2 c.
  cbn [serve]. rewrite (half_lit e a _ _ _ _ _ _ _ _ _ wi lp vis f T k1 G L B1 F BF O T1). cbn [bind].
  rewrite (half_lit e (mkAL (smul (al_emit a) T) (al_geom a) (al_pdf a)) _ _ _ _ _ _ _ _ _ wi lp vis f T' k2 G L B2 F BF O T2).
  reflexivity.
Qed.
Print Assumptions C229_repeat_refuted.
(** a white light straight above a white diffuse surface in a medium of transmittance 1/2: asked twice, the light ends at a
    quarter of its strength and the second answer is half the first *)
Definition fog_env : env unit := mkEnv unit [] (fun r => (r, None)) (fun _ => false) (fun _ _ => spec 0) (fun _ => 0)
  (fun _ _ => Err ValueError) (fun _ _ => mkV 0 0 1) (fun _ _ _ _ _ => (false, vzero, vzero, vzero, vzero))
  (Some (fun _ k => (spec 0, spec (1/2), k), fun _ k => (spec (1/2), k))).
Definition lamp : alight := mkAL (spec 1) (fun p eps _ t => Ok (true, mkV 0 0 1, 1, set_segment p eps (mkV 0 0 9) 0 t)) (fun _ _ => 1).
Definition ask : request := mkRq vzero (mkV 0 0 1) (mkV 0 0 1) 0 0 (mkBSDF (mkV 0 0 1) (mkV 1 0 0) (mkV 0 1 0) (mkV 0 0 1) [Lambertian (spec 1)]) (0, 0, 0) NOSPEC.
Theorem C229_fog_refuted : exists L em k', serve fog_env lamp [ask; ask] 0 = Ok ([L; vscale (1/2) L], em, k') /\
  em = vscale (1/4) (al_emit lamp) /\ L <> vscale (1/2) L.
Proof.
  set (f := spec (1 / PI)). pose proof PI_RGT_0 as PP. pose proof PI_4 as P4.
  assert (I0 : 1 / 4 <= 1 / PI). { unfold Rdiv. rewrite !Rmult_1_l. apply Rinv_le_contravar; lra. }
  assert (B : forall x, 1 / 8 <= x -> is_black (spec x) = false).
  { intros x Hx. unfold is_black, spec; cbn [vx vy vz]. replace (Rltb (Rabs x) EPS) with false; [reflexivity|].
    symmetry. apply Rltb_false. rewrite Rabs_right by lra. unfold EPS. lra. }
  assert (S1 : smul (al_emit lamp) (spec (1/2)) = spec (1/2)) by (unfold smul, spec, vmap2, lamp; cbn; apply V3_eq; cbn; lra).
  assert (F : bsdf_f (rq_b ask) (rq_wo ask) (mkV 0 0 1) (rq_flags ask) = Ok f).
  { unfold bsdf_f, ask. cbn [rq_b rq_wo rq_flags bs_bdfs]. unfold side_flags. cbn [bs_ng].
    replace (Rltb 0 _) with true by (symmetry; apply Rltb_true; unfold vdot; cbn; lra).
    cbn [sum_f]. match goal with |- context [match_flag ?x ?y] => replace (match_flag x y) with true by reflexivity end.
    cbn [bdf_f bind sum_f]. f_equal. unfold f, vadd, spec, vmap2, vscale, vmap; cbn. apply V3_eq; cbn; field; lra. }
  pose proof (C229_repeat_refuted unit fog_env lamp ask 0 0 0 (mkV 0 0 1) f (spec (1/2)) (spec (1/2)) 1
    (set_segment vzero 0 (mkV 0 0 9) 0 0) eq_refl ltac:(lra) F (B (1 / PI) ltac:(lra)) eq_refl eq_refl eq_refl (B 1 ltac:(lra))) as H.
  cbv zeta in H. set (c := abs_dot _ _ * _ / 1) in H. specialize (H ltac:(rewrite S1; apply B; lra)). rewrite S1 in H. eexists _, _, _. split.
  - rewrite H. f_equal. f_equal. f_equal. f_equal. f_equal.
    unfold vscale, smul, spec, vmap, vmap2; cbn. apply V3_eq; cbn; ring.
  - split; [unfold vscale, smul, spec, vmap, vmap2, lamp; cbn; apply V3_eq; cbn; lra|].
    assert (Pw : 0 < c).
    { unfold c, ask, abs_dot, vdot, power_heuristic; cbn [rq_n vx vy vz]. set (g := bsdf_pdf _ _ _ _).
      replace (Rabs (0 * 0 + 0 * 0 + 1 * 1)) with 1 by (rewrite Rabs_right; lra).
      cbv zeta. change (INR 1) with 1. assert (D : 0 < 1 * 1 * (1 * 1) + 1 * g * (1 * g)) by nra.
      replace (1 * (1 * 1 * (1 * 1) / (1 * 1 * (1 * 1) + 1 * g * (1 * g))) / 1) with (/ (1 * 1 * (1 * 1) + 1 * g * (1 * g))) by (field; lra).
      apply Rinv_0_lt_compat. lra. }
    intros Q. apply (f_equal vx) in Q. unfold vscale, smul, spec, f, vmap, vmap2 in Q; cbn in Q. nra.
Qed.
Print Assumptions C229_fog_refuted.

(** ** C230 *)
(** with point, spot, projection, goniometric and distant lights only, a ray that leaves the scene brings nothing *)
Theorem C230_delta_partial (n : nat) : escape (repeat EDelta n) = Ok (spec 0).
Proof.
  unfold escape. enough (H : forall acc, escape_sum (repeat EDelta n) acc = Ok acc) by apply H.
  induction n as [|n IH]; intros acc; [reflexivity|]. cbn [repeat escape_sum escape_le bind]. rewrite IH. f_equal.
  destruct acc; unfold vadd, spec, vmap2; cbn; apply V3_eq; cbn; ring.
Qed.
Print Assumptions C230_delta_partial.
(** every area light in the scene adds its emission to every such ray, in whatever direction the ray and the light lie *)
Theorem C230_area_refuted (ems : list vec) (n : nat) :
  escape (map EArea ems ++ repeat EDelta n) = Ok (fold_left vadd ems (spec 0)).
Proof.
  unfold escape. enough (H : forall acc, escape_sum (map EArea ems ++ repeat EDelta n) acc = Ok (fold_left vadd ems acc)) by apply H.
  induction ems as [|x ems IH]; intros acc.
  - cbn [map app fold_left]. induction n as [|n IHn] in acc |- *; [reflexivity|]. cbn [repeat escape_sum escape_le bind]. rewrite IHn. f_equal.
    destruct acc; unfold vadd, spec, vmap2; cbn; apply V3_eq; cbn; ring.
  - cbn [map app escape_sum escape_le bind fold_left]. apply IH.
Qed.
Print Assumptions C230_area_refuted.
(** and an environment light makes it raise *)
Theorem C230_environment_refuted (before after : list escape_light) : (forall l, In l before -> l <> EInfinite) ->
  escape (before ++ EInfinite :: after) = Err TypeError.
Proof.
  unfold escape. intros H. enough (G : forall acc, escape_sum (before ++ EInfinite :: after) acc = Err TypeError) by apply G.
  induction before as [|x l IH]; intros acc; [reflexivity|]. cbn [app escape_sum].
  destruct x; cbn [escape_le bind]; [apply IH; intros; apply H; now right|apply IH; intros; apply H; now right|].
  exfalso. apply (H EInfinite); [now left|reflexivity].
Qed.
Print Assumptions C230_environment_refuted.
