(** Proofs for C229 *)
From Coq Require Import Reals Lra Lia List Bool ZArith.
From Verif Require Import Base M_Geometry M_MonteCarlo M_Reflection M_Utility M_Light M_Integrator M_Alias.
Import ListNotations.
Open Scope R_scope.
Lemma smul_one v : smul v (spec 1) = v.
Proof. unfold smul, spec, vmap2; destruct v; cbn. apply V3_eq; cbn; ring. Qed.
Section A.
Context {V : Type} (e : env V).
(** one estimate: the answer is the one of the stateless model *)
Lemma half_value a p n wo eps time b s fl k :
  direct_light_half e (area_light a) p n wo eps time b s fl k =
  match area_light_half e a p n wo eps time b s fl k with Ok (Ld, _, k1) => Ok (Ld, k1) | Err x => Err x end.
Proof.
  unfold direct_light_half, area_light_half, area_light. cbn [lt_sample lt_delta].
  destruct (al_geom a p eps s time) as [[[[front wi] lp] vis]|x]; [|reflexivity]. cbn [bind].
  set (Li := if front then al_emit a else spec 0).
  destruct (Rltb 0 lp && negb (is_black Li)); [|reflexivity].
  destruct (bsdf_f b wo wi fl) as [f|x]; [|reflexivity]. cbn [bind].
  destruct (negb (is_black f) && unoccluded (hit_p e) vis); [|reflexivity].
  destruct (transmittance e (inr vis) k) as [T k1]. reflexivity.
Qed.
(** the light's array afterwards: multiplied by the transmittance exactly when its radiance was used *)
Lemma half_emit a p n wo eps time b s fl k Ld em k1 : area_light_half e a p n wo eps time b s fl k = Ok (Ld, em, k1) ->
  em = al_emit a \/ exists vis, em = smul (al_emit a) (fst (transmittance e (inr vis) k)).
Proof.
  unfold area_light_half. destruct (al_geom a p eps s time) as [[[[front wi] lp] vis]|x]; [|discriminate]. cbn [bind].
  set (Li := if front then al_emit a else spec 0).
  destruct (Rltb 0 lp && negb (is_black Li)); [|intros [= _ <- _]; now left].
  destruct (bsdf_f b wo wi fl) as [f|x]; [|discriminate]. cbn [bind].
  destruct (negb (is_black f) && unoccluded (hit_p e) vis); [|intros [= _ <- _]; now left].
  destruct (transmittance e (inr vis) k) as [T k'] eqn:ET. intros [= _ <- _].
  unfold Li. destruct front; [right; exists vis; now rewrite ET|now left].
Qed.
Lemma half_emit_clear a p n wo eps time b s fl k Ld em k1 : vol e = None -> area_light_half e a p n wo eps time b s fl k = Ok (Ld, em, k1) -> em = al_emit a.
Proof.
  intros HV H. destruct (half_emit _ _ _ _ _ _ _ _ _ _ _ _ _ H) as [->|(vis & ->)]; [reflexivity|].
  unfold transmittance. rewrite HV. cbn. apply smul_one.
Qed.
Lemma half_lit a p n wo eps time b s fl k wi lp vis f T k1 :
  al_geom a p eps s time = Ok (true, wi, lp, vis) -> 0 < lp -> is_black (al_emit a) = false -> bsdf_f b wo wi fl = Ok f ->
  is_black f = false -> hit_p e vis = false -> transmittance e (inr vis) k = (T, k1) ->
  area_light_half e a p n wo eps time b s fl k =
    Ok (vscale (abs_dot wi n * power_heuristic 1 lp 1 (bsdf_pdf b wo wi fl) / lp) (smul f (smul (al_emit a) T)), smul (al_emit a) T, k1).
Proof.
  intros G L B F BF O TT. unfold area_light_half. rewrite G. cbn [bind]. rewrite B.
  replace (Rltb 0 lp) with true by (symmetry; now apply Rltb_true). cbn [andb negb]. rewrite F. cbn [bind]. rewrite BF. unfold unoccluded. rewrite O.
  cbn [andb negb]. rewrite TT. reflexivity.
Qed.
End A.
