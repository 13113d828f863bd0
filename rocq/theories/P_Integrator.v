(** Proofs about the integrators. *)
From Coq Require Import Reals Lra Lia List Bool ZArith.
From Verif Require Import Base M_Geometry M_MonteCarlo M_Aggregate M_Reflection M_Utility M_Spectrum M_Sampler M_Film M_Light M_Integrator.
Import ListNotations.
Open Scope R_scope.

Section Path.
Context {V : Type} (e : env V) (u : nat -> R) (md : Z)
  (direct : nat -> V -> raydiff -> vec -> vec -> vec -> bsdf -> nat -> res (vec * nat))
  (ps : nat -> res (R * R * R)).
Notation step := (path_step e u md direct ps).

Lemma step_out s L k c : step s = inl (Ok (L, k, c)) ->
  (c = p_calls s \/ (c = S (p_calls s) /\ Z.of_nat (p_bounce s) <> md)).
Proof.
  unfold path_step. intros H.
  repeat match type of H with
  | context [match ?x with _ => _ end] => destruct x eqn:?; try discriminate H
  end; try (injection H as ? ? ?; subst); auto;
  try (right; split; [reflexivity|]; match goal with Q : orb _ _ = false |- _ => apply orb_false_elim in Q as [_ Q]; now apply Z.eqb_neq in Q end).
Qed.
Lemma step_next s s' : step s = inr s' ->
  p_bounce s' = S (p_bounce s) /\ p_calls s' = S (p_calls s) /\ Z.of_nat (p_bounce s) <> md /\ p_spb s' = true.
Proof.
  unfold path_step. intros H.
  repeat match type of H with
  | context [match ?x with _ => _ end] => destruct x eqn:?; try discriminate H
  end; injection H as <-; cbn; repeat split;
  match goal with Q : orb _ _ = false |- _ => apply orb_false_elim in Q as [_ Q]; now apply Z.eqb_neq in Q end.
Qed.
Lemma path_loop_fuel fuel : forall s,
  (0 <= md)%Z -> (Z.of_nat (p_bounce s) <= md)%Z -> (Z.to_nat md - p_bounce s < fuel)%nat ->
  exists o, (forall fuel', (fuel <= fuel')%nat -> path_loop e u md direct ps fuel' s = Some o) /\
    forall L' k' c', o = Ok (L', k', c') -> (c' <= p_calls s + (Z.to_nat md - p_bounce s))%nat.
Proof.
  induction fuel as [|fuel IH]; intros s H0 HB HF; [lia|].
  destruct (step s) as [o|s'] eqn:Q.
  - exists o. split.
    + intros [|f'] HL; [lia|]. cbn. now rewrite Q.
    + intros L k c ->. apply step_out in Q. lia.
  - destruct (step_next _ _ Q) as (A & B & C & D). destruct (IH s') as (o & P1 & P2); try lia.
    exists o. split.
    + intros [|f'] HL; [lia|]. cbn. rewrite Q. apply P1. lia.
    + intros L k c P. specialize (P2 _ _ _ P). lia.
Qed.
End Path.

Section Rec.
Context {V : Type} (e : env V) (u : nat -> R) (md : Z) (st : R)
  (local : V -> raydiff -> vec -> vec -> vec -> bsdf -> nat -> res (vec * nat)).
Definition depth (r : raydiff) : Z := rdepth (rd_ray r).
Hypothesis hit_depth : forall r, depth (fst (hit e r)) = depth r.

Definition rec_ok (N : nat) (o : res (@rout V)) : Prop := forall L T i k c, o = Ok (L, T, i, k, c) -> (c <= N)%nat.
Definition sp_ok (N : nat) (o : res (vec * V * nat * nat)) : Prop := forall L i k c, o = Ok (L, i, k, c) -> (c <= N)%nat.

Lemma specular_ok rec1 rec2 tr r b p n isect k N :
  (forall r2 i k', depth r2 = (depth r + 1)%Z -> exists o, rec1 r2 i k' = Some o /\ rec2 r2 i k' = Some o /\ rec_ok N o) ->
  exists o, specular e u rec1 tr r b p n isect k = Some o /\ specular e u rec2 tr r b p n isect k = Some o /\ sp_ok N o.
Proof.
  intros H. unfold specular. cbv beta iota delta [smp_from_rand].
  assert (Z0 : forall x : vec * V * nat, sp_ok N (Ok (x, 0%nat))).
  { intros x L i k' c Q. injection Q as _ <-. lia. }
  assert (ZE : forall x, sp_ok N (Err x)) by (intros x L i k' c Q; discriminate).
  match goal with |- context [bsdf_sample ?a ?b ?c ?d ?e ?f] => destruct (bsdf_sample a b c d e f) as [s|x] end;
    [|eexists; split; [reflexivity|split; [reflexivity|apply ZE]]].
  destruct (Rltb 0 (sm_pdf s) && negb (is_black (sm_f s))).
  2: { eexists; split; [reflexivity|split; [reflexivity|apply Z0]]. }
  destruct (sm_wi s) as [wi|]; [|eexists; split; [reflexivity|split; [reflexivity|apply ZE]]].
  destruct (Reqb (abs_dot wi n) 0).
  { eexists; split; [reflexivity|split; [reflexivity|apply Z0]]. }
  match goal with |- context [obind (rec1 ?r2 ?i ?k')] => destruct (H r2 i k') as (o & A & B & C) end.
  { unfold depth, child_ray. destruct (rd_has r); [|reflexivity].
    destruct (diffs e tr r isect b wi) as [[[[h a1] a2] a3] a4]. reflexivity. }
  rewrite A, B. destruct o as [[[[[Li T] i'] k'] c]|x]; cbn [obind].
  - eexists; split; [reflexivity|split; [reflexivity|]]. intros L i k2 c2 Q. injection Q as _ _ _ <-. eapply C. reflexivity.
  - eexists; split; [reflexivity|split; [reflexivity|apply ZE]].
Qed.
Lemma surf_ok rec1 rec2 r v k N :
  ((depth r + 1 < md)%Z ->
   forall r2 i k', depth r2 = (depth r + 1)%Z -> exists o, rec1 r2 i k' = Some o /\ rec2 r2 i k' = Some o /\ rec_ok N o) ->
  exists o, surf_li e u md local rec1 r v k = Some o /\ surf_li e u md local rec2 r v k = Some o /\
    sp_ok (if (depth r + 1 <? md)%Z then S (N + N) else 1) o.
Proof.
  intros H. unfold surf_li. fold (depth r).
  assert (ZE : forall N x, sp_ok N (Err x)) by (intros N' x L i k' c Q; discriminate).
  destruct (v_bsdf e v r) as [[p b]|x]; [|eexists; split; [reflexivity|split; [reflexivity|apply ZE]]].
  destruct (local v r p (b_dgs_nn e v r) (vneg (rdir r)) b k) as [[Ld k1]|x];
    [|eexists; split; [reflexivity|split; [reflexivity|apply ZE]]].
  destruct (depth r + 1 <? md)%Z eqn:D.
  2: { eexists; split; [reflexivity|split; [reflexivity|]]. intros L i k' c Q. injection Q as _ _ _ <-. lia. }
  apply Z.ltb_lt in D. specialize (H D).
  destruct (specular_ok rec1 rec2 false r b p (b_dgs_nn e v r) v k1 N H) as (o1 & A1 & B1 & C1).
  rewrite A1, B1. destruct o1 as [[[[Lr v1] k2] c1]|x]; cbn [obind]; [|eexists; split; [reflexivity|split; [reflexivity|apply ZE]]].
  destruct (specular_ok rec1 rec2 true r b p (b_dgs_nn e v r) v1 k2 N H) as (o2 & A2 & B2 & C2).
  rewrite A2, B2. destruct o2 as [[[[Ltr v2] k3] c2]|x]; cbn [obind]; [|eexists; split; [reflexivity|split; [reflexivity|apply ZE]]].
  eexists; split; [reflexivity|split; [reflexivity|]]. intros L i k' c Q. injection Q as _ _ _ <-.
  pose proof (C1 _ _ _ _ eq_refl). pose proof (C2 _ _ _ _ eq_refl). lia.
Qed.
Lemma renderer_ok m : forall r isect k fuel, (Z.to_nat (md - depth r) <= m)%nat -> (1 <= m)%nat -> (m <= fuel)%nat ->
  exists o, renderer_li e u md st local m r isect k = Some o /\ renderer_li e u md st local fuel r isect k = Some o /\
    rec_ok (2 ^ m - 1) o.
Proof.
  induction m as [|m IH]; intros r isect k fuel HM H1 HF; [lia|]. destruct fuel as [|fuel]; [lia|].
  cbn [renderer_li].
  assert (ZE : forall N x, rec_ok N (Err x)) by (intros N' x L T i k' c Q; discriminate).
  destruct (negb (Reqb (rtm r) st)); [eexists; split; [reflexivity|split; [reflexivity|apply ZE]]|].
  pose proof (hit_depth r) as HD. destruct (hit e r) as [r1 [v|]]; cbn [fst] in HD.
  - assert (G : exists o, surf_li e u md local (renderer_li e u md st local m) r1 v k = Some o /\
        surf_li e u md local (renderer_li e u md st local fuel) r1 v k = Some o /\ sp_ok (2 ^ S m - 1) o).
    { assert (P : (1 <= 2 ^ m)%nat) by (apply Nat.neq_0_lt_0, Nat.pow_nonzero; lia).
      destruct (surf_ok (renderer_li e u md st local m) (renderer_li e u md st local fuel) r1 v k (2 ^ m - 1)) as (o & A & B & C).
      { intros D r2 i k' D2. apply IH; [|lia|lia]. rewrite D2, HD. rewrite HD in D. lia. }
      exists o. split; [exact A|split; [exact B|]]. intros L i k' c Q. specialize (C _ _ _ _ Q). cbn [Nat.pow].
      destruct (depth r1 + 1 <? md)%Z; lia. }
    destruct G as (o & A & B & C). rewrite A, B. destruct o as [[[[L i'] k'] c]|x]; cbn [obind].
    + specialize (C _ _ _ _ eq_refl). destruct (vol e) as [[vli vt]|].
      * destruct (vli r1 k') as [[lvi T] k2]. eexists; split; [reflexivity|split; [reflexivity|]].
        intros L2 T2 i2 k3 c2 Q. injection Q as _ _ _ _ <-. exact C.
      * eexists; split; [reflexivity|split; [reflexivity|]]. intros L2 T2 i2 k3 c2 Q. injection Q as _ _ _ _ <-. exact C.
    + eexists; split; [reflexivity|split; [reflexivity|apply ZE]].
  - cbn [obind]. destruct (vol e) as [[vli vt]|].
    + destruct (vli r1 k) as [[lvi T] k2]. eexists; split; [reflexivity|split; [reflexivity|]].
      intros L2 T2 i2 k3 c2 Q. injection Q as _ _ _ _ <-. lia.
    + eexists; split; [reflexivity|split; [reflexivity|]]. intros L2 T2 i2 k3 c2 Q. injection Q as _ _ _ _ <-. lia.
Qed.
End Rec.
