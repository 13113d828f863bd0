(** Proofs: longer paths and deeper recursion only add light. *)
From Coq Require Import Reals List Bool ZArith Lia Lra.
From Verif Require Import Base M_Geometry M_MonteCarlo M_Aggregate M_Utility M_Spectrum M_Sampler M_Film M_Shapes M_Reflection S_Reflection P_Reflection P_Reflection2 P_Material M_Light M_Material M_Integrator
  S_Integrator P_Integrator P_Integrator2 M_World S_World S_Superpose S_Brighter P_World2 P_Superpose P_Brighter.
Import ListNotations.
Local Open Scope R_scope.

Lemma nd_refl a : no_darker a a. Proof. unfold no_darker. lra. Qed.
Lemma nd_trans a b c : no_darker a b -> no_darker b c -> no_darker a c. Proof. unfold no_darker. lra. Qed.
Lemma nd_add a b : nn b -> no_darker a (vadd a b). Proof. unfold no_darker, nn, vadd, vmap2; cbn. lra. Qed.

(** ** Path tracing *)
Section Path.
Context {V : Type} (e : env V) (u : nat -> R)
  (direct : nat -> V -> raydiff -> vec -> vec -> vec -> bsdf -> nat -> res (vec * nat))
  (ps : nat -> res (R * R * R)).
Hypothesis PH : physical e.
Hypothesis U : forall k, 0 < u k.
Hypothesis D : forall bounce v r p n wo b k L k', v_bsdf e v r = Ok (p, b) -> direct bounce v r p n wo b k = Ok (L, k') -> nn L.
Lemma sum_le_nd r : forall ls beta L, (forall l, In l ls -> nn (lt_le l r)) -> nn beta ->
  no_darker L (fold_left (fun acc l => vadd acc (smul beta (lt_le l r))) ls L).
Proof.
  induction ls as [|l ls IH]; intros beta L H B; [apply nd_refl|]. cbn [fold_left].
  eapply nd_trans; [|apply IH; [intros; apply H; now right|exact B]]. apply nd_add, nn_mul; [exact B|]. apply H. now left.
Qed.
Definition grows (L : vec) (o : res path_out + @pst V) : Prop :=
  match o with
  | inl (Ok (L', _, _)) => no_darker L L'
  | inl (Err _) => True
  | inr s' => nn (p_beta s') /\ no_darker L (p_L s')
  end.
Lemma step_both md1 md2 s : nn (p_beta s) -> (Z.of_nat (p_bounce s) <= md1 <= md2)%Z ->
  grows (p_L s) (path_step e u md2 direct ps s) /\
  ((path_step e u md1 direct ps s = path_step e u md2 direct ps s /\ forall s', path_step e u md1 direct ps s = inr s' -> (Z.of_nat (p_bounce s') <= md1)%Z) \/
   exists L k c, path_step e u md1 direct ps s = inl (Ok (L, k, c)) /\ grows L (path_step e u md2 direct ps s)).
Proof.
  intros B HM. destruct PH as (P1 & P2 & P3 & P4 & _). unfold path_step.
  set (L1 := if (p_bounce s =? 0)%nat || p_spb s then _ else _).
  assert (N1 : no_darker (p_L s) L1).
  { unfold L1. destruct (_ || _); [|apply nd_refl]. apply nd_add, nn_mul; [exact B|apply P1]. }
  clearbody L1. destruct (v_bsdf e (p_v s) (p_r s)) as [[p b]|x] eqn:Q1; [|split; [exact Logic.I|left; split; [reflexivity|discriminate]]].
  set (n := b_dgs_nn e (p_v s) (p_r s)).
  destruct (direct (p_bounce s) (p_v s) (p_r s) p n (vneg (rdir (p_r s))) b (p_k s)) as [[Ld k1]|x] eqn:Q2; [|split; [exact Logic.I|left; split; [reflexivity|discriminate]]].
  cbv zeta. set (L2 := vadd L1 (smul (p_beta s) Ld)).
  assert (N2 : no_darker (p_L s) L2) by (eapply nd_trans; [exact N1|]; apply nd_add, nn_mul; [exact B|]; eapply D; [exact Q1|exact Q2]).
  clearbody L2.
  match goal with |- grows _ (match ?x with Ok _ => _ | Err _ => _ end) /\ _ =>
    destruct x as [[[[u0 u1] uc] k2]|?] eqn:Q3 end; [|split; [exact Logic.I|left; split; [reflexivity|discriminate]]].
  destruct (bsdf_sample b (vneg (rdir (p_r s))) u0 u1 uc ALL) as [sm|x] eqn:Q4; [|split; [exact Logic.I|left; split; [reflexivity|discriminate]]].
  destruct (P4 _ _ _ _ _ _ _ _ _ Q1 Q4) as [F1 F2].
  destruct (spec_is_black (sm_f sm) || Reqb (sm_pdf sm) 0) eqn:Q5; [split; [exact N2|left; split; [reflexivity|discriminate]]|].
  apply orb_false_elim in Q5 as [_ Q5]. Rb. assert (F3 : 0 < sm_pdf sm) by lra.
  destruct (sm_wi sm) as [wi|]; [|split; [exact Logic.I|left; split; [reflexivity|discriminate]]].
  set (beta1 := smul (p_beta s) _).
  assert (NB : nn beta1).
  { apply nn_mul; [exact B|]. apply nn_div; [exact F3|]. apply nn_scale; [apply Rabs_pos|exact F1]. }
  clearbody beta1. set (r1 := child_ray p wi (p_r s) (v_eps e (p_v s))). clearbody r1.
  match goal with |- context [let '(_, _) := ?x in _] => destruct x as [[stop beta2] k3] eqn:Q6 end.
  assert (NB2 : stop = false -> nn beta2).
  { intros ->. destruct (SAMPLE_DEPTH <? p_bounce s)%nat; [|congruence].
    destruct (Rltb (pmin (/ 2) (rgb_y beta1)) (u k2)) eqn:Q7; [congruence|]. Rb.
    injection Q6 as <- _. apply nn_div; [|exact NB]. pose proof (U k2). lra. }
  destruct stop; [cbn [orb]; split; [exact N2|left; split; [reflexivity|discriminate]]|]. specialize (NB2 eq_refl). cbn [orb].
  set (go := match hit e r1 with (r2, None) => _ | (r2, Some v') => _ end).
  assert (G : grows L2 go /\ forall s', go = inr s' -> p_bounce s' = S (p_bounce s)).
  { unfold go. destruct (hit e r1) as [r2 [v'|]].
    - destruct (1 <? p_bounce s)%nat.
      + pose proof (P3 (inl r2) k3) as PT. destruct (transmittance e (inl r2) k3) as [T k']. cbn [fst] in PT. cbn.
        split; [split; [now apply nn_mul|apply nd_refl]|]. now intros s' [= <-].
      + cbn. split; [split; [exact NB2|apply nd_refl]|]. now intros s' [= <-].
    - split; [|discriminate]. cbn. apply sum_le_nd; [intros; now apply P2|exact NB2]. }
  destruct G as [G G2]. clearbody go.
  assert (G1 : grows (p_L s) go).
  { destruct go as [[[[L' ?] ?]|]|s']; cbn in *; try exact Logic.I; [eapply nd_trans; eauto|]. destruct G. split; [assumption|eapply nd_trans; eauto]. }
  destruct (Z.of_nat (p_bounce s) =? md1)%Z eqn:M1; destruct (Z.of_nat (p_bounce s) =? md2)%Z eqn:M2.
  - split; [exact N2|]. left. split; [reflexivity|discriminate].
  - split; [exact G1|]. right. do 3 eexists. split; [reflexivity|exact G].
  - apply Z.eqb_neq in M1. apply Z.eqb_eq in M2. lia.
  - split; [exact G1|]. left. split; [reflexivity|]. intros s' Hs. rewrite (G2 _ Hs). apply Z.eqb_neq in M1. lia.
Qed.
(** a loop never takes light away *)
Lemma step_grows md s : nn (p_beta s) -> (Z.of_nat (p_bounce s) <= md)%Z -> grows (p_L s) (path_step e u md direct ps s).
Proof. intros B H. apply (step_both md md s B). lia. Qed.
Lemma step_bounce md s s' : nn (p_beta s) -> (Z.of_nat (p_bounce s) <= md)%Z -> path_step e u md direct ps s = inr s' -> (Z.of_nat (p_bounce s') <= md)%Z.
Proof. intros B H E. destruct (proj2 (step_both md md s B ltac:(lia))) as [[_ Q]|(L & k & c & Q & _)]; [now apply Q|congruence]. Qed.
Lemma loop_grows md fuel : forall s L k c, nn (p_beta s) -> (Z.of_nat (p_bounce s) <= md)%Z ->
  path_loop e u md direct ps fuel s = Some (Ok (L, k, c)) -> no_darker (p_L s) L.
Proof.
  induction fuel as [|fuel IH]; intros s L k c B HM; cbn [path_loop]; [discriminate|].
  pose proof (step_grows md s B HM) as G. destruct (path_step e u md direct ps s) as [[[[L' k'] c']|]|s'] eqn:ES; try discriminate.
  - now intros [= <- _ _].
  - intros Q. destruct G as [G1 G2]. eapply nd_trans; [exact G2|]. eapply IH; [exact G1| |exact Q]. exact (step_bounce _ _ _ B HM ES).
Qed.
Lemma loop_deeper md1 md2 : (md1 <= md2)%Z -> forall f1 s, nn (p_beta s) -> (Z.of_nat (p_bounce s) <= md1)%Z -> forall f2 L1 k1 c1 L2 k2 c2,
  path_loop e u md1 direct ps f1 s = Some (Ok (L1, k1, c1)) -> path_loop e u md2 direct ps f2 s = Some (Ok (L2, k2, c2)) -> no_darker L1 L2.
Proof.
  intros LE. induction f1 as [|f1 IH]; intros s B HM f2 L1 k1 c1 L2 k2 c2; cbn [path_loop]; [discriminate|].
  destruct f2 as [|f2]; cbn [path_loop]; [discriminate|].
  destruct (step_both md1 md2 s B (conj HM LE)) as [G [[E EB]|(L & k & c & E & G2)]].
  - rewrite E. rewrite E in EB. destruct (path_step e u md2 direct ps s) as [o|s']; [intros Q1 Q2; rewrite Q1 in Q2; injection Q2 as -> _ _; apply nd_refl|].
    destruct G as [G _]. apply IH; [exact G|]. now apply EB.
  - rewrite E. intros [= <- _ _]. destruct (path_step e u md2 direct ps s) as [[[[L' k'] c']|]|s'] eqn:ES; try discriminate.
    + now intros [= <- _ _].
    + destruct G2 as [B2 G2]. intros Q. eapply nd_trans; [exact G2|]. eapply loop_grows; [exact B2| |exact Q]. apply (step_bounce md2 s s' B); [lia|exact ES].
Qed.
End Path.

(** ** Recursive ray tracing *)
Section Recursive.
Context {V : Type} (e : env V) (time : R) (u1 u2 : nat -> R) (md1 md2 : Z).
Hypothesis NV : vol e = None.
Hypothesis HB : steady_surfaces e.
Hypothesis HR : forall v r p b, v_bsdf e v r = Ok (p, b) -> reflects_light b.
Hypothesis HL : forall l, In l (lights e) -> gives_light l.
Hypothesis HE : forall r r1 v w, hit e r = (r1, Some v) -> spec_ge0 (v_le e v w).
Hypothesis U1 : steady_stream u1. Hypothesis U2 : steady_stream u2.
Hypothesis MD : (md1 <= md2)%Z.
Notation li1 := (renderer_li e u1 md1 time (whitted_local e u1)).
Notation li2 := (renderer_li e u2 md2 time (whitted_local e u2)).
Lemma local_own u v r p n wo b k : whitted_local e u v r p n wo b k =
  (do Sm <- ones e p n wo (v_eps e v) (rtm r) b (lights e); Ok (Sm, (k + 3 * length (lights e))%nat)).
Proof.
  assert (EE : e = lit_with e (lights e) (v_le e)) by (destruct e; reflexivity).
  rewrite <- (local_ones e (lights e) (v_le e) u v r p n wo b k NV (fun l Hl => proj1 (HL l Hl))). now rewrite <- EE.
Qed.
Lemma local_pos u v r p n wo b k L k' : reflects_light b -> whitted_local e u v r p n wo b k = Ok (L, k') -> spec_ge0 L.
Proof.
  intros RB. rewrite local_own.
  destruct (ones _ _ _ _ _ _ _ _) as [x|] eqn:EO; cbn [bind]; [|discriminate]. intros [= <- _]. apply (ones_ge0 e _ _ _ _ _ _ RB (lights e) HL _ EO).
Qed.
Lemma sum_pos r : spec_ge0 (sum_le e r (spec 1) (spec 0)).
Proof.
  unfold sum_le. assert (G : forall ls L, (forall l, In l ls -> gives_light l) -> spec_ge0 L -> spec_ge0 (fold_left (fun acc l => vadd acc (smul (spec 1) (lt_le l r))) ls L)).
  { induction ls as [|l ls IH]; intros L Hl L0; cbn [fold_left]; [exact L0|]. apply IH; [intros; apply Hl; now right|]. apply add_ge0; [exact L0|].
    apply mul_ge0; [unfold spec_ge0, spec; cbn; lra|]. apply (Hl l (or_introl eq_refl)). }
  apply G; [exact HL|]. unfold spec_ge0, spec; cbn; lra.
Qed.
Definition positive (fuel : nat) : Prop := forall r i k L T i' k' n, li2 fuel r i k = Some (Ok (L, T, i', k', n)) -> T = vzero /\ spec_ge0 L.
Lemma spec_pos fuel : positive fuel -> forall (tr : bool) r b p n v k L i' k' c, reflects_light b ->
  specular e u2 (li2 fuel) tr r b p n v k = Some (Ok (L, i', k', c)) -> spec_ge0 L.
Proof.
  intros IH tr r b p n v k L i' k' c [_ HS]. unfold specular, smp_from_rand.
  destruct (bsdf_sample _ _ _ _ _ _) as [s|] eqn:ES; [|discriminate].
  destruct (Rltb 0 (sm_pdf s) && _) eqn:Q; [|intros [= <- _ _ _]; apply zero_ge0].
  apply andb_true_iff in Q. destruct Q as [Q _]. apply Rltb_true in Q.
  destruct (sm_wi s) as [wi|] eqn:EW; [|discriminate]. destruct (Reqb _ 0); [intros [= <- _ _ _]; apply zero_ge0|].
  destruct (li2 fuel _ v _) as [[[[[[La Ta] ia] ka] na]|]|] eqn:E1; cbn [obind]; try discriminate. intros [= <- _ _ _].
  destruct (IH _ _ _ _ _ _ _ _ E1) as [-> H0]. destruct tr.
  - unfold spec_ge0, sdiv, vscale, smul, vmap, vmap2, vzero. cbn [vx vy vz]. unfold Rdiv. rewrite !Rmult_0_r, !Rmult_0_l. lra.
  - apply sdiv_ge0; [|exact Q]. apply scale_ge0; [apply Rabs_pos|]. apply mul_ge0; [|exact H0]. apply (HS _ _ _ _ _ ES Q).
Qed.
Lemma all_positive fuel : positive fuel.
Proof.
  induction fuel as [|fuel IH]; intros r i k L T i' k' n; cbn [renderer_li]; [discriminate|].
  destruct (negb _); [discriminate|]. destruct (hit e r) as [r1 h] eqn:EH. rewrite NV. destruct h as [v|].
  2:{ cbn [obind]. intros [= <- <- _ _ _]. split; [reflexivity|apply sum_pos]. }
  unfold surf_li. destruct (v_bsdf e v r1) as [[p b]|] eqn:EB; cbn [obind]; [|discriminate]. pose proof (HR _ _ _ _ EB) as RB.
  destruct (whitted_local _ _ _ _ _ _ _ _ _) as [[Ld k1]|] eqn:E1; cbn [obind]; [|discriminate].
  assert (D0 : spec_ge0 (vadd (v_le e v (vneg (rdir r1))) Ld)) by (apply add_ge0; [apply (HE _ _ _ _ EH)|apply (local_pos _ _ _ _ _ _ _ _ _ _ RB E1)]).
  destruct (_ <? md2)%Z.
  2:{ cbn [obind]. intros [= <- <- _ _ _]. split; [reflexivity|exact D0]. }
  destruct (specular e u2 _ false _ _ _ _ _ k1) as [[[[[Ra va] k2a] c1a]|]|] eqn:F1; cbn [obind]; try discriminate.
  destruct (specular e u2 _ true _ _ _ _ _ k2a) as [[[[[Ta va'] k3a] c2a]|]|] eqn:G1; cbn [obind]; try discriminate.
  intros [= <- <- _ _ _]. split; [reflexivity|]. apply add_ge0; [apply add_ge0; [exact D0|]|].
  - apply (spec_pos fuel IH _ _ _ _ _ _ _ _ _ _ _ RB F1).
  - apply (spec_pos fuel IH _ _ _ _ _ _ _ _ _ _ _ RB G1).
Qed.
Lemma li_dark (u : nat -> R) md f r i k L T i' k' n : renderer_li e u md time (whitted_local e u) f r i k = Some (Ok (L, T, i', k', n)) -> T = vzero.
Proof.
  destruct f; cbn [renderer_li]; [discriminate|]. destruct (negb _); [discriminate|]. destruct (hit e r) as [r1 h]. rewrite NV.
  match goal with |- obind ?x _ = _ -> _ => destruct x as [[[[[? ?] ?] ?]|]|] end; cbn [obind]; try discriminate. now intros [= _ <- _ _ _].
Qed.
Lemma transmit_dark (u : nat -> R) md fuel r b p n v k L i' k' c : specular e u (renderer_li e u md time (whitted_local e u) fuel) true r b p n v k = Some (Ok (L, i', k', c)) -> L = vzero.
Proof.
  unfold specular, smp_from_rand. destruct (bsdf_sample _ _ _ _ _ _) as [s|]; [|discriminate].
  destruct (Rltb 0 (sm_pdf s) && _); [|now intros [= <- _ _ _]]. destruct (sm_wi s) as [wi|]; [|discriminate]. destruct (Reqb _ 0); [now intros [= <- _ _ _]|].
  destruct (renderer_li e u md time _ fuel _ v _) as [[[[[[La Ta] ia] ka] na]|]|] eqn:E1; cbn [obind]; try discriminate. intros [= <- _ _ _].
  rewrite (li_dark _ _ _ _ _ _ _ _ _ _ _ E1). unfold sdiv, vscale, smul, vmap, vmap2, vzero. apply V3_eq; cbn; unfold Rdiv; ring.
Qed.
Lemma nd_mul a b c : spec_ge0 a -> no_darker b c -> no_darker (smul a b) (smul a c).
Proof. unfold spec_ge0, no_darker, smul, vmap2; cbn [vx vy vz]. intros (A & B & C) (D & E & F). repeat split; now apply Rmult_le_compat_l. Qed.
Lemma nd_scale k b c : 0 <= k -> no_darker b c -> no_darker (vscale k b) (vscale k c).
Proof. unfold no_darker, vscale, vmap; cbn [vx vy vz]. intros A (D & E & F). repeat split; now apply Rmult_le_compat_l. Qed.
Lemma nd_sdiv k b c : 0 < k -> no_darker b c -> no_darker (sdiv b k) (sdiv c k).
Proof. unfold no_darker, sdiv, vmap; cbn [vx vy vz]. intros A (D & E & F). pose proof (Rinv_0_lt_compat _ A). unfold Rdiv. repeat split; apply Rmult_le_compat_r; lra. Qed.
Lemma nd_plus a b c d : no_darker a b -> no_darker c d -> no_darker (vadd a c) (vadd b d).
Proof. unfold no_darker, vadd, vmap2; cbn [vx vy vz]. lra. Qed.
Definition deeper (fuel : nat) : Prop := forall r i k k2 L T i1 k1 n1 L2 T2 i2 k2' n2,
  li1 fuel r i k = Some (Ok (L, T, i1, k1, n1)) -> li2 fuel r i k2 = Some (Ok (L2, T2, i2, k2', n2)) -> no_darker L L2.
Lemma specular_deeper fuel : deeper fuel -> forall r b p n v k k2 L i1 k1 n1 L2 i2 k2' n2, steady_bsdf b -> reflects_light b ->
  specular e u1 (li1 fuel) false r b p n v k = Some (Ok (L, i1, k1, n1)) ->
  specular e u2 (li2 fuel) false r b p n v k2 = Some (Ok (L2, i2, k2', n2)) -> no_darker L L2.
Proof.
  intros REL r b p n v k k2 L i1 k1 n1 L2 i2 k2' n2 SB [_ RB]. unfold specular, smp_from_rand.
  rewrite (SB (Z.lor REFLECTION SPECULAR) (vneg (rdir r)) (u1 k) (u1 (S k)) (u1 (S (S k))) (u2 k2) (u2 (S k2)) (u2 (S (S k2))) (or_introl eq_refl) (U1 _) (U1 _) (U1 _) (U2 _) (U2 _) (U2 _)).
  destruct (bsdf_sample b _ _ _ _ _) as [sm|] eqn:ES; [|discriminate].
  destruct (Rltb 0 (sm_pdf sm) && _) eqn:Q; [|intros [= <- _ _ _] [= <- _ _ _]; apply nd_refl].
  apply andb_true_iff in Q. destruct Q as [Q _]. apply Rltb_true in Q.
  destruct (sm_wi sm) as [wi|]; [|discriminate]. destruct (Reqb _ 0); [intros [= <- _ _ _] [= <- _ _ _]; apply nd_refl|].
  set (r2 := if rd_has r then _ else _). clearbody r2.
  destruct (li1 fuel r2 v _) as [[[[[[La Ta] ia] ka] na]|]|] eqn:E1; cbn [obind]; try discriminate. intros [= <- _ _ _].
  destruct (li2 fuel r2 v _) as [[[[[[Lb Tb] ib] kb] nb]|]|] eqn:E2; cbn [obind]; try discriminate. intros [= <- _ _ _].
  apply nd_sdiv; [exact Q|]. apply nd_scale; [apply Rabs_pos|]. apply nd_mul; [apply (RB _ _ _ _ _ ES Q)|]. eapply REL; eassumption.
Qed.
Lemma all_deeper fuel : deeper fuel.
Proof.
  induction fuel as [|fuel IH]; intros r i k k2 L T i1 k1 n1 L2 T2 i2 k2' n2; cbn [renderer_li]; [discriminate|].
  destruct (negb _); [discriminate|]. destruct (hit e r) as [r1 h] eqn:EH. rewrite NV. destruct h as [v|].
  2:{ cbn [obind]. intros [= <- _ _ _ _] [= <- _ _ _ _]. apply nd_refl. }
  unfold surf_li. destruct (v_bsdf e v r1) as [[p b]|] eqn:EB; cbn [obind]; [|discriminate]. pose proof (HR _ _ _ _ EB) as RB. pose proof (HB _ _ _ _ EB) as SB.
  destruct (whitted_local e u1 _ _ _ _ _ _ _) as [[La ka]|] eqn:E1; cbn [obind]; [|discriminate].
  destruct (whitted_local e u2 _ _ _ _ _ _ _) as [[Lb kb]|] eqn:E2; cbn [obind]; [|discriminate].
  assert (EQ : La = Lb).
  { revert E1 E2. rewrite !local_own.
    destruct (ones _ _ _ _ _ _ _ _) as [x|]; cbn [bind]; [|discriminate]. congruence. }
  subst Lb. set (L0 := vadd (v_le e v (vneg (rdir r1))) La).
  destruct (rdepth (rd_ray r1) + 1 <? md1)%Z eqn:M1; destruct (rdepth (rd_ray r1) + 1 <? md2)%Z eqn:M2.
  - destruct (specular e u1 _ false _ _ _ _ _ ka) as [[[[[Ra va] k2a] c1a]|]|] eqn:F1; cbn [obind]; try discriminate.
    destruct (specular e u1 _ true _ _ _ _ _ k2a) as [[[[[Ta va'] k3a] c2a]|]|] eqn:G1; cbn [obind]; try discriminate. intros [= <- _ _ _ _].
    destruct (specular e u2 _ false _ _ _ _ _ kb) as [[[[[Rb vb] k2b] c1b]|]|] eqn:F2; cbn [obind]; try discriminate.
    destruct (specular e u2 _ true _ _ _ _ _ k2b) as [[[[[Tb vb'] k3b] c2b]|]|] eqn:G2; cbn [obind]; try discriminate. intros [= <- _ _ _ _].
    rewrite (transmit_dark _ _ _ _ _ _ _ _ _ _ _ _ _ G1), (transmit_dark _ _ _ _ _ _ _ _ _ _ _ _ _ G2).
    apply nd_plus; [|apply nd_refl]. apply nd_plus; [apply nd_refl|]. exact (specular_deeper fuel IH _ _ _ _ _ _ _ _ _ _ _ _ _ _ _ SB RB F1 F2).
  - apply Z.ltb_lt in M1. apply Z.ltb_ge in M2. lia.
  - cbn [obind]. intros [= <- _ _ _ _].
    destruct (specular e u2 _ false _ _ _ _ _ kb) as [[[[[Rb vb] k2b] c1b]|]|] eqn:F2; cbn [obind]; try discriminate.
    destruct (specular e u2 _ true _ _ _ _ _ k2b) as [[[[[Tb vb'] k3b] c2b]|]|] eqn:G2; cbn [obind]; try discriminate. intros [= <- _ _ _ _].
    rewrite (transmit_dark _ _ _ _ _ _ _ _ _ _ _ _ _ G2). pose proof (spec_pos fuel (all_positive fuel) _ _ _ _ _ _ _ _ _ _ _ RB F2) as (A & B & C).
    fold L0. unfold no_darker, vadd, vmap2, vzero; cbn [vx vy vz]. lra.
  - cbn [obind]. intros [= <- _ _ _ _] [= <- _ _ _ _]. apply nd_refl.
Qed.
End Recursive.
