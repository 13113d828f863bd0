(** Proofs: the direct-lighting integrator and Whitted's on whole scenes. *)
From Coq Require Import Reals List Bool ZArith Lia Lra.
From Verif Require Import Base M_Geometry M_MonteCarlo M_Aggregate M_Utility M_Spectrum M_Sampler M_Film M_Shapes M_Reflection M_Light M_Material M_Integrator
  S_Reflection S_Sampler S_Integrator S_Integrator2 S_World S_Superpose S_Brighter P_Integrator P_Integrator2 P_World2 P_Superpose Props_Integrator Props_Integrator2.
Import ListNotations.
Local Open Scope R_scope.

(** ** Specular lobes have no reflection function, so leaving them out changes nothing *)
Lemma specular_dark d : forall wo wi f, Z.land (bdf_type d) SPECULAR <> 0%Z -> bdf_f d wo wi = Ok f -> f = vzero.
Proof.
  induction d as [r|r A B|r fr d|rd rs d|data nt nd np|r fr|t ei et|d IH|d IH s]; intros wo wi f HT; cbn [bdf_f]; try (exfalso; apply HT; reflexivity).
  - now intros [= <-].
  - now intros [= <-].
  - apply IH. intros H0. apply HT. cbn [bdf_type]. rewrite <- H0. apply Z.bits_inj'. intros n Hn. rewrite !Z.land_spec, Z.lxor_spec.
    destruct (Z.testbit SPECULAR n) eqn:T; [|now rewrite !andb_false_r].
    assert (T2 : Z.testbit (Z.lor REFLECTION TRANSMISSION) n = false).
    { assert (E0 : Z.land SPECULAR (Z.lor REFLECTION TRANSMISSION) = 0%Z) by reflexivity. apply (f_equal (fun z => Z.testbit z n)) in E0. rewrite Z.land_spec, T, Z.bits_0 in E0. exact E0. }
    rewrite T2. now rewrite xorb_false_r.
  - discriminate.
Qed.
Lemma nospec_same b wo wi f : bsdf_f b wo wi ALL = Ok f -> bsdf_f b wo wi NOSPEC = Ok f.
Proof.
  unfold bsdf_f.
  assert (G : forall l y acc g, sum_f l (Z.land ALL y) (w2l b wo) (w2l b wi) acc = Ok g -> sum_f l (Z.land NOSPEC y) (w2l b wo) (w2l b wi) acc = Ok g).
  { induction l as [|d l IH]; intros y acc g; cbn [sum_f]; [auto|]. destruct (Z.eq_dec (Z.land (bdf_type d) SPECULAR) 0) as [H0|H0].
    - unfold match_flag. unfold NOSPEC at 1. rewrite land_nospec by exact H0. destruct (_ =? _)%Z; [|apply IH].
      destruct (bdf_f d _ _); cbn [bind]; [apply IH|discriminate].
    - assert (M0 : match_flag d (Z.land NOSPEC y) = false).
      { unfold match_flag. apply Z.eqb_neq. intros H1. apply H0. rewrite <- H1. unfold NOSPEC. apply Z.bits_inj'. intros n Hn.
        rewrite !Z.land_spec, Z.lnot_spec, Z.bits_0 by exact Hn. destruct (Z.testbit SPECULAR n), (Z.testbit (bdf_type d) n), (Z.testbit ALL n), (Z.testbit y n); reflexivity. }
      rewrite M0. destruct (match_flag d (Z.land ALL y)); [|apply IH].
      destruct (bdf_f d _ _) as [h|] eqn:EH; cbn [bind]; [|discriminate]. rewrite (specular_dark _ _ _ _ H0 EH), va_0. apply IH. }
  unfold side_flags. destruct (Rltb _ _); apply G.
Qed.

Section Agree.
Context {V : Type} (e : env V) (s : sample) (lo bo : list offset).
Hypothesis NV : vol e = None.
Hypothesis HL : forall l, In l (lights e) -> lt_delta l = true /\ gives_light l.
Hypothesis LO : length lo = length (lights e).
Hypothesis BO : map of_n bo = map of_n lo.
Hypothesis PO : Forall (fun o => (0 < of_n o)%nat) lo.
Hypothesis RL : Forall (fun o => forall j, (j < of_n o)%nat -> readable s o j) lo.
Hypothesis RB : Forall (fun o => forall j, (j < of_n o)%nat -> readable s o j) bo.

Lemma whitted_delta p n wo eps time b l a a' x : gives_light l -> (forall wi f, bsdf_f b wo wi ALL = Ok f -> spec_ge0 f) ->
  whitted_contrib e p n wo eps time b l a x -> delta_contrib e p n wo eps time b l a' x.
Proof.
  intros (ST & _ & HS) HF (Li & wi & pdf & vis & E1 & W). exists Li, wi, pdf, vis. rewrite (ST p eps a' a time). split; [exact E1|].
  destruct (HS _ _ _ _ _ _ _ _ E1) as [NL NP]. destruct W as [(B & P & f & Ef & W)|(B & ->)].
  - left. split; [now apply nn_black|]. split; [lra|]. exists f. split; [now apply nospec_same|]. pose proof (nn_black f (HF _ _ Ef)) as NB. destruct W as [(b1 & h1 & ->)|(b1 & ->)].
    + left. split; [now apply NB|]. split; [exact h1|reflexivity].
    + right. split; [|reflexivity]. destruct b1 as [b1|b1]; [left; now rewrite NB|now right].
  - right. split; [|reflexivity]. destruct B as [B| ->]; [left; now rewrite (nn_black Li NL)|right; lra].
Qed.
Lemma vs_S (n : nat) x : vadd x (vscale (INR n) x) = vscale (INR (S n)) x.
Proof. rewrite S_INR. unfold vadd, vscale, vmap, vmap2. apply V3_eq; cbn; ring. Qed.
Lemma samples_const u l ol ob p n wo eps time b x : (forall a c k, estimate_direct e l p n wo eps time b a c NOSPEC k = Ok (x, k)) ->
  forall js, (forall j, In j js -> readable s ol j /\ readable s ob j) -> forall Ld k,
  all_samples e u l (Some (s, ol, ob)) p n wo eps time b js Ld k = Ok (vadd Ld (vscale (INR (length js)) x), k).
Proof.
  intros HE. induction js as [|j js IH]; intros HR Ld k; cbn [all_samples length].
  - f_equal. f_equal. unfold vadd, vscale, vmap, vmap2. destruct Ld. apply V3_eq; cbn; ring.
  - destruct (HR j (or_introl eq_refl)) as [[a Ra] [c Rc]]. rewrite Ra. cbn [bind]. rewrite Rc. cbn [bind]. rewrite HE. cbn [bind].
    rewrite IH by (intros; apply HR; now right). now rewrite <- va_assoc, vs_S.
Qed.
Lemma lights_const u p n wo eps time b : (forall wi f, bsdf_f b wo wi ALL = Ok f -> spec_ge0 f) ->
  forall ls i xs, (forall l, In l ls -> lt_delta l = true /\ gives_light l) -> length xs = length ls -> (i + length ls)%nat = length (lights e) ->
  (forall j l x, nth_error ls j = Some l -> nth_error xs j = Some x -> exists a, whitted_contrib e p n wo eps time b l a x) ->
  forall L k, all_lights e u ls i (Some (s, lo, bo)) p n wo eps time b L k = Ok (vadd L (vsum xs), k).
Proof.
  intros HF. induction ls as [|l ls IH]; intros i xs HI LX LI HW L k.
  - destruct xs; [|discriminate LX]. cbn [all_lights]. change (vsum []) with vzero. now rewrite va_0.
  - destruct xs as [|x xs]; [discriminate LX|]. cbn [length] in LX, LI. cbn [all_lights].
    assert (I1 : (i < length lo)%nat) by lia. assert (I2 : (i < length bo)%nat) by (apply (f_equal (@length nat)) in BO; rewrite !map_length in BO; lia).
    destruct (nth_error lo i) as [ol|] eqn:EO; [|apply nth_error_None in EO; lia]. destruct (nth_error bo i) as [ob|] eqn:EB; [|apply nth_error_None in EB; lia].
    unfold idx. rewrite EO, EB. cbn [bind]. cbv zeta.
    assert (N1 : of_n ob = of_n ol).
    { pose proof (f_equal (fun z => nth_error z i) BO) as Q. cbn beta in Q. rewrite !nth_error_map, EO, EB in Q. cbn in Q. congruence. }
    assert (P1 : (0 < of_n ol)%nat) by (apply (proj1 (Forall_forall _ _) PO), nth_error_In with i; exact EO).
    destruct (HI l (or_introl eq_refl)) as [DL GL]. destruct (HW 0%nat l x eq_refl eq_refl) as [a WX].
    rewrite (samples_const u l ol ob p n wo eps time b x).
    + cbn [bind]. rewrite (IH (S i) xs).
      * f_equal. f_equal. change (vsum (x :: xs)) with (vadd x (vsum xs)). rewrite va_assoc. f_equal. f_equal.
        rewrite seq_length. change (spec 0) with vzero. rewrite va_0l. assert (INR (of_n ol) <> 0) by (apply not_0_INR; lia).
        unfold sdiv, vscale, vmap. destruct x. apply V3_eq; cbn; field; assumption.
      * intros; apply HI; now right.
      * lia.
      * lia.
      * intros j l' x' E1 E2. exact (HW (S j) l' x' E1 E2).
    + intros a' c' k'. apply (C132_delta_estimate V e l p n wo eps time b a' c' k' x k' NV DL). split; [|reflexivity]. now apply whitted_delta with a.
    + intros j HJ. apply in_seq in HJ. split.
      * apply (proj1 (Forall_forall _ _) RL ol); [now apply nth_error_In with i|lia].
      * apply (proj1 (Forall_forall _ _) RB ob); [now apply nth_error_In with i|lia].
Qed.
Lemma local_agree u1 u2 v r p n wo b k k2 L k' : (forall wi f, bsdf_f b wo wi ALL = Ok f -> spec_ge0 f) ->
  whitted_local e u1 v r p n wo b k = Ok (L, k') -> direct_all_local e u2 s lo bo v r p n wo b k2 = Ok (L, k2).
Proof.
  intros HF HW. apply C131_whitted_sum in HW as (xs & LX & -> & _ & WX); [|exact NV]. unfold direct_all_local.
  destruct (0 <? length (lights e))%nat eqn:Q.
  - unfold uniform_sample_all_lights. rewrite (lights_const u2 p n wo _ _ b HF (lights e) 0 xs HL LX eq_refl).
    + change (spec 0) with vzero. now rewrite va_0l.
    + intros j l x E1 E2. eexists. exact (WX j l x E1 E2).
  - apply Nat.ltb_ge in Q. destruct xs; [reflexivity|cbn in LX; lia].
Qed.

(** ** The whole recursion *)
Variables (u1 u2 : nat -> R) (md : Z) (time : R).
Hypothesis HB : steady_surfaces e.
Hypothesis HF : forall v r p b, v_bsdf e v r = Ok (p, b) -> forall wo wi f, bsdf_f b wo wi ALL = Ok f -> spec_ge0 f.
Hypothesis U1 : steady_stream u1. Hypothesis U2 : steady_stream u2.
Notation li1 := (renderer_li e u1 md time (whitted_local e u1)).
Notation li2 := (renderer_li e u2 md time (direct_all_local e u2 s lo bo)).
Definition agrees (fuel : nat) : Prop := forall r i k k2 L T i1 k1 n1,
  li1 fuel r i k = Some (Ok (L, T, i1, k1, n1)) -> exists k3, li2 fuel r i k2 = Some (Ok (L, T, i1, k3, n1)).
Lemma specular_agrees fuel : agrees fuel -> forall tr r b p n v k k2 L i1 k1 n1, steady_bsdf b ->
  specular e u1 (li1 fuel) tr r b p n v k = Some (Ok (L, i1, k1, n1)) -> exists k3, specular e u2 (li2 fuel) tr r b p n v k2 = Some (Ok (L, i1, k3, n1)).
Proof.
  intros REL tr r b p n v k k2 L i1 k1 n1 SB. unfold specular, smp_from_rand.
  set (fl := Z.lor (if tr then TRANSMISSION else REFLECTION) SPECULAR).
  assert (H0 : fl = Z.lor REFLECTION SPECULAR \/ fl = Z.lor TRANSMISSION SPECULAR) by (unfold fl; destruct tr; auto).
  rewrite (SB fl (vneg (rdir r)) (u1 k) (u1 (S k)) (u1 (S (S k))) (u2 k2) (u2 (S k2)) (u2 (S (S k2))) H0 (U1 _) (U1 _) (U1 _) (U2 _) (U2 _) (U2 _)).
  destruct (bsdf_sample b _ _ _ _ fl) as [sm|]; [|discriminate].
  destruct (_ && _); [|intros [= <- <- _ <-]; eexists; reflexivity]. destruct (sm_wi sm) as [wi|]; [|discriminate]. destruct (Reqb _ 0); [intros [= <- <- _ <-]; eexists; reflexivity|].
  set (r2 := if rd_has r then _ else _). clearbody r2.
  destruct (li1 fuel r2 v (S (S (S k)))) as [[[[[[La Ta] ia] ka] na]|]|] eqn:E1; cbn [obind]; try discriminate. intros [= <- <- _ <-].
  destruct (REL r2 v _ (S (S (S k2))) _ _ _ _ _ E1) as (k3 & ->). cbn [obind]. eexists. reflexivity.
Qed.
Lemma whole_agrees fuel : agrees fuel.
Proof.
  induction fuel as [|fuel IH]; intros r i k k2 L T i1 k1 n1; cbn [renderer_li]; [discriminate|].
  destruct (negb _); [discriminate|]. destruct (hit e r) as [r1 h] eqn:EH. rewrite NV. destruct h as [v|].
  2:{ cbn [obind]. intros [= <- <- <- _ <-]. eexists. reflexivity. }
  unfold surf_li. destruct (v_bsdf e v r1) as [[p b]|] eqn:EB; cbn [obind]; [|discriminate]. pose proof (HB _ _ _ _ EB) as SB.
  destruct (whitted_local e u1 v r1 p _ _ b k) as [[La ka]|] eqn:E1; cbn [obind]; [|discriminate].
  rewrite (local_agree u1 u2 _ _ _ _ _ _ _ k2 _ _ (HF _ _ _ _ EB _) E1). cbn [obind].
  destruct (_ <? md)%Z.
  2:{ cbn [obind]. intros [= <- <- <- _ <-]. eexists. reflexivity. }
  destruct (specular e u1 _ false _ _ _ _ _ ka) as [[[[[Ra va] k2a] c1a]|]|] eqn:F1; cbn [obind]; try discriminate.
  destruct (specular_agrees fuel IH false r1 b p _ v _ k2 _ _ _ _ SB F1) as (k3 & ->). cbn [obind].
  destruct (specular e u1 _ true _ _ _ _ _ k2a) as [[[[[Ta va'] k3a] c2a]|]|] eqn:G1; cbn [obind]; try discriminate.
  destruct (specular_agrees fuel IH true r1 b p _ va _ k3 _ _ _ _ SB G1) as (k4 & ->). cbn [obind].
  intros [= <- <- <- _ <-]. eexists. reflexivity.
Qed.
End Agree.
