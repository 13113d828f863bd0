(** Proofs: more lights, more light. *)
From Coq Require Import Reals List Bool ZArith Lia Lra Permutation.
From Verif Require Import Base M_Geometry M_MonteCarlo M_Aggregate M_Utility M_Spectrum M_Sampler M_Film M_Shapes M_Reflection S_Reflection P_Reflection2 P_Material M_Light M_Material M_Integrator
  M_World S_World S_Superpose S_Brighter P_World2 P_Superpose.
Import ListNotations.
Local Open Scope R_scope.

(** ** Never negative *)
Section Positive.
Context {V : Type} (e : env V) (u : nat -> R) (md : Z) (time : R).
Variables (ls : list light) (le : V -> vec -> vec).
Hypothesis NV : vol e = None.
Hypothesis HE : forall r r' v w, hit e r = (r', Some v) -> spec_ge0 (le v w).
Hypothesis HR : forall v r p b, v_bsdf e v r = Ok (p, b) -> reflects_light b.
Hypothesis HL : forall l, In l ls -> gives_light l.
Notation e2 := (lit_with e ls le).
Notation li := (renderer_li e2 u md time (whitted_local e2 u)).
Lemma zero_ge0 : spec_ge0 vzero. Proof. unfold spec_ge0, vzero; cbn. lra. Qed.
Lemma sdiv_ge0' s k : spec_ge0 s -> 0 <= k -> k <> 0 -> spec_ge0 (sdiv s k).
Proof. intros A B C. apply sdiv_ge0; [exact A|lra]. Qed.
Lemma one_ge0 p n wo eps tm b l x : reflects_light b -> gives_light l -> one e p n wo eps tm b l = Ok x -> spec_ge0 x.
Proof.
  intros [HF _] (_ & _ & HS). unfold one. destruct (lt_sample l p eps (0, 0, 0) tm) as [[[[Li wi] pdf] vis]|] eqn:EL; cbn [bind]; [|discriminate].
  destruct (HS _ _ _ _ _ _ _ _ EL) as [L0 P0]. destruct (spec_is_black Li || Reqb pdf 0) eqn:Q; [intros [= <-]; apply zero_ge0|].
  apply orb_false_iff in Q. destruct Q as [_ Q]. apply Reqb_false in Q.
  destruct (bsdf_f b wo wi ALL) as [f|] eqn:EF; cbn [bind]; [|discriminate]. pose proof (HF _ _ _ EF) as F0.
  destruct (_ && _); intros [= <-]; [|apply zero_ge0].
  apply sdiv_ge0'; [|exact P0|exact Q]. apply mul_ge0; [|unfold spec_ge0, spec; cbn; lra]. apply scale_ge0; [apply Rabs_pos|]. now apply mul_ge0.
Qed.
Lemma ones_ge0 p n wo eps tm b : reflects_light b -> forall l0, (forall l, In l l0 -> gives_light l) -> forall x, ones e p n wo eps tm b l0 = Ok x -> spec_ge0 x.
Proof.
  intros HB. induction l0 as [|l l0 IH]; intros HG x; cbn [ones].
  - intros [= <-]. apply zero_ge0.
  - destruct (one _ _ _ _ _ _ _ _) as [a|] eqn:E1; cbn [bind]; [|discriminate]. destruct (ones _ _ _ _ _ _ _ _) as [c|] eqn:E2; cbn [bind]; [|discriminate].
    intros [= <-]. apply add_ge0; [apply (one_ge0 _ _ _ _ _ _ _ _ HB (HG l (or_introl eq_refl)) E1)|]. apply IH; [|reflexivity]. intros l' Hl. apply HG. now right.
Qed.
Lemma sum_ge0' r : spec_ge0 (sum_le e2 r (spec 1) (spec 0)).
Proof.
  rewrite sum_app. clear NV HR HE. induction ls as [|l l0 IH]; cbn [fold_right]; [apply zero_ge0|].
  apply add_ge0; [apply (HL l (or_introl eq_refl))|]. apply IH. intros l' Hl. apply HL. now right.
Qed.
Definition lit (fuel : nat) : Prop := forall r i k L T i' k' n, li fuel r i k = Some (Ok (L, T, i', k', n)) -> T = vzero /\ spec_ge0 L.
Lemma spec_part fuel : lit fuel -> forall (tr : bool) r b p n v k L i' k' c, reflects_light b ->
  specular e2 u (li fuel) tr r b p n v k = Some (Ok (L, i', k', c)) -> spec_ge0 L.
Proof.
  intros IH tr r b p n v k L i' k' c [_ HS]. unfold specular, smp_from_rand.
  destruct (bsdf_sample _ _ _ _ _ _) as [s|] eqn:ES; [|discriminate].
  destruct (Rltb 0 (sm_pdf s) && _) eqn:Q; [|intros [= <- _ _ _]; apply zero_ge0].
  apply andb_true_iff in Q. destruct Q as [Q _]. apply Rltb_true in Q.
  destruct (sm_wi s) as [wi|] eqn:EW; [|discriminate]. destruct (Reqb _ 0); [intros [= <- _ _ _]; apply zero_ge0|].
  destruct (li fuel _ v _) as [[[[[[La Ta] ia] ka] na]|]|] eqn:E1; cbn [obind]; try discriminate. intros [= <- _ _ _].
  destruct (IH _ _ _ _ _ _ _ _ E1) as [-> H0]. destruct tr.
  - unfold spec_ge0, sdiv, vscale, smul, vmap, vmap2, vzero. cbn [vx vy vz]. unfold Rdiv. rewrite !Rmult_0_r, !Rmult_0_l. lra.
  - apply sdiv_ge0; [|exact Q]. apply scale_ge0; [apply Rabs_pos|]. apply mul_ge0; [|exact H0]. apply (HS _ _ _ _ _ ES Q).
Qed.
Lemma all_lit fuel : lit fuel.
Proof.
  induction fuel as [|fuel IH]; intros r i k L T i' k' n; cbn [renderer_li]; [discriminate|].
  destruct (negb _); [discriminate|]. change (hit e2 r) with (hit e r). destruct (hit e r) as [r1 h] eqn:EH. change (vol e2) with (vol e). rewrite NV.
  destruct h as [v|].
  2:{ cbn [obind]. intros [= <- <- _ _ _]. split; [reflexivity|apply sum_ge0']. }
  unfold surf_li. change (v_bsdf e2 v r1) with (v_bsdf e v r1). destruct (v_bsdf e v r1) as [[p b]|] eqn:EB; cbn [obind]; [|discriminate]. pose proof (HR _ _ _ _ EB) as HB.
  destruct (whitted_local _ _ _ _ _ _ _ _ _) as [[Ld k1]|] eqn:E1; cbn [obind]; [|discriminate].
  assert (D0 : spec_ge0 (vadd (v_le e2 v (vneg (rdir r1))) Ld)).
  { change (v_le e2 v (vneg (rdir r1))) with (le v (vneg (rdir r1))). apply add_ge0; [apply (HE _ _ _ _ EH)|]. revert E1. rewrite local_ones; [|exact NV|intros l Hl; apply (HL l Hl)].
    destruct (ones _ _ _ _ _ _ _ _) as [x|] eqn:EO; cbn [bind]; [|discriminate]. intros [= <- _]. apply (ones_ge0 _ _ _ _ _ _ HB ls HL _ EO). }
  destruct (_ <? md)%Z.
  2:{ cbn [obind]. intros [= <- <- _ _ _]. split; [reflexivity|exact D0]. }
  destruct (specular e2 u _ false _ _ _ _ _ k1) as [[[[[Ra va] k2a] c1a]|]|] eqn:F1; cbn [obind]; try discriminate.
  destruct (specular e2 u _ true _ _ _ _ _ k2a) as [[[[[Ta va'] k3a] c2a]|]|] eqn:G1; cbn [obind]; try discriminate.
  intros [= <- <- _ _ _]. split; [reflexivity|]. apply add_ge0; [apply add_ge0; [exact D0|]|].
  - apply (spec_part fuel IH _ _ _ _ _ _ _ _ _ _ _ HB F1).
  - apply (spec_part fuel IH _ _ _ _ _ _ _ _ _ _ _ HB G1).
Qed.
End Positive.

(** ** The added lights account for the difference *)
Section Difference.
Context {V : Type} (e : env V) (md : Z) (time : R).
Hypothesis NV : vol e = None.
Hypothesis HB : steady_surfaces e.
Lemma ones_split p n wo eps tm b l1 l2 x y : ones e p n wo eps tm b l1 = Ok x -> ones e p n wo eps tm b (l1 ++ l2) = Ok y ->
  exists z, ones e p n wo eps tm b l2 = Ok z /\ y = vadd x z.
Proof.
  revert x y. induction l1 as [|l l1 IH]; intros x y; cbn [ones app].
  - intros [= <-] H. exists y. now rewrite va_0l.
  - destruct (one _ _ _ _ _ _ _ l) as [a|]; cbn [bind]; [|discriminate]. destruct (ones _ _ _ _ _ _ _ l1) as [c|]; cbn [bind]; [|discriminate].
    intros [= <-]. destruct (ones _ _ _ _ _ _ _ (l1 ++ l2)) as [d|]; cbn [bind]; [|discriminate]. intros [= <-].
    destruct (IH c d eq_refl eq_refl) as (z & E & ->). exists z. split; [exact E|apply va_assoc].
Qed.
Lemma difference ls1 ls2 ls le u1 u2 u fuel r i k1 k2 k L1 T1 i1 k1' n1 L2 T2 i2 k2' n2 :
  Permutation ls (ls1 ++ ls2) ->
  (forall l, In l ls -> steady_light l) -> steady_stream u1 -> steady_stream u2 -> steady_stream u ->
  let e1 := lit_with e ls1 le in let e12 := lit_with e ls le in
  let e2 := lit_with e ls2 (fun _ _ => vzero) in
  renderer_li e1 u1 md time (whitted_local e1 u1) fuel r i k1 = Some (Ok (L1, T1, i1, k1', n1)) ->
  renderer_li e12 u2 md time (whitted_local e12 u2) fuel r i k2 = Some (Ok (L2, T2, i2, k2', n2)) ->
  exists L T i' k' n, renderer_li e2 u md time (whitted_local e2 u) fuel r i k = Some (Ok (L, T, i', k', n)) /\ L2 = vadd L1 L.
Proof.
  intros P HS U1 U2 U e1 e12 e2 H1 H2.
  assert (HS1 : forall l, In l ls1 -> steady_light l) by (intros; apply HS, (Permutation_in _ (Permutation_sym P)), in_or_app; auto).
  assert (HS2 : forall l, In l ls2 -> steady_light l) by (intros; apply HS, (Permutation_in _ (Permutation_sym P)), in_or_app; auto).
  assert (QA : forall a b c a' b' c', b = vadd a c -> b' = vadd a' c' -> vadd b b' = vadd (vadd a a') (vadd c c')).
  { intros a b c a' b' c' -> ->. unfold vadd, vmap2. apply V3_eq; cbn; ring. }
  assert (QL : forall f s d a b c, b = vadd a c -> sdiv (vscale s (smul f b)) d = vadd (sdiv (vscale s (smul f a)) d) (sdiv (vscale s (smul f c)) d)).
  { intros f s d a b c ->. unfold vadd, sdiv, vscale, smul, vmap2, vmap. apply V3_eq; cbn; unfold Rdiv; ring. }
  assert (W : related e (fun a b c => b = vadd a c) ls1 ls ls2 le le (fun _ _ => vzero) u1 u2 u md time fuel).
  { apply whole_related; try assumption.
    - now rewrite va_0.
    - intros. now rewrite va_0.
    - intros r0. rewrite !sum_app. rewrite <- (fr_app (fun l => lt_le l r0)). apply (fr_perm (fun l => lt_le l r0)). exact P.
    - intros v r0 p n wo b j1 j2 j x y j1' j2'. rewrite !local_ones by assumption.
      destruct (ones e _ _ _ _ _ _ ls1) as [x'|] eqn:O1; cbn [bind]; [|discriminate]. intros [= <- _].
      destruct (ones e _ _ _ _ _ _ ls) as [y'|] eqn:O2; cbn [bind]; [|discriminate]. intros [= <- _].
      pose proof (ones_perm e _ _ _ _ _ _ _ _ P _ O2) as O3. destruct (ones_split _ _ _ _ _ _ _ _ _ _ O1 O3) as (z & O4 & ->). rewrite O4. cbn [bind]. eauto. }
  destruct (W _ _ _ _ k _ _ _ _ _ _ _ _ _ _ H1 H2) as (_ & _ & _ & _ & L & k' & E & HL).
  exists L, vzero, i1, k', n1. split; [exact E|exact HL].
Qed.
End Difference.

(** ** Materials and lamps *)
Lemma sclip_ge0 s : spec_ge0 (sclip s).
Proof. unfold spec_ge0, sclip, vmap. cbn [vx vy vz]. repeat split; apply Rmax_r. Qed.
Lemma simple_reflects m flip dg dgs b : simple_material m -> get_bsdf m flip dg dgs = Ok b -> reflects_light b.
Proof.
  assert (PU : forall l flags wo wi, (forall x f, In x l -> bdf_f x wo wi = Ok f -> spec_ge0 f) -> forall acc f, spec_ge0 acc -> sum_f l flags wo wi acc = Ok f -> spec_ge0 f).
  { induction l as [|x l IH]; intros flags wo wi H acc f A; cbn [sum_f]; [now intros [= <-]|]. destruct (match_flag x flags).
    - destruct (bdf_f x wo wi) as [g|] eqn:EG; cbn [bind]; [|discriminate]. apply IH; [intros y h Hy; apply (H y h); now right|]. apply add_ge0; [exact A|]. apply (H x g); [now left|exact EG].
    - apply IH; [intros y h Hy; apply (H y h); now right|exact A]. }
  assert (Z0 : spec_ge0 (spec 0)) by (unfold spec_ge0, spec; cbn; lra).
  assert (PK : forall l fl j x, pick l fl j = Some x -> In x l /\ match_flag x fl = true).
  { induction l as [|x l IH]; intros fl j y; cbn [pick]; [discriminate|]. destruct (match_flag x fl) eqn:MF.
    - destruct (j =? 0)%Z; [intros [= <-]; split; [now left|exact MF]|]. intros H. destruct (IH _ _ _ H). split; [now right|assumption].
    - intros H. destruct (IH _ _ _ H). split; [now right|assumption]. }
  assert (G : forall b, (forall x wo wi f, In x (bs_bdfs b) -> bdf_f x wo wi = Ok f -> spec_ge0 f) ->
     (forall x wo a c pdf wi f, In x (bs_bdfs b) -> match_flag x (Z.lor REFLECTION SPECULAR) = true -> bdf_sample x wo a c = Ok (pdf, Some (wi, f)) -> spec_ge0 f) -> reflects_light b).
  { intros b0 HF HS. split.
    - intros wo wi f. unfold bsdf_f. apply PU; [intros x g Hx; now apply HF|exact Z0].
    - intros wo x y z s. unfold bsdf_sample. destruct (_ =? 0)%nat; [intros [= <-] _; exact Z0|]. destruct (pick _ _ _) as [q|] eqn:EP; [|discriminate].
      destruct (PK _ _ _ _ EP) as [IQ MQ]. destruct (bdf_sample _ _ _ _) as [[pdf o]|] eqn:ES; cbn [bind]; [|discriminate]. destruct (Reqb pdf 0); [intros [= <-] _; exact Z0|].
      destruct o as [[wi f]|]; [|discriminate]. intros [= <-] _. cbn [sm_f]. apply (HS _ _ _ _ _ _ _ IQ MQ ES). }
  assert (ABS : forall s k, spec_ge0 s -> spec_ge0 (sdiv s (Rabs k))).
  { intros s k Hs. destruct (Req_dec k 0) as [->|N0]; [|apply sdiv_ge0; [exact Hs|now apply Rabs_pos_lt]].
    unfold spec_ge0, sdiv, vmap. cbn [vx vy vz]. rewrite Rabs_R0. unfold Rdiv. rewrite Rinv_0, !Rmult_0_r. lra. }
  assert (MIR : forall r fr wo a c pdf wi f, fresnel_ok fr -> bdf_sample (SpecularReflection (sclip r) fr) wo a c = Ok (pdf, Some (wi, f)) -> spec_ge0 f).
  { intros r fr wo a c pdf wi f HF. cbn [bdf_sample]. intros [= _ _ <-]. apply ABS. apply mul_ge0; [now apply fresnel_ge0|]. apply sclip_ge0. }
  destruct m as [kd sg bm| |kr bm| |kr kt ix bm| | | |]; cbn [simple_material]; try contradiction; intros HM; cbn [get_bsdf].
  - destruct (shading _ _ _ _) as [g|]; cbn [bind]; [|discriminate]. intros [= <-].
    assert (C0 : clip (sg g) 0 90 = 0).
    { unfold clip. specialize (HM g). unfold Rmin, Rmax; repeat destruct Rle_dec; lra. }
    rewrite C0. replace (Reqb 0 0) with true by (symmetry; now apply Reqb_true).
    apply G.
    + intros x wo wi f [<-|[]]. cbn [bdf_f]. intros [= <-]. apply scale_ge0; [pose proof PI_RGT_0; apply div_nonneg; lra|apply sclip_ge0].
    + intros x wo a c pdf wi f [<-|[]] MF. discriminate MF.
  - destruct (shading _ _ _ _) as [g|]; cbn [bind]; [|discriminate]. intros [= <-]. apply G; destruct (sblack _); cbn [bs_bdfs push_back bsdf_make app]; intros x.
    + intros ? ? ? [].
    + intros wo wi f [<-|[]]. cbn [bdf_f]. intros [= <-]. exact Z0.
    + intros ? ? ? ? ? ? [].
    + intros wo a c pdf wi f [<-|[]] _. apply MIR. exact Logic.I.
  - destruct (shading _ _ _ _) as [g|]; cbn [bind]; [|discriminate]. intros [= <-].
    set (b1 := if sblack (sclip (kr g)) then _ else _). set (b2 := if sblack (sclip (kt g)) then _ else _).
    assert (IN : forall x, In x (bs_bdfs b2) -> x = SpecularReflection (sclip (kr g)) (FrDiel 1 (ix g)) \/ x = SpecularTransmission (sclip (kt g)) 1 (ix g)).
    { unfold b2, b1. intros x. destruct (sblack (sclip (kr g))), (sblack (sclip (kt g))); cbn [bs_bdfs push_back bsdf_make app In]; intuition. }
    apply G.
    + intros x wo wi f Hx. destruct (IN x Hx) as [-> | ->]; cbn [bdf_f]; intros [= <-]; exact Z0.
    + intros x wo a c pdf wi f Hx MF. destruct (IN x Hx) as [-> | ->]; [|discriminate MF]. apply MIR. cbn [fresnel_ok]. split; [lra|apply HM].
Qed.
Lemma lamp_gives l : spec_ge0 (lp_i l) -> gives_light (lamp_light l).
Proof.
  intros H. split; [intros p eps a a' t; reflexivity|]. split; [intros r; unfold spec_ge0, lamp_light, point_light, vzero, spec; cbn; lra|].
  intros p eps a t Li wi pdf vis. unfold lamp_light, point_light, point_sample_l. cbn [lt_sample ls_L ls_wi ls_pdf ls_vis]. intros [= <- _ <- _]. split; [|lra].
  set (d := sq_length _). assert (D0 : 0 <= d) by (unfold d, sq_length; nra). clearbody d.
  unfold spec_ge0, sdiv, vmap, fin_part in *. cbn [vx vy vz]. destruct (Req_dec d 0) as [->|N0]; [unfold Rdiv; rewrite Rinv_0, !Rmult_0_r; lra|].
  destruct H as (A & B & C). repeat split; apply div_nonneg; lra.
Qed.
