(** Proofs: lights add up in the Whitted integrator. *)
From Coq Require Import Reals List Bool ZArith Lia Lra Permutation.
From Verif Require Import Base M_Geometry M_MonteCarlo M_Aggregate M_Reflection M_Utility M_Spectrum M_Sampler M_Film M_Light M_Integrator
  S_World S_Superpose P_World2.
Import ListNotations.
Local Open Scope R_scope.

Lemma va_assoc a b c : vadd a (vadd b c) = vadd (vadd a b) c.
Proof. unfold vadd, vmap2. apply V3_eq; cbn; ring. Qed.
Lemma va_comm a b : vadd a b = vadd b a.
Proof. unfold vadd, vmap2. apply V3_eq; cbn; ring. Qed.
Lemma va_0 a : vadd a vzero = a.
Proof. unfold vadd, vmap2, vzero. destruct a. apply V3_eq; cbn; ring. Qed.
Lemma va_0l a : vadd vzero a = a.
Proof. rewrite va_comm. apply va_0. Qed.

(** ** One surface point *)
Section Local.
Context {V : Type} (e : env V) (p n wo : vec) (eps time : R) (b : bsdf).
Hypothesis NV : vol e = None.
(** what one light adds *)
Definition one (l : light) : res vec :=
  do s <- lt_sample l p eps (0, 0, 0) time;
  let '(Li, wi, pdf, vis) := s in
  if spec_is_black Li || Reqb pdf 0 then Ok vzero
  else do f <- bsdf_f b wo wi ALL;
       if negb (spec_is_black f) && unoccluded (hit_p e) vis then Ok (sdiv (smul (vscale (abs_dot wi n) (smul f Li)) (spec 1)) pdf)
       else Ok vzero.
Fixpoint ones (ls : list light) : res vec :=
  match ls with [] => Ok vzero | l :: ls' => do x <- one l; do y <- ones ls'; Ok (vadd x y) end.
Lemma lights_ones u : forall ls, (forall l, In l ls -> steady_light l) -> forall L k,
  whitted_lights e u ls p n wo eps time b L k = (do Sm <- ones ls; Ok (vadd L Sm, (k + 3 * length ls)%nat)).
Proof.
  induction ls as [|l ls IH]; intros HS L k; cbn [whitted_lights ones length bind].
  - rewrite va_0. now rewrite Nat.mul_0_r, Nat.add_0_r.
  - unfold smp_from_rand. rewrite (HS l (or_introl eq_refl) p eps _ (0, 0, 0) time). unfold one.
    assert (HS' : forall l, In l ls -> steady_light l) by (intros; apply HS; now right).
    specialize (IH HS'). replace (k + 3 * S (length ls))%nat with (S (S (S k)) + 3 * length ls)%nat by lia.
    destruct (lt_sample l p eps (0, 0, 0) time) as [[[[Li wi] pdf] vis]|]; cbn [bind]; [|reflexivity].
    destruct (_ || _); cbn [bind].
    + rewrite IH. destruct (ones ls); cbn [bind]; [|reflexivity]. now rewrite va_0l.
    + destruct (bsdf_f b wo wi ALL) as [f|]; cbn [bind]; [|reflexivity]. destruct (_ && _); cbn [bind].
      * unfold transmittance. rewrite NV. rewrite IH. destruct (ones ls); cbn [bind]; [|reflexivity]. now rewrite va_assoc.
      * rewrite IH. destruct (ones ls); cbn [bind]; [|reflexivity]. now rewrite va_0l.
Qed.
Lemma ones_app l1 l2 x y : ones l1 = Ok x -> ones l2 = Ok y -> ones (l1 ++ l2) = Ok (vadd x y).
Proof.
  revert x. induction l1 as [|l l1 IH]; intros x; cbn [ones app].
  - intros [= <-] H. now rewrite va_0l.
  - destruct (one l) as [a|]; cbn [bind]; [|discriminate]. destruct (ones l1) as [c|]; cbn [bind]; [|discriminate].
    intros [= <-] H. rewrite (IH c eq_refl H). cbn [bind]. now rewrite va_assoc.
Qed.
Lemma ones_perm l1 l2 : Permutation l1 l2 -> forall x, ones l1 = Ok x -> ones l2 = Ok x.
Proof.
  induction 1 as [|l l1 l2 P IH|l m l1|l1 l2 l3 P1 IH1 P2 IH2]; intros x; cbn [ones].
  - auto.
  - destruct (one l) as [a|]; cbn [bind]; [|discriminate]. destruct (ones l1) as [c|]; cbn [bind]; [|discriminate].
    intros [= <-]. now rewrite (IH c eq_refl).
  - destruct (one m) as [a|]; cbn [bind]; [|discriminate]. destruct (one l) as [c|]; cbn [bind]; [|discriminate].
    destruct (ones l1) as [d|]; cbn [bind]; [|discriminate]. intros [= <-]. apply f_equal.
    now rewrite !va_assoc, (va_comm a c).
  - intros H. auto.
Qed.
End Local.

(** ** The whole recursion, for a relation between radiances that every linear step keeps *)
Section Whole.
Context {V : Type} (e : env V) (Q : vec -> vec -> vec -> Prop).
Variables (ls1 ls2 ls : list light) (le1 le2 le : V -> vec -> vec) (u1 u2 u : nat -> R) (md : Z) (time : R).
Hypothesis NV : vol e = None.
Hypothesis QA : forall a b c a' b' c', Q a b c -> Q a' b' c' -> Q (vadd a a') (vadd b b') (vadd c c').
Hypothesis QL : forall f s d a b c, Q a b c -> Q (sdiv (vscale s (smul f a)) d) (sdiv (vscale s (smul f b)) d) (sdiv (vscale s (smul f c)) d).
Hypothesis Q0 : Q vzero vzero vzero.
Notation e1 := (lit_with e ls1 le1). Notation e2 := (lit_with e ls2 le2). Notation e3 := (lit_with e ls le).
Hypothesis HLe : forall r r' v w, hit e r = (r', Some v) -> Q (le1 v w) (le2 v w) (le v w).
Hypothesis HBg : forall r, Q (sum_le e1 r (spec 1) (spec 0)) (sum_le e2 r (spec 1) (spec 0)) (sum_le e3 r (spec 1) (spec 0)).
Hypothesis HLoc : forall v r p n wo b k1 k2 k x y k1' k2',
  whitted_local e1 u1 v r p n wo b k1 = Ok (x, k1') -> whitted_local e2 u2 v r p n wo b k2 = Ok (y, k2') ->
  exists z k', whitted_local e3 u v r p n wo b k = Ok (z, k') /\ Q x y z.
Hypothesis HB : steady_surfaces e.
Hypothesis U1 : steady_stream u1. Hypothesis U2 : steady_stream u2. Hypothesis U : steady_stream u.

Notation li1 := (renderer_li e1 u1 md time (whitted_local e1 u1)).
Notation li2 := (renderer_li e2 u2 md time (whitted_local e2 u2)).
Notation li := (renderer_li e3 u md time (whitted_local e3 u)).
Definition related (fuel : nat) : Prop := forall r i k1 k2 k L1 T1 i1 k1' n1 L2 T2 i2 k2' n2,
  li1 fuel r i k1 = Some (Ok (L1, T1, i1, k1', n1)) -> li2 fuel r i k2 = Some (Ok (L2, T2, i2, k2', n2)) ->
  T1 = vzero /\ T2 = vzero /\ i2 = i1 /\ n2 = n1 /\ exists L k', li fuel r i k = Some (Ok (L, vzero, i1, k', n1)) /\ Q L1 L2 L.
Lemma specular_related fuel : related fuel -> forall tr r b p n v k1 k2 k L1 i1 k1' n1 L2 i2 k2' n2, steady_bsdf b ->
  specular e1 u1 (li1 fuel) tr r b p n v k1 = Some (Ok (L1, i1, k1', n1)) -> specular e2 u2 (li2 fuel) tr r b p n v k2 = Some (Ok (L2, i2, k2', n2)) ->
  i2 = i1 /\ n2 = n1 /\ exists L k', specular e3 u (li fuel) tr r b p n v k = Some (Ok (L, i1, k', n1)) /\ Q L1 L2 L.
Proof.
  intros REL tr r b p n v k1 k2 k L1 i1 k1' n1 L2 i2 k2' n2 SB. unfold specular, smp_from_rand.
  set (fl := Z.lor (if tr then TRANSMISSION else REFLECTION) SPECULAR).
  assert (HF : fl = Z.lor REFLECTION SPECULAR \/ fl = Z.lor TRANSMISSION SPECULAR) by (unfold fl; destruct tr; auto).
  rewrite (SB fl (vneg (rdir r)) (u1 k1) (u1 (S k1)) (u1 (S (S k1))) (u k) (u (S k)) (u (S (S k))) HF (U1 _) (U1 _) (U1 _) (U _) (U _) (U _)).
  rewrite (SB fl (vneg (rdir r)) (u2 k2) (u2 (S k2)) (u2 (S (S k2))) (u k) (u (S k)) (u (S (S k))) HF (U2 _) (U2 _) (U2 _) (U _) (U _) (U _)).
  destruct (bsdf_sample b _ _ _ _ fl) as [s|]; [|discriminate].
  assert (DONE : forall k1x k2x kx : nat, Some (Ok (spec 0, v, k1x, 0%nat)) = Some (Ok (L1, i1, k1', n1)) ->
     Some (Ok (spec 0, v, k2x, 0%nat)) = Some (Ok (L2, i2, k2', n2)) ->
     i2 = i1 /\ n2 = n1 /\ exists L k', Some (Ok (spec 0, v, kx, 0%nat)) = Some (Ok (L, i1, k', n1)) /\ Q L1 L2 L).
  { intros k1x k2x kx [= <- <- _ <-] [= <- <- _ <-]. split; [reflexivity|]. split; [reflexivity|]. do 2 eexists. split; [reflexivity|exact Q0]. }
  destruct (_ && _); [|apply DONE]. destruct (sm_wi s) as [wi|]; [|discriminate]. destruct (Reqb _ 0); [apply DONE|].
  change (v_eps e1 v) with (v_eps e v). change (v_eps e2 v) with (v_eps e v). change (v_eps e3 v) with (v_eps e v).
  change (diffs e1 tr r v b wi) with (diffs e tr r v b wi). change (diffs e2 tr r v b wi) with (diffs e tr r v b wi).
  change (diffs e3 tr r v b wi) with (diffs e tr r v b wi).
  set (r2 := if rd_has r then _ else _). clearbody r2.
  destruct (li1 fuel r2 v (S (S (S k1)))) as [[[[[[La Ta] ia] ka] na]|]|] eqn:E1; cbn [obind]; try discriminate. intros [= <- <- _ <-].
  destruct (li2 fuel r2 v (S (S (S k2)))) as [[[[[[Lb Tb] ib] kb] nb]|]|] eqn:E2; cbn [obind]; try discriminate. intros [= <- <- _ <-].
  destruct (REL r2 v _ _ (S (S (S k))) _ _ _ _ _ _ _ _ _ _ E1 E2) as (-> & -> & -> & -> & Lc & kc & E3 & HQ). rewrite E3. cbn [obind].
  split; [reflexivity|]. split; [reflexivity|]. do 2 eexists. split; [reflexivity|]. destruct tr; apply QL; assumption.
Qed.
Lemma whole_related fuel : related fuel.
Proof.
  induction fuel as [|fuel IH]; intros r i k1 k2 k L1 T1 i1 k1' n1 L2 T2 i2 k2' n2; cbn [renderer_li]; [discriminate|].
  destruct (negb _); [discriminate|].
  change (hit e1 r) with (hit e r). change (hit e2 r) with (hit e r). change (hit e3 r) with (hit e r). destruct (hit e r) as [r1 h] eqn:EH.
  change (vol e1) with (vol e). change (vol e2) with (vol e). change (vol e3) with (vol e). rewrite NV. destruct h as [v|].
  2:{ cbn [obind]. intros [= <- <- <- _ <-] [= <- <- <- _ <-]. repeat (split; [reflexivity|]). do 2 eexists. split; [reflexivity|apply HBg]. }
  unfold surf_li. change (v_bsdf e1 v r1) with (v_bsdf e v r1). change (v_bsdf e2 v r1) with (v_bsdf e v r1). change (v_bsdf e3 v r1) with (v_bsdf e v r1).
  destruct (v_bsdf e v r1) as [[p b]|] eqn:EB; cbn [obind]; [|discriminate]. pose proof (HB _ _ _ _ EB) as SB.
  change (b_dgs_nn e1 v r1) with (b_dgs_nn e v r1). change (b_dgs_nn e2 v r1) with (b_dgs_nn e v r1). change (b_dgs_nn e3 v r1) with (b_dgs_nn e v r1).
  destruct (whitted_local e1 u1 v r1 p _ _ b k1) as [[La ka]|] eqn:E1; cbn [obind]; [|discriminate].
  destruct (whitted_local e2 u2 v r1 p _ _ b k2) as [[Lb kb]|] eqn:E2; cbn [obind]; [|discriminate].
  destruct (HLoc _ _ _ _ _ _ _ _ k _ _ _ _ E1 E2) as (Lc & kc & E3 & HQ). rewrite E3.
  pose proof (QA _ _ _ _ _ _ (HLe r r1 v (vneg (rdir r1)) EH) HQ) as HQ1.
  change (v_le e1 v) with (le1 v). change (v_le e2 v) with (le2 v). change (v_le e3 v) with (le v).
  destruct (_ <? md)%Z.
  2:{ cbn [obind]. intros [= <- <- <- _ <-] [= <- <- <- _ <-]. repeat (split; [reflexivity|]). do 2 eexists. split; [reflexivity|exact HQ1]. }
  destruct (specular e1 u1 _ false _ _ _ _ _ ka) as [[[[[Ra va] k2a] c1a]|]|] eqn:F1; cbn [obind]; try discriminate.
  destruct (specular e2 u2 _ false _ _ _ _ _ kb) as [[[[[Rb0 vb] k2b] c1b]|]|] eqn:F2; cbn [obind]; try discriminate; try (intros; discriminate).
  destruct (specular_related fuel IH false r1 b p _ v _ _ kc _ _ _ _ _ _ _ _ SB F1 F2) as (-> & -> & Rc & k2c & F3 & HQ2). rewrite F3. cbn [obind].
  destruct (specular e1 u1 _ true _ _ _ _ _ k2a) as [[[[[Ta va'] k3a] c2a]|]|] eqn:G1; cbn [obind]; try discriminate.
  destruct (specular e2 u2 _ true _ _ _ _ _ k2b) as [[[[[Tb vb'] k3b] c2b]|]|] eqn:G2; cbn [obind]; try discriminate; try (intros; discriminate).
  destruct (specular_related fuel IH true r1 b p _ va _ _ k2c _ _ _ _ _ _ _ _ SB G1 G2) as (-> & -> & Tc & k3c & G3 & HQ3). rewrite G3. cbn [obind].
  intros [= <- <- <- _ <-] [= <- <- <- _ <-]. repeat (split; [reflexivity|]). do 2 eexists. split; [reflexivity|].
  apply QA; [apply QA|]; assumption.
Qed.
End Whole.

(** ** The two uses *)
Lemma sum_app {V} (e : env V) le ls r : sum_le (lit_with e ls le) r (spec 1) (spec 0) = fold_right (fun l acc => vadd (lt_le l r) acc) vzero ls.
Proof.
  unfold sum_le. cbn [lit_with lights].
  assert (G : forall A, fold_left (fun acc l => vadd acc (smul (spec 1) (lt_le l r))) ls A = vadd A (fold_right (fun l acc => vadd (lt_le l r) acc) vzero ls)).
  { induction ls as [|l ls IH]; intros A; cbn [fold_left fold_right]; [now rewrite va_0|]. rewrite IH, <- va_assoc. do 2 f_equal.
    unfold smul, vmap2, spec. apply V3_eq; cbn; ring. }
  rewrite G. apply va_0l.
Qed.
Lemma fr_app (f : light -> vec) l1 l2 : fold_right (fun l acc => vadd (f l) acc) vzero (l1 ++ l2) =
  vadd (fold_right (fun l acc => vadd (f l) acc) vzero l1) (fold_right (fun l acc => vadd (f l) acc) vzero l2).
Proof. induction l1 as [|l l1 IH]; cbn [app fold_right]; [now rewrite va_0l|]. now rewrite IH, va_assoc. Qed.
Lemma fr_perm (f : light -> vec) l1 l2 : Permutation l1 l2 -> fold_right (fun l acc => vadd (f l) acc) vzero l1 = fold_right (fun l acc => vadd (f l) acc) vzero l2.
Proof.
  induction 1 as [|l l1 l2 P IH|l m l1|l1 l2 l3 P1 IH1 P2 IH2]; cbn [fold_right]; [reflexivity|now rewrite IH| |congruence].
  now rewrite !va_assoc, (va_comm (f m) (f l)).
Qed.
Lemma local_ones {V} (e : env V) ls le u v r p n wo b k : vol e = None -> (forall l, In l ls -> steady_light l) ->
  whitted_local (lit_with e ls le) u v r p n wo b k =
  (do Sm <- ones e p n wo (v_eps e v) (rtm r) b ls; Ok (Sm, (k + 3 * length ls)%nat)).
Proof.
  intros NV HS. unfold whitted_local. cbn [lit_with lights v_eps].
  rewrite (lights_ones (lit_with e ls le) p n wo (v_eps e v) (rtm r) b NV u ls HS). change (ones (lit_with e ls le)) with (ones e).
  destruct (ones e _ _ _ _ _ _ ls); cbn [bind]; [|reflexivity]. change (spec 0) with vzero. now rewrite va_0l.
Qed.

Section Uses.
Context {V : Type} (e : env V) (md : Z) (time : R).
Hypothesis NV : vol e = None.
Hypothesis HB : steady_surfaces e.
Lemma superposition ls1 ls2 le1 le2 le u1 u2 u fuel r i k1 k2 k L1 T1 i1 k1' n1 L2 T2 i2 k2' n2 :
  (forall r r' v w, hit e r = (r', Some v) -> le v w = vadd (le1 v w) (le2 v w)) ->
  (forall l, In l (ls1 ++ ls2) -> steady_light l) -> steady_stream u1 -> steady_stream u2 -> steady_stream u ->
  let e1 := lit_with e ls1 le1 in let e2 := lit_with e ls2 le2 in
  let e12 := lit_with e (ls1 ++ ls2) le in
  renderer_li e1 u1 md time (whitted_local e1 u1) fuel r i k1 = Some (Ok (L1, T1, i1, k1', n1)) ->
  renderer_li e2 u2 md time (whitted_local e2 u2) fuel r i k2 = Some (Ok (L2, T2, i2, k2', n2)) ->
  exists T i' k' n, renderer_li e12 u md time (whitted_local e12 u) fuel r i k = Some (Ok (vadd L1 L2, T, i', k', n)).
Proof.
  intros HLe HS U1 U2 U e1 e2 e12 H1 H2.
  assert (HS1 : forall l, In l ls1 -> steady_light l) by (intros; apply HS, in_or_app; auto).
  assert (HS2 : forall l, In l ls2 -> steady_light l) by (intros; apply HS, in_or_app; auto).
  assert (QA : forall a b c a' b' c', c = vadd a b -> c' = vadd a' b' -> vadd c c' = vadd (vadd a a') (vadd b b')).
  { intros a b c a' b' c' -> ->. unfold vadd, vmap2. apply V3_eq; cbn; ring. }
  assert (QL : forall f s d a b c, c = vadd a b -> sdiv (vscale s (smul f c)) d = vadd (sdiv (vscale s (smul f a)) d) (sdiv (vscale s (smul f b)) d)).
  { intros f s d a b c ->. unfold vadd, sdiv, vscale, smul, vmap2, vmap. apply V3_eq; cbn; unfold Rdiv; ring. }
  assert (W : related e (fun a b c => c = vadd a b) ls1 ls2 (ls1 ++ ls2) le1 le2 le u1 u2 u md time fuel).
  { apply whole_related; try assumption.
    - now rewrite va_0.
    - intros r0. rewrite !sum_app. apply fr_app.
    - intros v r0 p n wo b j1 j2 j x y j1' j2'. rewrite !local_ones by assumption.
      destruct (ones e _ _ _ _ _ _ ls1) as [x'|] eqn:O1; cbn [bind]; [|discriminate]. intros [= <- _].
      destruct (ones e _ _ _ _ _ _ ls2) as [y'|] eqn:O2; cbn [bind]; [|discriminate]. intros [= <- _].
      rewrite (ones_app e _ _ _ _ _ _ _ _ _ _ O1 O2). cbn [bind]. eauto. }
  destruct (W _ _ _ _ k _ _ _ _ _ _ _ _ _ _ H1 H2) as (_ & _ & _ & _ & L & k' & E & ->).
  do 4 eexists. exact E.
Qed.
Lemma any_order ls ls' le u u' fuel r i k k0 L T i1 k1' n1 : Permutation ls ls' ->
  (forall l, In l ls -> steady_light l) -> steady_stream u -> steady_stream u' ->
  let e1 := lit_with e ls le in let e2 := lit_with e ls' le in
  renderer_li e1 u md time (whitted_local e1 u) fuel r i k = Some (Ok (L, T, i1, k1', n1)) ->
  exists k', renderer_li e2 u' md time (whitted_local e2 u') fuel r i k0 = Some (Ok (L, T, i1, k', n1)).
Proof.
  intros P HS U U' e1 e2 H1.
  assert (HS' : forall l, In l ls' -> steady_light l) by (intros l Hl; apply HS; now apply (Permutation_in l (Permutation_sym P))).
  assert (QA : forall a b c a' b' c' : vec, c = a -> c' = a' -> vadd c c' = vadd a a') by (intros; congruence).
  assert (W : related e (fun a b c => c = a) ls ls ls' le le le u u u' md time fuel).
  { apply whole_related; try assumption.
    - intros; congruence.
    - reflexivity.
    - reflexivity.
    - intros r0. rewrite !sum_app. symmetry. now apply fr_perm.
    - intros v r0 p n wo b j1 j2 j x y j1' j2'. rewrite !local_ones by assumption.
      destruct (ones e _ _ _ _ _ _ ls) as [x'|] eqn:O1; cbn [bind]; [|discriminate]. intros [= <- _] _.
      rewrite (ones_perm e _ _ _ _ _ _ _ _ P _ O1). cbn [bind]. eauto. }
  destruct (W _ _ _ _ k0 _ _ _ _ _ _ _ _ _ _ H1 H1) as (-> & _ & _ & _ & L' & k' & E & ->).
  eexists. exact E.
Qed.
End Uses.

(** ** Materials *)
From Verif Require Import M_Shapes M_Material.
Definition mirror_like (b : bdf) : Prop := match b with SpecularReflection _ _ | SpecularTransmission _ _ _ => True | _ => False end.
Definition few (l : list bdf) : Prop := l = [] \/ exists b, l = [b] /\ mirror_like b.
Definition R_ : Z := Z.lor REFLECTION SPECULAR.
Definition T_ : Z := Z.lor TRANSMISSION SPECULAR.
Lemma count_filter l fl : forall n, count_matching l fl n = (n + length (filter (fun b => match_flag b fl) l))%nat.
Proof. induction l as [|b l IH]; intros n; cbn [count_matching filter]; [cbn; lia|]. rewrite IH. destruct (match_flag b fl); cbn [length]; lia. Qed.
Lemma pick_filter l fl : pick l fl 0 = hd_error (filter (fun b => match_flag b fl) l).
Proof. induction l as [|b l IH]; cbn [pick filter]; [reflexivity|]. destruct (match_flag b fl); [reflexivity|exact IH]. Qed.
Lemma floor_unit x : in_unit x -> pick_index x 1 = 0%Z.
Proof.
  intros [A B]. unfold pick_index. cbn [INR Z.of_nat]. replace (x * 1) with x by ring.
  replace (Zfloor x) with 0%Z; [reflexivity|]. unfold Zfloor. symmetry. 
  pose proof (base_Int_part x) as [C D].
  assert (IZR (Int_part x) < 1) by lra. assert (-1 < IZR (Int_part x)) by lra. apply lt_IZR in H. apply lt_IZR in H0. lia.
Qed.
Lemma few_steady b : few (filter (fun x => match_flag x R_) (bs_bdfs b)) -> few (filter (fun x => match_flag x T_) (bs_bdfs b)) -> steady_bsdf b.
Proof.
  intros HR HT fl wo x y z x' y' z' HF _ _ Z1 _ _ Z2.
  assert (HX : few (filter (fun x => match_flag x fl) (bs_bdfs b))) by (destruct HF as [-> | ->]; assumption).
  unfold bsdf_sample, n_components. rewrite !count_filter. cbn [Nat.add].
  destruct HX as [HX|(q & HX & MQ)]; rewrite HX; cbn [length Nat.eqb]; [reflexivity|].
  rewrite !floor_unit by assumption. rewrite !pick_filter, HX. cbn [hd_error]. destruct q; try contradiction; reflexivity.
Qed.
Ltac few_tac := first [left; reflexivity | right; eexists; split; [reflexivity|exact Logic.I]].
Lemma sblack_0 o : sblack (smul o (sclip (spec 0))) = true.
Proof.
  unfold sblack, smul, sclip, vmap2, vmap, spec. cbn. rewrite (Rmax_right 0 0) by lra. rewrite !Rmult_0_r.
  assert (H : 0 < EPS) by (unfold EPS; lra). unfold Rltb. destruct (Rlt_dec 0 EPS); [reflexivity|contradiction].
Qed.
Lemma white_1 : is_white (sclip (spec 1)) = true.
Proof.
  unfold is_white, sclip, vmap, spec. cbn. rewrite (Rmax_left 1 0) by lra. unfold Reqb. destruct (Req_EM_T 1 1); [reflexivity|contradiction].
Qed.
Lemma steady_uber op kd ks kr kt rough e g ng b : kt = spec 0 \/ op = spec 1 ->
  uber_lobes (sclip op) kd ks kr kt rough e (bsdf_make g ng) = Ok b -> steady_bsdf b.
Proof.
  intros OT. unfold uber_lobes, uber_glossy.
  assert (H : sblack (smul (sclip op) (sclip kt)) = true \/ is_white (sclip op) = true).
  { destruct OT as [-> | ->]; [left; apply sblack_0|right; apply white_1]. }
  destruct (sblack (smul _ (sclip ks))); [|destruct (blinn_of _) as [d|]]; cbn [bind]; [| |discriminate]; intros [= <-];
    destruct H as [H|H]; rewrite H; clear H; repeat destruct (sblack _); repeat destruct (is_white _); apply few_steady; few_tac.
Qed.
Lemma steady_material m flip dg dgs b : one_transmission m -> get_bsdf m flip dg dgs = Ok b -> steady_bsdf b.
Proof.
  destruct m; cbn [one_transmission get_bsdf]; intros OT.
  7:{ destruct (get_bsdf m1 _ _ _) as [b1|]; cbn [bind]; [|discriminate]. destruct (get_bsdf m2 _ _ _) as [b2|]; cbn [bind]; [|discriminate].
      destruct (bs_bdfs b1) eqn:E1; [|discriminate]. destruct (bs_bdfs b2); [|discriminate]. intros [= <-].
      apply few_steady; rewrite E1; left; reflexivity. }
  all: destruct (shading _ _ _ _) as [g|]; cbn [bind]; [|discriminate].
  - intros [= <-]. unfold oren_nayar. destruct (Reqb _ 0); apply few_steady; few_tac.
  - destruct (blinn_of _) as [d|]; cbn [bind]; [|discriminate]. intros [= <-]. apply few_steady; few_tac.
  - intros [= <-]. destruct (sblack _); apply few_steady; few_tac.
  - destruct (blinn_of _) as [d|]; cbn [bind]; [|discriminate]. intros [= <-]. apply few_steady; few_tac.
  - intros [= <-]. destruct (sblack _), (sblack _); apply few_steady; few_tac.
  - apply steady_uber. destruct OT as [OT|OT]; [left|right]; apply OT.
  - discriminate.
  - intros [= <-]. destruct (M_Utility.is_black _); apply few_steady; few_tac.
Qed.
