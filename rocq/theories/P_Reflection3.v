From Coq Require Import Reals Lra Lia List ZArith Bool Psatz.
From Verif Require Import Base M_Geometry S_Geometry P_Geometry M_Transform M_MonteCarlo S_MonteCarlo P_MonteCarlo
  M_Film M_Shapes P_Normals M_Reflection S_Reflection P_Reflection P_Reciprocity P_Fresnel P_LobeSampling P_Reflection2.
Import ListNotations.
Open Scope R_scope.

(** ** IrIsotropicBRDF *)
Lemma brdf_remap_sym wo wi : brdf_remap wo wi = brdf_remap wi wo.
Proof.
  unfold brdf_remap. pose proof (spherical_phi_range wo) as [A1 A2]. pose proof (spherical_phi_range wi) as [B1 B2].
  set (a := spherical_phi wo) in *. set (b := spherical_phi wi) in *. cbv zeta.
  assert (D : (let d0 := b - a in let d1 := if Rltb d0 0 then d0 + 2 * PI else d0 in
     let d2 := if Rltb (2 * PI) d1 then d1 - 2 * PI else d1 in if Rltb PI d2 then 2 * PI - d2 else d2) =
    (let d0 := a - b in let d1 := if Rltb d0 0 then d0 + 2 * PI else d0 in
     let d2 := if Rltb (2 * PI) d1 then d1 - 2 * PI else d1 in if Rltb PI d2 then 2 * PI - d2 else d2)).
  { cbv zeta. pose proof PI_RGT_0. Rcase; lra. }
  cbv zeta in D. rewrite D. f_equal; ring.
Qed.
Lemma brdf_remap_range wo wi : unit wo -> unit wi ->
  0 <= vx (brdf_remap wo wi) <= 1 /\ 0 <= vy (brdf_remap wo wi) <= 1 /\ -1 <= vz (brdf_remap wo wi) <= 1.
Proof.
  intros A B. unfold brdf_remap. pose proof (spherical_phi_range wo) as [A1 A2]. pose proof (spherical_phi_range wi) as [B1 B2].
  set (a := spherical_phi wo) in *. set (b := spherical_phi wi) in *. cbv zeta. cbn [vx vy vz]. pose proof PI_RGT_0 as P.
  assert (S : forall w, 0 <= sin_theta w <= 1).
  { intros w. split; [apply sqrt_pos|]. unfold sin_theta. replace 1 with (sqrt 1) at 2 by apply sqrt_1.
    apply sqrt_le_1_alt. unfold pmax. destruct (Rltb _ _); nra. }
  assert (C : forall w, unit w -> -1 <= vz w <= 1) by (intros w U; unfold unit in U; split; nra).
  split; [|split].
  - pose proof (S wo); pose proof (S wi). nra.
  - match goal with |- 0 <= ?d * _ <= 1 => assert (X : 0 <= d <= PI); [|set (dd := d) in *; clearbody dd] end.
    { Rcase; lra. }
    replace (dd * (1 / PI)) with (dd / PI) by (field; lra). apply frac_unit; lra.
  - unfold cos_theta. pose proof (C wo A). pose proof (C wi B). split; nra.
Qed.

Lemma ir_loop_ends query data m : forall n d k, 3/2 < d * (1414/1000) ^ n ->
  exists r q, ir_loop query data m d (S n) k = Some (r, q) /\ (q <= k + S n)%nat.
Proof.
  induction n as [|n IH]; intros d k H.
  - cbn [ir_loop]. cbn [pow] in H. rewrite Rmult_1_r in H.
    replace (Rltb (3/2) d) with true by (symmetry; now apply Rltb_true). rewrite orb_true_r.
    eexists; eexists. split; [reflexivity|]. lia.
  - assert (H' : 3/2 < d * (1414/1000) * (1414/1000) ^ n) by (rewrite Rmult_assoc; exact H).
    destruct (IH (d * (1414/1000)) (S k) H') as (r & q & Q & L).
    change (exists r0 q0, ir_loop query data m d (S (S n)) k = Some (r0, q0) /\ (q0 <= k + S (S n))%nat).
    remember (S n) as f. cbn [ir_loop]. destruct ((2 <? length (query m d))%nat || Rltb (3/2) d).
    + eexists; eexists. split; [reflexivity|]. lia.
    + exists r, q. split; [exact Q|]. lia.
Qed.
Lemma ir_ends query data wo wi : exists r q, ir_f query data wo wi 16 = Some (r, q) /\ (q <= 16)%nat.
Proof.
  unfold ir_f. destruct (ir_loop_ends query data (brdf_remap wo wi) 15 (1/100) 0) as (r & q & Q & L).
  - simpl pow. lra.
  - exists r, q. split; [exact Q|]. lia.
Qed.
(** the weighted average stays in the hull of the samples *)
Definition ir_step (data : list (vec * vec)) (m : vec) :=
  fun (a : res (R * vec)) i =>
          do s <- a;
          do smp <- nth_res data i;
          let wt := exp (sq_length (vsub (fst smp) m) * -100) in
          Ok (fst s + wt, vadd (snd s) (vscale wt (snd smp))).
Lemma fold_err data m e idx : fold_left (ir_step data m) idx (Err e) = Err e.
Proof. induction idx; cbn; auto. Qed.
Lemma ir_sum data m lo hi : Forall (fun s => within lo hi (snd s)) data ->
  forall idx w v w' v', 0 <= w -> within (vscale w lo) (vscale w hi) v ->
  fold_left (ir_step data m) idx (Ok (w, v)) = Ok (w', v') ->
  w <= w' /\ (idx <> [] -> 0 < w') /\ within (vscale w' lo) (vscale w' hi) v'.
Proof.
  intros F. induction idx as [|i idx IH]; intros w v w' v' W V H; cbn [fold_left] in H.
  - assert (w = w' /\ v = v') as [<- <-] by (split; congruence). split; [lra|]. split; [congruence|exact V].
  - unfold ir_step at 2 in H. cbn [bind] in H. destruct (nth_res data i) as [smp|] eqn:Q; cbn [bind] in H.
    2:{ rewrite fold_err in H. discriminate. }
    set (wt := exp (sq_length (vsub (fst smp) m) * -100)) in *. cbn [fst snd] in H.
    assert (WT : 0 < wt) by apply exp_pos.
    assert (IN : within lo hi (snd smp)).
    { unfold nth_res in Q. destruct (nth_error data i) eqn:N; [|discriminate]. assert (p = smp) by congruence. subst p.
      apply nth_error_In in N. rewrite Forall_forall in F. now apply F. }
    cbv zeta in H. assert (W2 : 0 <= w + wt) by lra.
    assert (V2 : within (vscale (w + wt) lo) (vscale (w + wt) hi) (vadd v (vscale wt (snd smp)))).
    { clear H IH. clearbody wt. destruct IN as [(X1 & X2 & X3) (Y1 & Y2 & Y3)].
      clear W2. destruct V as [(V1 & V2 & V3) (W1 & W2 & W3)]. unfold within, spec_le, vscale, vadd, vmap2, vmap in *; cbn [vx vy vz] in *.
      repeat split; nra. }
    destruct (IH _ _ _ _ W2 V2 H) as (A & B & C).
    split; [lra|]. split; [lra|exact C].
Qed.
Lemma ir_hull_loop query data m lo hi v q : Forall (fun s => within lo hi (snd s)) data -> spec_ge0 lo ->
  forall fuel d k, ir_loop query data m d fuel k = Some (Ok (Some v), q) -> within lo hi v.
Proof.
  intros F L. induction fuel as [|fuel IH]; intros d k H; cbn [ir_loop] in H; [discriminate|].
  destruct ((2 <? length (query m d))%nat || Rltb (3/2) d); [|now apply (IH _ _ H)].
  change (fold_left _ (query m d) (Ok (0, spec 0))) with (fold_left (ir_step data m) (query m d) (Ok (0, spec 0))) in H.
  destruct (fold_left (ir_step data m) (query m d) (Ok (0, spec 0))) as [[w s]|] eqn:Q; cbn [bind fst snd] in H; [|discriminate].
  destruct (Reqb w 0) eqn:C; [discriminate|]. Rb.
  assert (VQ : v = sdiv (vmap (fun x => Rmax x 0) s) w) by congruence.
  assert (V0 : within (vscale 0 lo) (vscale 0 hi) (spec 0)).
  { unfold within, spec_le, vscale, vmap, spec; cbn [vx vy vz]. repeat split; lra. }
  destruct (ir_sum data m lo hi F _ _ _ _ _ (Rle_refl 0) V0 Q) as (A & _ & B).
  - assert (W : 0 < w) by lra. subst v. destruct B as [(B1 & B2 & B3) (C1 & C2 & C3)]. destruct L as (L1 & L2 & L3).
    unfold within, spec_le, vscale, sdiv, vmap in *; cbn [vx vy vz] in *.
    assert (K : forall a b x, w * a <= x -> x <= w * b -> 0 <= a -> a <= Rmax x 0 / w <= b).
    { intros a b x X1 X2 X3. assert (0 <= x) by (apply Rle_trans with (w * a); [apply Rmult_le_pos; lra|lra]).
      rewrite Rmax_left by lra. split; apply (Rmult_le_reg_r w); try exact W; unfold Rdiv; rewrite ?Rmult_assoc, Rinv_l by lra; lra. }
    destruct (K _ _ _ B1 C1 L1), (K _ _ _ B2 C2 L2), (K _ _ _ B3 C3 L3). repeat split; assumption.
Qed.

Lemma ir_hull query data wo wi lo hi v q : Forall (fun s => within lo hi (snd s)) data -> spec_ge0 lo ->
  ir_f query data wo wi 16 = Some (Ok (Some v), q) -> within lo hi v.
Proof. intros F L H. exact (ir_hull_loop _ _ _ _ _ _ _ F L _ _ _ H). Qed.

(** ** BSDF.sample_f *)
Lemma w2l_l2w_axes s v : world_axes s -> w2l s (l2w s v) = v.
Proof.
  intros ((e1 & V1 & W1) & (e2 & V2 & W2) & (e3 & V3 & W3)). unfold l2w, w2l. rewrite W1, W2, W3. vc.
  destruct v as [x y z]; cbn. destruct V1, V2, V3; subst; apply V3_eq; cbn; ring.
Qed.
Lemma n_components_spec s flags : n_components s flags = length (filter (fun b => match_flag b flags) (bs_bdfs s)).
Proof. unfold n_components. now rewrite count_matching_spec. Qed.
Lemma bsdf_sample_lobe s wo u0 u1 uc flags : 0 <= uc -> (0 < n_components s flags)%nat ->
  exists b, In b (bs_bdfs s) /\ subset_bits (bdf_type b) flags /\
    nth_error (filter (fun b => match_flag b flags) (bs_bdfs s)) (Z.to_nat (pick_index uc (n_components s flags))) = Some b /\
    match bdf_sample b (w2l s wo) u0 u1 with
    | Err e => bsdf_sample s wo u0 u1 uc flags = Err e
    | Ok (pdf, o) =>
        (pdf = 0 -> bsdf_sample s wo u0 u1 uc flags = Ok (mkSmp 0 None (Some (bdf_type b)) (spec 0))) /\
        (pdf <> 0 -> forall wi f, o = Some (wi, f) -> bsdf_sample s wo u0 u1 uc flags =
           Ok (mkSmp (pdf / INR (n_components s flags)) (Some (l2w s wi)) (Some (bdf_type b)) f))
    end.
Proof.
  intros H N. pose proof N as N'. rewrite n_components_spec in N'.
  destruct (pick_some (bs_bdfs s) flags uc H N') as (b & P & Q & I0 & S). rewrite <- n_components_spec in P, Q.
  exists b. split; [exact I0|]. split; [exact S|]. split; [exact Q|].
  unfold bsdf_sample. cbv zeta. destruct (n_components s flags =? 0)%nat eqn:Z0; [apply Nat.eqb_eq in Z0; lia|].
  rewrite P. destruct (bdf_sample b (w2l s wo) u0 u1) as [[pdf o]|e]; cbn [bind]; auto.
  split; [intros ->; replace (Reqb 0 0) with true by (symmetry; now apply Reqb_true); reflexivity|].
  intros NZ wi f ->. replace (Reqb pdf 0) with false by (symmetry; now apply Reqb_false).
  do 2 f_equal. destruct (1 <? n_components s flags)%nat eqn:L; [reflexivity|].
  apply Nat.ltb_ge in L. replace (n_components s flags) with 1%nat by lia. cbn. field.
Qed.
Lemma single_lobe_agrees s b wo u0 u1 uc flags : world_axes s -> bs_ok s ->
  filter (fun b => match_flag b flags) (bs_bdfs s) = [b] -> plain b -> lobe_ok b -> unit wo ->
  0 <= u0 <= 1 -> 0 <= u1 <= 1 -> 0 <= uc ->
  exists r, bsdf_sample s wo u0 u1 uc flags = Ok r /\
    forall wi, sm_wi r = Some wi -> 0 < vz (w2l s wo) * vz (w2l s wi) ->
      sm_pdf r = bsdf_pdf s wo wi flags /\ bdf_f b (w2l s wo) (w2l s wi) = Ok (sm_f r).
Proof.
  intros WA OK F P L U H0 H1 HC.
  assert (N : n_components s flags = 1%nat) by (rewrite n_components_spec, F; reflexivity).
  destruct (plain_sample_main b (w2l s wo) u0 u1 P L (w2l_unit s wo OK U) H0 H1) as (pdf & wi & f & S & Uw & P0 & A & B).
  unfold bsdf_sample. rewrite N. cbn [Nat.eqb]. rewrite pick_spec.
  2:{ apply (pick_index_range uc 1 HC). lia. }
  rewrite F. assert (PI0 : pick_index uc 1 = 0%Z).
  { destruct (pick_index_range uc 1 HC ltac:(lia)) as [R _]. lia. }
  rewrite PI0. cbn [Z.to_nat nth_error]. rewrite S. cbn [bind].
  destruct (Reqb pdf 0) eqn:C; Rb.
  - eexists. split; [reflexivity|]. cbn [sm_wi]. discriminate.
  - eexists. split; [reflexivity|]. cbn [sm_wi sm_pdf sm_f]. intros w W Z0.
    assert (w = l2w s wi) by congruence. subst w. rewrite w2l_l2w_axes in * by exact WA.
    destruct (A Z0 C) as [A1 A2]. split; [|exact A2]. unfold bsdf_pdf.
    destruct (bs_bdfs s) as [|b0 l] eqn:EL; [cbn in F; discriminate|]. rewrite <- EL in *. rewrite N. cbv zeta.
    rewrite sum_pdf_spec, F. rewrite w2l_l2w_axes by exact WA. unfold sumR; cbn [map fold_right]. rewrite <- A1.
    change (1 <? 1)%nat with false. change (0 <? 1)%nat with true. cbv iota. cbn [INR]. field.
Qed.
(** two identical Lambertian lobes: the returned density and value are half of the true ones *)
Lemma two_lobes_wrong : exists s wo wi u0 u1 uc smp,
  bs_ok s /\ world_axes s /\ unit wo /\ bsdf_sample s wo u0 u1 uc ALL = Ok smp /\ sm_wi smp = Some wi /\
  sm_pdf smp <> bsdf_pdf s wo wi ALL /\ bsdf_f s wo wi ALL <> Ok (sm_f smp).
Proof.
  set (L := Lambertian (spec 1)).
  set (s := mkBSDF (mkV 0 0 1) (mkV 1 0 0) (mkV 0 1 0) (mkV 0 0 1) [L; L]).
  assert (OK : bs_ok s).
  { unfold bs_ok; cbn. split; [vc; lra|]. split; [vc; lra|]. split; [vc; lra|]. apply V3_eq; vc; lra. }
  assert (WA : world_axes s).
  { unfold world_axes; cbn. repeat split; exists 1; auto. }
  assert (U : unit (mkV 0 0 1)) by (vc; lra).
  assert (N : n_components s ALL = 2%nat) by reflexivity.
  destruct (bsdf_sample_lobe s (mkV 0 0 1) 0 0 0 ALL ltac:(lra) ltac:(rewrite N; lia)) as (b & I0 & _ & _ & S).
  assert (b = L) by (destruct I0 as [<-|[<-|[]]]; reflexivity). subst b.
  assert (WL : w2l s (mkV 0 0 1) = mkV 0 0 1) by (unfold w2l; cbn; apply V3_eq; vc; lra).
  rewrite WL in S. destruct (lambert_estimate (spec 1) (mkV 0 0 1) 0 0 ltac:(cbn; lra) ltac:(lra) ltac:(lra)) as (pdf & wi & f & S1 & Pp & E1).
  fold L in S1. rewrite S1 in S. pose proof (proj2 S ltac:(lra) wi f eq_refl) as S'. clear S. rename S' into S. rewrite N in S.
  destruct (plain_sample_main L (mkV 0 0 1) 0 0 Logic.I Logic.I U ltac:(lra) ltac:(lra)) as (pdf' & wi' & f' & S1' & Uw & P0 & A & B).
  rewrite S1 in S1'. assert (pdf' = pdf /\ wi' = wi /\ f' = f) as (-> & -> & ->) by (split; [|split]; congruence).
  assert (Z0 : 0 < vz (mkV 0 0 1) * vz wi).
  { destruct (Rle_dec (vz (mkV 0 0 1) * vz wi) 0) as [Q|Q]; [|lra]. destruct (B Q) as [Q1|Q1]; [lra|].
    exfalso. subst f. unfold sdiv, vscale, vmap, spec in E1; cbn [vx vy vz] in E1. injection E1 as Q2 _ _.
    unfold Rdiv in Q2. rewrite Rmult_0_r, Rmult_0_l in Q2. lra. }
  destruct (A Z0 ltac:(lra)) as [A1 A2].
  exists s, (mkV 0 0 1), (l2w s wi), 0, 0, 0. eexists.
  split; [exact OK|]. split; [exact WA|]. split; [exact U|]. split; [exact S|]. split; [reflexivity|]. cbn [sm_pdf sm_f].
  split.
  - unfold bsdf_pdf. cbn [bs_bdfs s]. change (bs_bdfs s) with [L; L]. cbv iota. rewrite N. cbn [Nat.ltb Nat.leb].
    change (Nat.ltb 0 2) with true. cbv iota zeta. rewrite sum_pdf_spec.
    change (filter (fun b => match_flag b ALL) [L; L]) with [L; L]. cbn [map]. unfold sumR; cbn [fold_right].
    rewrite w2l_l2w_axes by exact WA. rewrite WL. rewrite <- A1. cbn [INR]. lra.
  - unfold bsdf_f. rewrite sum_f_spec. cbn [bs_bdfs s]. change (bs_bdfs s) with [L; L].
    assert (SF : side_flags s (mkV 0 0 1) (l2w s wi) ALL = 29%Z).
    { unfold side_flags. replace (Rltb _ _) with true; [reflexivity|]. symmetry. apply Rltb_true.
      unfold l2w; cbn. vc. cbn [vx vy vz] in Z0. lra. }
    rewrite SF. change (filter (fun b => match_flag b 29) [L; L]) with [L; L]. cbn [map].
    rewrite w2l_l2w_axes by exact WA. rewrite WL, A2. cbn [sum_res].
    assert (FF : f = vscale (1 / PI) (spec 1)) by (cbn [bdf_f L] in A2; unfold L in A2; cbn [bdf_f] in A2; congruence).
    subst f. intros Q. assert (Q2 : vx (vadd (spec 0) (vadd (vscale (1 / PI) (spec 1)) (vadd (vscale (1 / PI) (spec 1)) vzero))) = vx (vscale (1 / PI) (spec 1))) by congruence.
    unfold vscale, vadd, vmap2, vmap, spec, vzero in Q2; cbn [vx] in Q2. pose proof PI_RGT_0 as P.
    assert (0 < 1 / PI) by (apply Rdiv_lt_0_compat; lra). lra.
Qed.

(** ** Adapters *)
Lemma b2t_pdf_zero r wo u1 u2 : unit wo -> vz wo <> 0 -> 0 <= u1 <= 1 -> u1 <> 1/2 ->
  exists pdf wi f, bdf_sample (BRDF2BTDF (Lambertian r)) wo u1 u2 = Ok (pdf, Some (wi, f)) /\
    0 < pdf /\ bdf_pdf (BRDF2BTDF (Lambertian r)) wo wi = 0.
Proof.
  intros U Z0 H N. destruct (lambert_estimate r wo u1 u2 Z0 H N) as (pdf & wi & f & S & P & _).
  assert (SI : 0 <= vz wo * vz wi).
  { destruct (cosine_side_spec wo u1 u2 H) as (_ & Q & _). cbn [bdf_sample] in S. unfold base_sample in S.
    cbn [bdf_f bind] in S. assert (wi = cosine_side wo u1 u2) by congruence. subst wi. exact Q. }
  exists pdf, (switch wi), f. split; [|split; [exact P|]].
  - change (bdf_sample (BRDF2BTDF (Lambertian r)) wo u1 u2) with
      (do s <- bdf_sample (Lambertian r) wo u1 u2; match snd s with Some (wi, f) => Ok (fst s, Some (switch wi, f)) | None => Err AttributeError end).
    rewrite S. reflexivity.
  - cbn [bdf_pdf]. unfold base_pdf, switch; cbn [vz].
    replace (Rltb 0 _) with false; [reflexivity|]. symmetry. apply Rltb_false. nra.
Qed.
Lemma scaled_fails b s wo wi u1 u2 : bdf_f (ScaledBDF b s) wo wi = Err AttributeError /\
  bdf_sample (ScaledBDF b s) wo u1 u2 = Err AttributeError.
Proof. split; reflexivity. Qed.
(** what the adapter does get right: sampled directions are the mirror images *)
Lemma b2t_sample b wo u1 u2 : plain b -> lobe_ok b -> unit wo -> 0 <= u1 <= 1 -> 0 <= u2 <= 1 ->
  exists pdf wi f, bdf_sample (BRDF2BTDF b) wo u1 u2 = Ok (pdf, Some (wi, f)) /\ unit wi /\ 0 <= pdf /\
    (vz wo * vz wi < 0 -> pdf <> 0 -> bdf_f (BRDF2BTDF b) wo wi = Ok f).
Proof.
  intros P L U H1 H2. destruct (plain_sample_main b wo u1 u2 P L U H1 H2) as (pdf & wi & f & S & Uw & P0 & A & B).
  exists pdf, (switch wi), f. split.
  - change (bdf_sample (BRDF2BTDF b) wo u1 u2) with
      (do s <- bdf_sample b wo u1 u2; match snd s with Some (wi, f) => Ok (fst s, Some (switch wi, f)) | None => Err AttributeError end).
    rewrite S. reflexivity.
  - split; [now apply switch_unit|]. split; [exact P0|]. intros Z0 N.
    change (bdf_f (BRDF2BTDF b) wo (switch wi)) with (bdf_f b wo (switch (switch wi))). rewrite switch_switch.
    apply A; [|exact N]. unfold switch in Z0; cbn [vz] in Z0. lra.
Qed.
