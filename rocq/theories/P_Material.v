From Coq Require Import String.
From Coq Require Import Reals Lra Lia List ZArith Bool.
From Verif Require Import Base M_Geometry S_Geometry P_Geometry M_Transform M_MonteCarlo M_Film M_Shapes M_Reflection S_Reflection
  P_Reflection P_Reflection2 P_Reflection3 P_LobeSampling P_Reciprocity P_Fresnel M_Material S_Material.
From Verif Require M_Utility.
Import ListNotations.
Open Scope R_scope.

Lemma sclip_pos s : sclip s = positive_part s.
Proof. unfold sclip, positive_part, vmap. rewrite !(Rmax_comm 0). reflexivity. Qed.
Lemma positive_ge0 s : spec_ge0 (positive_part s).
Proof. unfold spec_ge0, positive_part; cbn. repeat split; apply Rmax_l. Qed.
Lemma sblack_iff s : sblack s = true <-> nearly_black s.
Proof. unfold sblack, nearly_black. rewrite !andb_true_iff, !Rltb_true. tauto. Qed.
Lemma sblack_niff s : sblack s = false <-> ~ nearly_black s.
Proof. rewrite <- sblack_iff. destruct (sblack s); intuition congruence. Qed.
Lemma ublack_iff s : M_Utility.is_black (positive_part s) = true <-> nearly_black (positive_part s).
Proof.
  unfold M_Utility.is_black, nearly_black. rewrite !andb_true_iff, !Rltb_true.
  destruct (positive_ge0 s) as (A & B & C). rewrite !Rabs_pos_eq by assumption. tauto.
Qed.
Lemma at_hit_copy flip s : dg_copy flip s = at_hit flip s.
Proof.
  unfold dg_copy, dg_make, at_hit. f_equal. destruct flip; [reflexivity|].
  unfold vscale, vmap. destruct (normalize _). cbn. f_equal; ring.
Qed.
Lemma make_ok flip s ng : regular s -> bs_ok (bsdf_make (at_hit flip s) ng).
Proof. intros H. rewrite <- at_hit_copy. unfold dg_copy. now apply bsdf_make_ok. Qed.
Lemma blinn_pos r : 0 < r -> exists d, blinn_of r = Ok d /\ dist_ok d.
Proof.
  intros H. unfold blinn_of. replace (Reqb r 0) with false by (symmetry; apply Reqb_false; lra).
  eexists; split; [reflexivity|]. cbn. assert (0 < 1 / r) by (apply Rdiv_lt_0_compat; lra).
  unfold Rmin. destruct (Rle_dec _ _); lra.
Qed.
Lemma smul_ge0 a b : spec_ge0 a -> spec_ge0 b -> spec_ge0 (smul a b).
Proof. apply mul_ge0. Qed.

(** lobes a material may push: no adapters, no tables *)
Definition simple_lobe (b : bdf) : Prop :=
  match b with
  | Lambertian _ | OrenNayar _ _ _ | Microfacet _ _ _ | SpecularReflection _ _ | SpecularTransmission _ _ _ => True
  | _ => False end.
Lemma simple_total b wo wi : simple_lobe b -> exists f, bdf_f b wo wi = Ok f.
Proof. destruct b; cbn; intros H; try contradiction; eauto. Qed.
Lemma simple_ok b : simple_lobe b -> params_ok b -> lobe_ok b.
Proof. destruct b; cbn; tauto. Qed.

Definition good (ng : vec) (q : dgeom) (b : bsdf) : Prop :=
  bs_ok b /\ bs_ng b = ng /\ bs_nn b = dg_nn q /\ List.Forall simple_lobe (bs_bdfs b) /\ List.Forall params_ok (bs_bdfs b).
Lemma good_push ng q s b : good ng q s -> simple_lobe b -> params_ok b -> good ng q (push_back s b).
Proof.
  intros (A & B & C & D & E0) S P. unfold good. cbn [push_back bs_ng bs_nn bs_bdfs]. repeat split; auto.
  - exact (proj1 A). - apply A. - apply A. - apply A.
  - apply Forall_app; auto. - apply Forall_app; auto.
Qed.
Lemma good_make flip s ng : regular s -> good ng (at_hit flip s) (bsdf_make (at_hit flip s) ng).
Proof.
  intros H. unfold good. split; [now apply make_ok|]. cbn [bsdf_make bs_ng bs_nn bs_bdfs]. auto.
Qed.
Lemma opacity_compl op : vx op <= 1 -> vy op <= 1 -> vz op <= 1 -> spec_ge0 (vsub (spec 1) (positive_part op)).
Proof.
  intros A B C. unfold spec_ge0, vsub, spec, positive_part, vmap2; cbn. unfold Rmax.
  repeat destruct (Rle_dec _ _); lra.
Qed.
Lemma good_if ng q (c : bool) s b : good ng q s -> simple_lobe b -> params_ok b ->
  good ng q (if c then s else push_back s b).
Proof. intros; destruct c; auto. now apply good_push. Qed.

Lemma get_bsdf_good m flip g s : regular s -> sensible m (at_hit flip s) ->
  exists b, get_bsdf m flip g s = Ok b /\ good (dg_nn g) (at_hit flip s) b.
Proof.
  intros H M. pose proof (good_make flip s (dg_nn g) H) as G.
  destruct m as [kd sg bm|kd ks ro bm|kr bm|eta k ro bm|kr kt ix bm|kd ks kr kt ro op eta bm| | |kd kr mfp eta bm];
    cbn [sensible] in M; try contradiction; destruct bm; try contradiction; cbn [get_bsdf shading bind];
    rewrite ?at_hit_copy; set (q := at_hit flip s) in *; rewrite ?sclip_pos.
  - eexists; split; [reflexivity|]. destruct (Reqb _ _); apply good_push; auto; try exact I; cbn [params_ok].
    + apply positive_ge0. 
    + split; [apply positive_ge0|]. exists (clip (sg q) 0 90), (positive_part (kd q)). reflexivity.
  - destruct (blinn_pos _ M) as (d & D1 & D2). rewrite D1. cbn [bind]. eexists; split; [reflexivity|].
    apply good_push; [apply good_push; auto; try exact I; apply positive_ge0|exact I|].
    cbn [params_ok fresnel_ok]. split; [apply positive_ge0|]. split; [lra|exact D2].
  - eexists; split; [reflexivity|]. apply good_if; auto; try exact I. cbn. split; [apply positive_ge0|exact I].
  - destruct M as (M & E1 & E2 & E3). destruct (blinn_pos _ M) as (d & D1 & D2). rewrite D1. cbn [bind].
    eexists; split; [reflexivity|]. apply good_push; auto; try exact I. cbn [params_ok fresnel_ok]. split; [unfold spec_ge0, spec; cbn; lra|]. auto.
  - eexists; split; [reflexivity|]. apply good_if; [apply good_if; auto; try exact I|exact I|].
    + cbn. split; [apply positive_ge0|lra].
    + cbn. split; [apply positive_ge0|lra].
  - destruct M as (M & E1 & O1 & O2 & O3). destruct (blinn_pos _ M) as (d & D1 & D2).
    unfold uber_lobes, uber_glossy. rewrite ?sclip_pos, D1. cbv zeta. cbn [bind].
    set (op' := positive_part (op q)). assert (OP : spec_ge0 op') by apply positive_ge0.
    assert (OC : spec_ge0 (vsub (spec 1) op')) by (now apply opacity_compl).
    assert (X : forall t, spec_ge0 (smul op' (positive_part t))) by (intros; apply smul_ge0; [exact OP|apply positive_ge0]).
    set (s1 := if is_white op' then _ else _). assert (G1 : good (dg_nn g) q s1).
    { unfold s1. apply good_if; auto; try exact I. cbn. split; [exact OC|lra]. }
    set (s2 := if sblack _ then s1 else push_back s1 (Lambertian _)). assert (G2 : good (dg_nn g) q s2).
    { unfold s2. apply good_if; auto; try exact I. apply X. }
    assert (G3 : good (dg_nn g) q (if sblack (smul op' (positive_part (ks q))) then s2 else
      push_back s2 (Microfacet (smul op' (positive_part (ks q))) (FrDiel (eta q) 1) d))).
    { apply good_if; auto; try exact I. cbn [params_ok fresnel_ok]. split; [apply X|]. split; [lra|exact D2]. }
    destruct (sblack (smul op' (positive_part (ks q)))); cbn [bind]; (eexists; split; [reflexivity|]);
      (apply good_if; [apply good_if; [exact G3|exact I|]|exact I|]); cbn [params_ok fresnel_ok]; (split; [apply X|lra]).
  - eexists; split; [reflexivity|]. apply good_if; auto; try exact I. cbn. split; [apply positive_ge0|lra].
Qed.
Lemma sum_total l flags wo wi : List.Forall simple_lobe l -> forall acc, exists f, sum_f l flags wo wi acc = Ok f.
Proof.
  induction l as [|b l IH]; intros F acc; cbn [sum_f]; [eauto|]. inversion F; subst.
  destruct (match_flag b flags); [|auto]. destruct (simple_total b wo wi H1) as [f ->]. cbn [bind]. auto.
Qed.
Lemma sum_ge0 l flags wo wi : List.Forall simple_lobe l -> List.Forall params_ok l -> unit wo -> unit wi -> vz wo <> 0 -> vz wi <> 0 ->
  (forall b, match_flag b flags = true -> lobe_side b wo wi) ->
  forall acc f, spec_ge0 acc -> sum_f l flags wo wi acc = Ok f -> spec_ge0 f.
Proof.
  intros F P A B C D S. induction l as [|b l IH]; intros acc f G; cbn [sum_f]; [now intros [= <-]|].
  inversion F; inversion P; subst. destruct (match_flag b flags) eqn:MF; [|now apply IH].
  destruct (bdf_f b wo wi) as [v|] eqn:EV; cbn [bind]; [|discriminate]. apply IH; auto.
  apply add_ge0; auto. exact (f_ge0 b ltac:(assumption) wo wi v A B C D (S b MF) EV).
Qed.
Lemma w2l_z s w : vz (w2l s w) = vdot w (bs_nn s). Proof. reflexivity. Qed.
Lemma good_nonneg ng q b wo wi flags f : good ng q b -> unit wo -> unit wi -> vdot wo (dg_nn q) <> 0 -> vdot wi (dg_nn q) <> 0 ->
  (same_side ng wo wi <-> same_side (dg_nn q) wo wi) -> bsdf_f b wo wi flags = Ok f -> spec_ge0 f.
Proof.
  intros (OK & NG & NN & SL & PO) U1 U2 Z1 Z2 SS. unfold bsdf_f. apply sum_ge0; auto; try (apply w2l_unit; auto);
    try (rewrite w2l_z, NN; auto).
  - intros lb MF. unfold lobe_side. rewrite !w2l_z, NN. unfold same_side in SS.
    unfold side_flags in MF. rewrite NG in MF.
    assert (NZ : vdot wo (dg_nn q) * vdot wi (dg_nn q) <> 0) by (apply Rmult_integral_contrapositive; auto).
    destruct (Rltb 0 (vdot wi ng * vdot wo ng)) eqn:C; Rb.
    + apply match_no_trans in MF. split; [intros _; apply SS; lra|]. unfold transmissive. intros T. exfalso.
      destruct MF as [_ MF]. contradiction.
    + apply match_no_refl in MF. split; [|intros _].
      * unfold reflective. intros T. destruct MF as [_ MF]. contradiction.
      * assert (~ 0 < vdot wo (dg_nn q) * vdot wi (dg_nn q)) by (rewrite <- SS; lra). lra.
  - unfold spec_ge0, spec; cbn; lra.
Qed.
