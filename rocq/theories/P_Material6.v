(** Opacity scales the components of the uber material; tilted mirrors. *)
From Coq Require Import Reals Lra Lia List ZArith Bool.
From Verif Require Import Base M_Geometry S_Geometry P_Geometry M_Transform M_MonteCarlo M_Film M_Shapes M_Reflection S_Reflection
  P_Reflection P_Reflection2 P_Reflection3 P_Reciprocity P_Fresnel P_LobeSampling M_Material S_Material P_Material P_Material2 P_Material3 P_Material4.
Import ListNotations.
Open Scope R_scope.

Lemma sum_f_app l1 l2 fl wo wi : forall acc, sum_f (l1 ++ l2) fl wo wi acc = bind (sum_f l1 fl wo wi acc) (fun a => sum_f l2 fl wo wi a).
Proof.
  induction l1 as [|b l IH]; intros acc; cbn [app sum_f bind]; [reflexivity|].
  destruct (match_flag b fl); [|apply IH]. destruct (bdf_f b wo wi); cbn [bind]; [apply IH|reflexivity].
Qed.
Lemma sum_f_specT (c : bool) t a b fl wo wi acc : sum_f (opt_lobe c (SpecularTransmission t a b)) fl wo wi acc = Ok acc.
Proof. destruct c; cbn [opt_lobe sum_f]; [reflexivity|]. destruct (match_flag _ _); cbn [bdf_f bind]; [|reflexivity].
  f_equal. destruct acc. unfold vadd, vmap2, spec; cbn. f_equal; ring. Qed.
Lemma sum_f_specR (c : bool) t fr fl wo wi acc : sum_f (opt_lobe c (SpecularReflection t fr)) fl wo wi acc = Ok acc.
Proof. destruct c; cbn [opt_lobe sum_f]; [reflexivity|]. destruct (match_flag _ _); cbn [bdf_f bind]; [|reflexivity].
  f_equal. destruct acc. unfold vadd, vmap2, spec; cbn. f_equal; ring. Qed.
Lemma positive_prod a b : positive_part (smul (positive_part a) (positive_part b)) = smul (positive_part a) (positive_part b).
Proof.
  unfold positive_part, smul, vmap2; cbn. assert (K : forall x y, Rmax 0 (Rmax 0 x * Rmax 0 y) = Rmax 0 x * Rmax 0 y).
  { intros. apply Rmax_right. apply Rmult_le_pos; apply Rmax_l. }
  rewrite !K. reflexivity.
Qed.
Lemma positive_white : positive_part (mkV 1 1 1) = mkV 1 1 1.
Proof. unfold positive_part; cbn. now rewrite Rmax_right by lra. Qed.
Lemma smul_white v : smul (mkV 1 1 1) v = v.
Proof. exact (smul_1 v). Qed.

Lemma uber_scaled kd ks kr kt ro op eta flip g s : 0 < ro (at_hit flip s) ->
  let sc (k : stex) : stex := fun h => smul (positive_part (op h)) (positive_part (k h)) in
  exists b b', get_bsdf (Uber kd ks kr kt ro op eta None) flip g s = Ok b /\
    get_bsdf (Uber (sc kd) (sc ks) (sc kr) (sc kt) ro (fun _ => mkV 1 1 1) eta None) flip g s = Ok b' /\
    forall wo wi flags, bsdf_f b wo wi flags = bsdf_f b' wo wi flags.
Proof.
  intros RO sc. destruct (uber_shape kd ks kr kt ro op eta flip g s RO) as (b & d & GB & SN & TN & NN & NG & LB & D).
  destruct (uber_shape (sc kd) (sc ks) (sc kr) (sc kt) ro (fun _ => mkV 1 1 1) eta flip g s RO) as (b' & d' & GB' & SN' & TN' & NN' & NG' & LB' & D').
  exists b, b'. split; [exact GB|]. split; [exact GB'|]. intros wo wi flags.
  rewrite D in D'. injection D' as <-. unfold sc in LB'. rewrite !positive_prod, positive_white, !smul_white in LB'.
  unfold bsdf_f, side_flags, w2l. rewrite LB, LB', NG, NG', SN, SN', TN, TN', NN, NN'.
  rewrite !sum_f_app. rewrite !sum_f_specT. reflexivity.
Qed.
Lemma uber_diffuse kd ks kr kt ro op eta flip g s wo wi : 0 < ro (at_hit flip s) ->
  let q := at_hit flip s in let o := positive_part (op q) in
  nearly_black (positive_part (ks q)) -> vx o <= 1 -> vy o <= 1 -> vz o <= 1 ->
  ~ nearly_black (smul o (positive_part (kd q))) -> same_side (dg_nn g) wo wi ->
  exists b, get_bsdf (Uber kd ks kr kt ro op eta None) flip g s = Ok b /\
    bsdf_f b wo wi ALL = Ok (vscale (1 / PI) (smul o (positive_part (kd q)))).
Proof.
  intros RO q o KS O1 O2 O3 KD SS. destruct (uber_shape kd ks kr kt ro op eta flip g s RO) as (b & d & GB & SN & TN & NN & NG & LB & D).
  fold q in LB. fold o in LB. exists b. split; [exact GB|].
  assert (K1 : sblack (smul o (positive_part (ks q))) = true).
  { apply sblack_iff. unfold nearly_black in *. pose proof (positive_ge0 (ks q)) as P1. pose proof (positive_ge0 (op q)) as P2. fold o in P2.
    destruct P1 as (P1 & P1' & P1''). destruct P2 as (P2 & P2' & P2''). unfold smul, vmap2; cbn [vx vy vz]. 
    destruct KS as (K1 & K2 & K3). repeat split; nra. }
  assert (K2 : sblack (smul o (positive_part (kd q))) = false) by now apply sblack_niff.
  rewrite K1, K2 in LB. cbn [opt_lobe] in LB. unfold bsdf_f. rewrite LB, !sum_f_app, sum_f_specT. cbn [bind app].
  assert (FL : side_flags b wo wi ALL = Z.land ALL (Z.lnot TRANSMISSION)).
  { unfold side_flags. unfold same_side in SS. rewrite NG. replace (Rltb 0 _) with true by (symmetry; apply Rltb_true; lra). reflexivity. }
  rewrite FL. cbn [sum_f]. replace (match_flag (Lambertian _) _) with true by reflexivity. cbn [bdf_f bind].
  rewrite ?sum_f_specR; cbn [bind sum_f app]. rewrite ?sum_f_app, ?sum_f_specR; cbn [bind sum_f app]. rewrite ?sum_f_specR; cbn [bind]. rewrite ?sum_f_specT.
  f_equal. unfold vadd, vscale, spec, vmap2, vmap; cbn. f_equal; ring.
Qed.

(** a mirror standing upright: x normal *)
Definition wall : dgeom := mkDG vzero (mkV 0 1 0) (mkV 0 0 1) vzero vzero (mkV 1 0 0) 0 0 0 0 0 0 vzero vzero.
Lemma wall_regular : regular wall.
Proof. unfold regular, wall, vcross, vzero; cbn. intros H; injection H; lra. Qed.
Lemma wall_hit : dg_nn (at_hit false wall) = mkV 1 0 0.
Proof.
  unfold at_hit, wall. cbn [dg_nn dg_dpdu dg_dpdv]. replace (vcross (mkV 0 1 0) (mkV 0 0 1)) with (mkV 1 0 0) by (unfold vcross; cbn; f_equal; ring).
  rewrite normalize_e by (unfold unit; cbn; lra). unfold vscale, vmap; cbn. f_equal; ring.
Qed.
Lemma wall_mirror : exists b smp wi, get_bsdf (Mirror (fun _ => spec 1) None) false wall wall = Ok b /\
  bsdf_sample b (mkV (3/5) (4/5) 0) 0 0 0 ALL = Ok smp /\ sm_wi smp = Some wi /\ wi <> mkV (3/5) (-4/5) 0.
Proof.
  cbn [get_bsdf shading bind]. rewrite at_hit_copy, sclip_pos. 
  assert (PW : positive_part (spec 1) = spec 1) by exact positive_white. rewrite PW.
  assert (B : sblack (spec 1) = false) by (rewrite <- PW; apply sblack_niff, white_nb). rewrite B.
  set (b0 := bsdf_make _ _). set (lb := SpecularReflection _ _). set (b := push_back b0 lb).
  exists b. assert (SN : bs_sn b0 = mkV 0 1 0).
  { unfold b0, bsdf_make. cbn [bs_sn dg_dpdu at_hit wall]. apply normalize_e. unfold unit; cbn; lra. }
  assert (NN : bs_nn b0 = mkV 1 0 0) by exact wall_hit.
  assert (TN : bs_tn b0 = mkV 0 0 1).
  { change (bs_tn b0) with (vcross (bs_nn b0) (bs_sn b0)). rewrite SN, NN. unfold vcross; cbn. f_equal; ring. }
  rewrite (sample_at b _ 0 0 0 0 lb); cbn [b push_back bs_bdfs b0 bsdf_make app length INR nth_error]; auto.
  2:{ repeat constructor. } 2:{ lra. }
  cbn [lb bdf_sample bind]. rewrite Reqb1. eexists; eexists; split; [reflexivity|]. split; [reflexivity|]. split; [reflexivity|].
  unfold l2w, mirror_dir, w2l. change (bs_sn b) with (bs_sn b0). change (bs_tn b) with (bs_tn b0). change (bs_nn b) with (bs_nn b0).
  rewrite SN, TN, NN. unfold vdot; cbn. intros Q. injection Q. lra.
  all: lra.
Qed.
