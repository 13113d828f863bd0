From Coq Require Import Reals Lra Lia List Bool ZArith Psatz.
From Coquelicot Require Import Coquelicot.
From Verif Require Import Base M_Geometry S_Geometry P_Geometry M_Transform M_Volume S_Volume.
Import ListNotations.
Open Scope R_scope.

Lemma dot_direction x y z th ph : frame x y z -> vdot z (direction x y z th ph) = cos th.
Proof.
  intros (Ux & Uy & Uz & Oxy & Oxz & Oyz). unfold unit, orth in *.
  destruct x as [x1 x2 x3], y as [y1 y2 y3], z as [z1 z2 z3]; unfold direction, vdot, vadd, vscale, vmap, vmap2; cbn in *.
  replace (z1 * (sin th * cos ph * x1 + sin th * sin ph * y1 + cos th * z1) +
    z2 * (sin th * cos ph * x2 + sin th * sin ph * y2 + cos th * z2) +
    z3 * (sin th * cos ph * x3 + sin th * sin ph * y3 + cos th * z3)) with
   (sin th * cos ph * (x1*z1+x2*z2+x3*z3) + sin th * sin ph * (y1*z1+y2*z2+y3*z3) + cos th * (z1*z1+z2*z2+z3*z3)) by ring.
  rewrite Uz, Oxz, Oyz. ring.
Qed.

Lemma sphere_zonal (phi F : R -> R) (f : vec -> R) x y z :
  frame x y z -> (forall d, f d = phi (vdot z d)) ->
  (forall c, -1 <= c <= 1 -> is_derive F c (phi c)) ->
  (forall c, -1 <= c <= 1 -> continuous phi c) ->
  sphere_integral f x y z (2 * PI * (F 1 - F (-1))).
Proof.
  intros Fr Hf HF Hc.
  exists (fun th => 2 * PI * phi (cos th)). split.
  - intros th.
    apply (is_RInt_ext (fun _ => phi (cos th))).
    + intros ph _. rewrite Hf, dot_direction by auto. reflexivity.
    + replace (2 * PI * phi (cos th)) with (scal (2 * PI - 0) (phi (cos th))).
      2: { unfold scal; cbn; unfold mult; cbn. ring. }
      apply (is_RInt_const (V := R_NormedModule)).
  - set (G := fun th => - (2 * PI) * F (cos th)).
    replace (2 * PI * (F 1 - F (-1))) with (minus (G PI) (G 0)).
    2: { unfold G, minus, plus, opp; cbn. rewrite cos_PI, cos_0. ring. }
    assert (B : forall th, -1 <= cos th <= 1) by (intros; split; [apply COS_bound|apply COS_bound]).
    apply (is_RInt_derive (V := R_CompleteNormedModule)).
    + intros th _. unfold G.
      replace (sin th * (2 * PI * phi (cos th))) with (- (2 * PI) * (- sin th * phi (cos th))) by ring.
      apply (is_derive_scal (fun t => F (cos t)) th).
      apply (is_derive_comp F cos th (phi (cos th)) (- sin th)).
      * apply HF, B.
      * apply is_derive_Reals, derivable_pt_lim_cos.
    + intros th _.
      apply (continuous_mult (K := R_AbsRing) sin (fun t => 2 * PI * phi (cos t))).
      * apply continuity_pt_filterlim, continuity_sin.
      * apply (continuous_mult (K := R_AbsRing) (fun _ => 2 * PI) (fun t => phi (cos t))).
        -- apply continuous_const.
        -- apply (continuous_comp cos phi).
           ++ apply continuity_pt_filterlim, continuity_cos.
           ++ apply Hc, B.
Qed.

Lemma derive_continuous (F : R) (phi : R -> R) (c : R) : is_derive phi c F -> continuous phi c.
Proof. intros H. apply (ex_derive_continuous (V:=R_NormedModule)). now exists F. Qed.

Lemma isotropic_normalised x y z : frame x y z -> sphere_integral (phase_isotropic z) x y z 1.
Proof.
  intros Fr. pose proof PI_RGT_0 as P.
  pose (F := fun c => c / (4 * PI)).
  replace 1 with (2 * PI * (F 1 - F (-1))) by (unfold F; field; lra).
  apply (sphere_zonal (fun _ => 1 / (4 * PI)) F); auto; unfold F.
  - intros c _. auto_derive; auto.
  - intros c _. apply continuous_const.
Qed.
Lemma rayleigh_normalised x y z : frame x y z -> sphere_integral (phase_rayleigh z) x y z 1.
Proof.
  intros Fr. pose proof PI_RGT_0 as P.
  pose (F := fun c => 3 / (16 * PI) * (c + c * c * c / 3)).
  replace 1 with (2 * PI * (F 1 - F (-1))) by (unfold F; field; lra).
  apply (sphere_zonal (fun c => 3 / (16 * PI) * (1 + c * c)) F); auto; unfold F.
  - intros c _. auto_derive; auto. field; lra.
  - intros c _. eapply derive_continuous. auto_derive; auto.
Qed.
Lemma hazy_normalised x y z : frame x y z -> sphere_integral (phase_mie_hazy z) x y z 1.
Proof.
  intros Fr. pose proof PI_RGT_0 as P.
  pose (F := fun c => (1 / 2 * c + (1 / 2 * (1 + c)) ^ 9) / (4 * PI)).
  replace 1 with (2 * PI * (F 1 - F (-1))) by (unfold F; field; lra).
  apply (sphere_zonal (fun c => (1 / 2 + 9 / 2 * (1 / 2 * (1 + c)) ^ 8) / (4 * PI)) F); auto; unfold F.
  - intros c _. auto_derive; auto. simpl. field; lra.
  - intros c _. eapply derive_continuous. auto_derive; auto.
Qed.
Lemma murky_normalised x y z : frame x y z -> sphere_integral (phase_mie_murky z) x y z 1.
Proof.
  intros Fr. pose proof PI_RGT_0 as P.
  pose (F := fun c => (1 / 2 * c + (1 / 2 * (1 + c)) ^ 33) / (4 * PI)).
  replace 1 with (2 * PI * (F 1 - F (-1))).
  2: { unfold F. replace (1 / 2 * (1 + 1)) with 1 by lra. replace (1 / 2 * (1 + -1)) with 0 by lra.
       rewrite pow1, pow_ne_zero by lia. field; lra. }
  apply (sphere_zonal (fun c => (1 / 2 + 33 / 2 * (1 / 2 * (1 + c)) ^ 32) / (4 * PI)) F); auto; unfold F.
  - intros c _.
    assert (D : is_derive (fun c => (1 / 2 * (1 + c)) ^ 33) c (INR 33 * (1/2) * (1 / 2 * (1 + c)) ^ 32)).
    { apply (is_derive_pow (fun c => 1 / 2 * (1 + c)) 33 c (1/2)). auto_derive; [exact I|field]. }
    replace ((1 / 2 + 33 / 2 * (1 / 2 * (1 + c)) ^ 32) / (4 * PI)) with (/ (4 * PI) * (1 / 2 + INR 33 * (1/2) * (1 / 2 * (1 + c)) ^ 32)).
    2: { replace (INR 33) with 33 by (rewrite INR_IZR_INZ; reflexivity). field; lra. }
    apply (is_derive_ext (fun c => / (4 * PI) * (1 / 2 * c + (1 / 2 * (1 + c)) ^ 33))).
    { intros t. match goal with |- ?a = ?b => change (@eq R a b) end. unfold Rdiv. ring. }
    apply is_derive_scal. apply (is_derive_plus (fun c => 1 / 2 * c)); auto.
    auto_derive; auto. field.
  - intros c _.
    apply (continuous_ext (fun c => / (4 * PI) * (1 / 2 + 33 / 2 * (1 / 2 * (1 + c)) ^ 32))).
    { intros t. match goal with |- ?a = ?b => change (@eq R a b) end. unfold Rdiv. ring. }
    apply (ex_derive_continuous (V:=R_NormedModule)). apply ex_derive_scal.
    apply (ex_derive_plus (fun _ => 1/2)). apply ex_derive_const. apply ex_derive_scal. apply ex_derive_pow. auto_derive; auto.
Qed.

Lemma hg_base_pos g c : Rabs g < 1 -> -1 <= c <= 1 -> 0 < 1 + g * g - 2 * g * c.
Proof.
  intros G C. apply Rabs_def2 in G.
  assert (0 < (1 - g) * (1 - g)) by nra. assert (0 < (1 + g) * (1 + g)) by nra.
  destruct (Rle_dec 0 g); nra.
Qed.
Lemma Rpower_3_2 x : 0 < x -> Rpower x (3 / 2) = x * sqrt x.
Proof.
  intros H. replace (3 / 2) with (1 + / 2) by lra. rewrite Rpower_plus, Rpower_1, Rpower_sqrt by auto. reflexivity.
Qed.
Lemma dot_unit_range w wp : unit w -> unit wp -> -1 <= vdot w wp <= 1.
Proof.
  unfold unit, vdot. destruct w as [a b c], wp as [d e f]; cbn. intros H1 H2.
  pose proof (Rle_0_sqr (a - d)); pose proof (Rle_0_sqr (b - e)); pose proof (Rle_0_sqr (c - f)).
  pose proof (Rle_0_sqr (a + d)); pose proof (Rle_0_sqr (b + e)); pose proof (Rle_0_sqr (c + f)).
  unfold Rsqr in *. lra.
Qed.
Lemma hg_normalised g x y z : Rabs g < 1 -> frame x y z -> sphere_integral (fun w => phase_hg z w g) x y z 1.
Proof.
  intros G Fr. pose proof PI_RGT_0 as P.
  destruct (Req_dec g 0) as [-> | Ng].
  - destruct (isotropic_normalised x y z Fr) as (inn & A & B). exists inn. split; auto.
    intros th. eapply is_RInt_ext; [|apply A]. intros ph _. unfold phase_hg, phase_isotropic. cbn zeta. match goal with |- ?a = ?b => change (@eq R a b) end.
    match goal with |- context [Rpower ?e _] => replace e with 1 by ring end. rewrite Rpower_3_2 by lra. rewrite sqrt_1. field. lra.
  - pose (F := fun c => (1 - g * g) / (4 * PI) * / (g * sqrt (1 + g * g - 2 * g * c))).
    pose proof (Rabs_def2 _ _ G) as [G1 G2].
    replace 1 with (2 * PI * (F 1 - F (-1))).
    2: { unfold F. replace (1 + g * g - 2 * g * 1) with ((1 - g) * (1 - g)) by ring.
         replace (1 + g * g - 2 * g * -1) with ((1 + g) * (1 + g)) by ring.
         rewrite !sqrt_square by lra. field. repeat split; lra. }
    set (phi := fun c => (1 - g * g) / ((1 + g * g - 2 * g * c) * sqrt (1 + g * g - 2 * g * c)) / (4 * PI)).
    assert (Q : forall c, -1 <= c <= 1 -> 0 < sqrt (1 + g * g - 2 * g * c)).
    { intros c Hc. apply sqrt_lt_R0, hg_base_pos; auto. }
    destruct Fr as (Ux & Uy & Uz & Fr').
    assert (I : sphere_integral (fun w => phi (vdot z w)) x y z (2 * PI * (F 1 - F (-1)))).
    { apply (sphere_zonal phi F); unfold F, phi; auto.
      - repeat split; auto; apply Fr'.
      - intros c Hc. pose proof (hg_base_pos g c G Hc) as B. pose proof (Q c Hc) as S1.
        auto_derive; [replace (1 + g * g + - (2 * g * c)) with (1 + g * g - 2 * g * c) by ring; repeat split; try lra; apply Rmult_integral_contrapositive; split; lra|].
        replace (1 + g * g + - (2 * g * c)) with (1 + g * g - 2 * g * c) by ring.
        set (q := sqrt (1 + g * g - 2 * g * c)) in *.
        assert (QQ : 1 + g * g - 2 * g * c = q * q) by (unfold q; rewrite sqrt_sqrt; lra).
        rewrite QQ. field. repeat split; lra.
      - intros c Hc. pose proof (hg_base_pos g c G Hc) as B. pose proof (Q c Hc) as S1.
        apply (ex_derive_continuous (V:=R_NormedModule)). auto_derive.
        replace (1 + g * g + - (2 * g * c)) with (1 + g * g - 2 * g * c) by ring. repeat split; try lra.
        apply Rmult_integral_contrapositive; split; lra. }
    destruct I as (inn & A & B). exists inn; split; auto.
    intros th. eapply is_RInt_ext; [|apply A]. intros ph _. cbn beta. unfold phi, phase_hg. cbn zeta. match goal with |- ?a = ?b => change (@eq R a b) end.
    rewrite Rpower_3_2; auto. rewrite dot_direction.
    + apply hg_base_pos; auto. split; apply COS_bound.
    + repeat split; auto; apply Fr'.
Qed.

Lemma phases_positive w wp g : unit w -> unit wp -> Rabs g < 1 ->
  0 < phase_isotropic w wp /\ 0 < phase_rayleigh w wp /\ 0 < phase_mie_hazy w wp /\
  0 < phase_mie_murky w wp /\ 0 < phase_hg w wp g.
Proof.
  intros U V G. pose proof PI_RGT_0 as P. pose proof (dot_unit_range w wp U V) as D.
  unfold phase_isotropic, phase_rayleigh, phase_mie_hazy, phase_mie_murky, phase_hg; cbv zeta.
  set (c := vdot w wp) in *.
  assert (0 < / PI) by now apply Rinv_0_lt_compat.
  repeat split.
  - apply Rdiv_lt_0_compat; lra.
  - apply Rmult_lt_0_compat; [apply Rdiv_lt_0_compat; lra|nra].
  - apply Rdiv_lt_0_compat; [|lra]. assert (0 <= (1 / 2 * (1 + c)) ^ 8) by (apply pow_le; lra). lra.
  - apply Rdiv_lt_0_compat; [|lra]. assert (Q : 0 <= (1 / 2 * (1 + c)) ^ 32) by (apply pow_le; lra). revert Q; generalize ((1 / 2 * (1 + c)) ^ 32); intros; lra.
  - apply Rdiv_lt_0_compat; [|lra]. apply Rdiv_lt_0_compat.
    + apply Rabs_def2 in G. nra.
    + unfold Rpower. apply exp_pos.
Qed.
Lemma phases_symmetric w wp g :
  phase_isotropic w wp = phase_isotropic wp w /\ phase_rayleigh w wp = phase_rayleigh wp w /\
  phase_mie_hazy w wp = phase_mie_hazy wp w /\ phase_mie_murky w wp = phase_mie_murky wp w /\
  phase_hg w wp g = phase_hg wp w g /\ phase_schlick w wp g = phase_schlick wp w g.
Proof.
  unfold phase_isotropic, phase_rayleigh, phase_mie_hazy, phase_mie_murky, phase_hg, phase_schlick.
  replace (vdot wp w) with (vdot w wp) by (unfold vdot; ring). repeat split.
Qed.

(** Schlick *)
Definition schlick_k (g : R) : R := 155 / 100 * g - 55 / 100 * g * g * g.
Lemma schlick_k_range g : Rabs g <= 9 / 10 -> Rabs (schlick_k g) < 1.
Proof.
  intros G. apply Rabs_le_between in G. unfold schlick_k. apply Rabs_def1.
  - assert (0 <= (9/10 - g) * (9/10 - g)) by nra. nra.
  - assert (0 <= (9/10 + g) * (9/10 + g)) by nra. nra.
Qed.
Lemma schlick_negative w wp : unit w -> unit wp -> vdot w wp = 0 -> phase_schlick w wp (97 / 100) < 0.
Proof.
  intros U V D. unfold phase_schlick. rewrite D. cbv zeta. pose proof PI_RGT_0.
  match goal with |- ?e < 0 => replace e with ((1 - (155 / 100 * (97 / 100) - 55 / 100 * (97 / 100) * (97 / 100) * (97 / 100)) * (155 / 100 * (97 / 100) - 55 / 100 * (97 / 100) * (97 / 100) * (97 / 100))) * / (4 * PI)) by (field; lra) end.
  assert (0 < / (4 * PI)) by (apply Rinv_0_lt_compat; lra). nra.
Qed.
Lemma prod_lt1 k c : k < 1 /\ -1 < k -> -1 <= c <= 1 -> 1 - k * c <> 0.
Proof.
  intros K C. assert (H : Rabs (k * c) < 1).
  { rewrite Rabs_mult. assert (Rabs k < 1) by (apply Rabs_def1; lra). assert (Rabs c <= 1) by (apply Rabs_le; lra).
    pose proof (Rabs_pos k). pose proof (Rabs_pos c). nra. }
  apply Rabs_def2 in H. lra.
Qed.
Lemma schlick_flat w wp g : unit w -> unit wp -> Rabs (schlick_k g) < 1 ->
  phase_schlick w wp g = (1 - schlick_k g * schlick_k g) / (4 * PI).
Proof.
  intros U V K. pose proof (dot_unit_range w wp U V) as D.
  apply Rabs_def2 in K. unfold phase_schlick. fold (schlick_k g). cbv zeta.
  pose proof PI_RGT_0. field. split; [lra|]. now apply prod_lt1.
Qed.
Lemma schlick_total g x y z : Rabs (schlick_k g) < 1 -> frame x y z ->
  sphere_integral (fun w => phase_schlick z w g) x y z (1 - schlick_k g * schlick_k g).
Proof.
  intros K Fr. pose proof PI_RGT_0 as P. apply Rabs_def2 in K.
  set (k := schlick_k g) in *.
  pose (F := fun c => (1 - k * k) / (4 * PI) * c).
  assert (I : sphere_integral (fun w => (fun _ => (1 - k * k) / (4 * PI)) (vdot z w)) x y z (2 * PI * (F 1 - F (-1)))).
  { apply (sphere_zonal (fun _ => (1 - k * k) / (4 * PI)) F); unfold F; auto.
    - intros c _. auto_derive; auto. ring.
    - intros c _. apply continuous_const. }
  replace (2 * PI * (F 1 - F (-1))) with (1 - k * k) in I by (unfold F; field; lra).
  destruct I as (inn & A & B). exists inn; split; auto.
  intros th. eapply is_RInt_ext; [|apply A]. intros ph _. cbn beta.
  unfold phase_schlick. cbv zeta. fold (schlick_k g). fold k. match goal with |- ?a = ?b => change (@eq R a b) end. rewrite dot_direction by auto.
  pose proof (COS_bound th). field. split; first [lra | now apply prod_lt1].
Qed.
Lemma schlick_k_zero g : Rabs g < 1 -> (schlick_k g = 0 <-> g = 0).
Proof.
  intros G. apply Rabs_def2 in G. unfold schlick_k. split; intros H; [|subst; ring].
  assert (E1 : g * (155 - 55 * g * g) = 0) by lra. apply Rmult_integral in E1. destruct E1 as [E1|E1]; auto. assert (g * g < 1) by nra. lra.
Qed.
