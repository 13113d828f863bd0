(** Property theorems C211-C216 (microfacet distributions, the Fresnel blend, albedo estimates).  Vocabulary:
    S_Microfacet.v, S_Rho.v, S_Reflection.v. *)
From Coq Require Import Reals Lra Lia List ZArith Bool.
From Coquelicot Require Import Coquelicot.
From Verif Require Import Base M_Geometry S_Geometry M_MonteCarlo M_Reflection S_Reflection M_Sampler M_Rho S_Rho S_Microfacet P_Microfacet P_Rho.
Import ListNotations.
Open Scope R_scope.

(** C211: the projected area of the microfacets over the hemisphere is one. *)
Theorem C211_normalised (d : mdist) : dist_ok d -> hemisphere_integral (fun w => mdist_D d w * vz w) 1.
Proof. exact (D_normalised d). Qed.
Print Assumptions C211_normalised.
(** The constructors keep exponents up to 10000 and cut larger ones down to it. *)
Theorem C211_exponents (e ex ey : R) : -1 < e -> -1 < ex -> -1 < ey ->
  (exists e', blinn_make e = Blinn e' /\ -1 < e' <= 10000 /\ (e <= 10000 -> e' = e)) /\
  (exists x y, aniso_make ex ey = Aniso x y /\ -1 < x <= 10000 /\ -1 < y <= 10000 /\
     (ex <= 10000 -> x = ex) /\ (ey <= 10000 -> y = ey)).
Proof.
  intros H Hx Hy.
  assert (M : forall a, -1 < a -> -1 < Rmin a 10000 <= 10000 /\ (a <= 10000 -> Rmin a 10000 = a)).
  { intros a Ha. pose proof (Rmin_r a 10000). repeat split; [|lra|intros; now apply Rmin_left].
    unfold Rmin. destruct (Rle_dec a 10000); lra. }
  split.
  - eexists. split; [reflexivity|]. exact (M e H).
  - eexists. eexists. split; [reflexivity|]. destruct (M ex Hx), (M ey Hy). auto.
Qed.
Print Assumptions C211_exponents.
Example C211_ex : dist_ok (Blinn 30) /\ dist_ok (Aniso 10 200).
Proof. cbn. lra. Qed.

(** C212: both distributions draw half vectors by inverting the cumulative distribution of the density they report. *)
Theorem C212_blinn (e : R) : -1 < e ->
  draws_half_vectors (fun c _ => (e + 1) / (2 * PI) * Rpower c e) (fun wo ua up => mdist_sample (Blinn e) wo up ua).
Proof. exact (blinn_draws e). Qed.
Print Assumptions C212_blinn.
Theorem C212_aniso (ex ey : R) : -1 < ex -> -1 < ey ->
  draws_half_vectors (fun c ph => sqrt ((ex + 1) * (ey + 1)) / (2 * PI) * Rpower c (ex * (cos ph)² + ey * (sin ph)²))
    (mdist_sample (Aniso ex ey)).
Proof. exact (aniso_draws ex ey). Qed.
Print Assumptions C212_aniso.

(** C213: the specular term follows Schlick, the diffuse term has the albedo of the Ashikhmin-Shirley model, and
    sampling is an even mixture of the diffuse and the microfacet sampling. *)
Theorem C213_schlick (rs : vec) : schlick rs 1 = rs /\ schlick rs 0 = mkV 1 1 1 /\
  forall a b, spec_le rs (mkV 1 1 1) -> 0 <= a <= b -> b <= 1 -> spec_le rs (schlick rs b) /\
    spec_le (schlick rs b) (schlick rs a) /\ spec_le (schlick rs a) (mkV 1 1 1).
Proof. exact (schlick_facts rs). Qed.
Print Assumptions C213_schlick.
Theorem C213_reflectance (rd rs : vec) (d : mdist) (wo : vec) : exists diffuse : vec -> vec,
  (forall wi, let wh := normalize (vadd wi wo) in
     bdf_f (FresnelBlend rd rs d) wo wi =
     Ok (vadd (diffuse wi)
          (vscale (mdist_D d wh / (4 * Rabs (vdot wi wh) * Rmax (Rabs (vz wi)) (Rabs (vz wo)))) (schlick rs (vdot wi wh))))) /\
  let k := 1 - (1 - Rabs (vz wo) / 2) ^ 5 in
  hemisphere_integral (fun wi => vx (diffuse wi) * vz wi) (k * vx rd * (1 - vx rs)) /\
  hemisphere_integral (fun wi => vy (diffuse wi) * vz wi) (k * vy rd * (1 - vy rs)) /\
  hemisphere_integral (fun wi => vz (diffuse wi) * vz wi) (k * vz rd * (1 - vz rs)).
Proof.
  pose proof PI_RGT_0 as HPI. set (k := 1 - (1 - Rabs (vz wo) / 2) ^ 5).
  set (K := fun a b => k * (28 / (23 * PI)) * a * (1 - b)).
  exists (fun wi => vscale (1 - (1 - 1 / 2 * abs_cos_theta wi) ^ 5) (mkV (K (vx rd) (vx rs)) (K (vy rd) (vy rs)) (K (vz rd) (vz rs)))).
  split.
  - intros wi wh. cbn [bdf_f]. f_equal. unfold fresnel_blend_f. fold wh. f_equal.
    + unfold K, k. replace (1 - Rabs (vz wo) / 2) with (1 - 1 / 2 * abs_cos_theta wo) by (unfold abs_cos_theta; lra).
      apply V3_eq; cbn [vscale vmap vmap2 smul vsub spec vx vy vz]; ring.
    + f_equal. f_equal. f_equal. unfold pmax, Rmax, abs_cos_theta. destruct (Rltb _ _) eqn:B;
        [apply Rltb_true in B|apply Rltb_false in B]; destruct (Rle_dec _ _); try reflexivity; lra.
  - cbv zeta.
    assert (G : forall a b, hemisphere_integral (fun wi => (1 - (1 - 1 / 2 * abs_cos_theta wi) ^ 5) * K a b * vz wi) (k * a * (1 - b))).
    { intros a b. replace (k * a * (1 - b)) with (K a b * (23 * PI / 28)) by (unfold K; field; lra).
      destruct (blend_albedo (K a b)) as (inner & I1 & I2). exists inner. split; [|exact I2]. intros ph.
      eapply is_RInt_ext; [|exact (I1 ph)]. intros th _. cbv beta.
      match goal with |- @eq _ ?x ?y => change (@eq R x y) end. ring. }
    repeat split; apply G.
Qed.
Print Assumptions C213_reflectance.
Theorem C213_mixture (rd rs r : vec) (fr : fresnel) (d : mdist) (wo wi : vec) (u1 u2 : R) :
  bdf_pdf (FresnelBlend rd rs d) wo wi = (bdf_pdf (Lambertian r) wo wi + bdf_pdf (Microfacet r fr d) wo wi) / 2 /\
  (forall s, bdf_sample (FresnelBlend rd rs d) wo u1 u2 = Ok s ->
     exists v f pdf, s = (pdf, Some (v, f)) /\
       (exists q g, bdf_sample (if Rlt_dec u1 (1 / 2) then Lambertian r else Microfacet (mkV 1 1 1) FrFull d) wo
          (if Rlt_dec u1 (1 / 2) then 2 * u1 else 2 * u1 - 1) u2 = Ok (q, Some (v, g))) /\
       (0 < vz wo * vz v -> pdf = bdf_pdf (FresnelBlend rd rs d) wo v /\ bdf_f (FresnelBlend rd rs d) wo v = Ok f)).
Proof.
  split.
  - unfold bdf_pdf, base_pdf. rewrite (Rmult_comm (vz wi) (vz wo)).
    destruct (Rleb (vz wo * vz wi) 0) eqn:B; [apply Rleb_true in B|apply Rleb_false in B].
    + replace (Rltb 0 (vz wo * vz wi)) with false by (symmetry; apply Rltb_false; lra). lra.
    + replace (Rltb 0 (vz wo * vz wi)) with true by (symmetry; apply Rltb_true; lra). lra.
  - intros s. cbn [bdf_sample]. destruct (Rltb u1 (1 / 2)) eqn:B; [apply Rltb_true in B|apply Rltb_false in B];
      destruct (Rlt_dec u1 (1 / 2)); try lra.
    + cbn [bdf_f bind]. intros E. injection E as <-. do 3 eexists. split; [reflexivity|]. split.
      * do 2 eexists. cbn [bdf_sample]. unfold base_sample. cbn [bdf_f bind]. reflexivity.
      * intros _. split; reflexivity.
    + replace (2 * (u1 - 1 / 2)) with (2 * u1 - 1) by lra. destruct (mdist_sample d wo (2 * u1 - 1) u2) as [pdf v] eqn:M.
      assert (T : exists q g, bdf_sample (Microfacet (mkV 1 1 1) FrFull d) wo (2 * u1 - 1) u2 = Ok (q, Some (v, g))).
      { cbn [bdf_sample]. rewrite M. destruct (Rleb (vz v * vz wo) 0); cbn [bdf_f bind]; do 2 eexists; reflexivity. }
      destruct (Rleb (vz wo * vz v) 0) eqn:C; [apply Rleb_true in C|].
      * intros E. injection E as <-. do 3 eexists. split; [reflexivity|]. split; [exact T|]. intros; lra.
      * cbn [bdf_f bind]. intros E. injection E as <-. do 3 eexists. split; [reflexivity|]. split; [exact T|]. intros _. split; reflexivity.
Qed.
Print Assumptions C213_mixture.

(** C214: albedo estimates.  Lambertian lobes give their colour, every other lobe but a scaled one the mean over the
    samples of f |cos| / pdf; mirrors give their Fresnel reflectance exactly; a surface sums its lobes. *)
Theorem C214_lambertian (r : vec) (w : vec) (n : nat) (s1 s2 : list (R * R)) :
  bdf_rho_hd (Lambertian r) w s1 = Ok r /\ bdf_rho_hh (Lambertian r) n s1 s2 = Ok r.
Proof. split; reflexivity. Qed.
Print Assumptions C214_lambertian.
Theorem C214_estimate (b : bdf) (w : vec) (s1 s2 : list (R * R)) (draw : vec -> R * R -> R * option (vec * vec)) :
  match b with Lambertian _ | BRDF2BTDF _ | ScaledBDF _ _ => False | _ => True end ->
  length s1 = length s2 -> (forall w u, bdf_sample b w (fst u) (snd u) = Ok (draw w u)) ->
  bdf_rho_hd b w s1 = Ok (mean (fun u => weight 1 (draw w u)) s1) /\
  (* the direction (u1 = cosine, u2 = turn) uniform over the hemisphere, weighted by twice its cosine *)
  bdf_rho_hh b (length s1) s1 s2 =
    Ok (mean (fun p => weight (2 * Rabs (fst (fst p))) (draw (uniform_sample_hemisphere (fst (fst p)) (snd (fst p))) (snd p)))
             (combine s1 s2)) /\
  bdf_rho_hd (BRDF2BTDF b) w s1 = bdf_rho_hd b w s1 /\ bdf_rho_hh (BRDF2BTDF b) (length s1) s1 s2 = bdf_rho_hh b (length s1) s1 s2.
Proof.
  intros A E H. split; [apply rho_hd_mean; auto|]. split; [|split; reflexivity].
  apply (rho_hh_mean b s1 s2 (fun a u => draw (uniform_sample_hemisphere (fst a) (snd a)) u)); auto.
Qed.
Print Assumptions C214_estimate.
Theorem C214_mirror (r : vec) (fr : fresnel) (w : vec) (s : list (R * R)) : s <> [] -> vz w <> 0 ->
  bdf_rho_hd (SpecularReflection r fr) w s = Ok (smul (fresnel_call fr (vz w)) r).
Proof.
  intros N Hw. set (F := fresnel_call fr (vz w)).
  rewrite (rho_hd_mean _ w s (fun _ => (1, Some (mirror_dir w, sdiv (smul F r) (abs_cos_theta (mirror_dir w)))))); [|exact Logic.I|reflexivity].
  f_equal. assert (Ha : 0 < Rabs (vz w)) by now apply Rabs_pos_lt.
  assert (T : forall l : list (R * R), total (fun _ => weight 1 (1, Some (mirror_dir w, sdiv (smul F r) (abs_cos_theta (mirror_dir w))))) l
     = vscale (INR (length l)) (smul F r)).
  { induction l as [|x l IH]; [apply V3_eq; cbn; ring|]. cbn [total length]. rewrite IH, S_INR. cbn [weight].
    destruct (Rlt_dec 0 1); [|lra]. unfold mirror_dir, abs_cos_theta; cbn [vz].
    apply V3_eq; cbn; field; lra. }
  unfold mean. rewrite T. destruct s as [|x s]; [congruence|]. cbn [length]. rewrite S_INR. pose proof (pos_INR (length s)).
  apply V3_eq; cbn; field; lra.
Qed.
Print Assumptions C214_mirror.
Theorem C214_surface (s : bsdf) (wo : vec) (flags : Z) (sq : nat) (rx ry rx' ry' : nat -> R) (hd hh : bdf -> vec) :
  let smp := stratified_sample_2d sq sq true rx ry in let smp' := stratified_sample_2d sq sq true rx' ry' in
  (forall b, In b (bs_bdfs s) -> match_flag b flags = true ->
     bdf_rho_hd b wo smp = Ok (hd b) /\ bdf_rho_hh b (sq * sq) smp smp' = Ok (hh b)) ->
  let lobes := filter (fun b => match_flag b flags) (bs_bdfs s) in
  bsdf_rho_hd s wo flags sq rx ry = Ok (total hd lobes) /\ bsdf_rho_hh s flags sq rx ry rx' ry' = Ok (total hh lobes).
Proof.
  intros smp smp' H lobes. unfold bsdf_rho_hd, bsdf_rho_hh. fold smp smp'.
  rewrite (sum_rho_spec _ _ _ _ hd) by (intros; now apply H). rewrite (sum_rho_spec _ _ _ _ hh) by (intros; now apply H).
  now rewrite !vadd_0_l.
Qed.
Print Assumptions C214_surface.
Example C214_ex : exists draw, forall w u, bdf_sample (OrenNayar (mkV 1 1 1) 1 0) w (fst u) (snd u) = Ok (draw w u).
Proof. eexists (fun w u => _). intros w u. cbn [bdf_sample]. unfold base_sample. cbn [bdf_f bind]. reflexivity. Qed.

(** C215: albedo of scaled lobes (mix materials) *)
Theorem C215_scaled_refuted (b : bdf) (k w : vec) (n : nat) (s1 s2 : list (R * R)) (s : bsdf) (flags : Z) (sq : nat) (rx ry rx' ry' : nat -> R) :
  bdf_rho_hd (ScaledBDF b k) w s1 = Err AttributeError /\ bdf_rho_hh (ScaledBDF b k) n s1 s2 = Err AttributeError /\
  (forall l, bs_bdfs s = ScaledBDF b k :: l -> match_flag b flags = true ->
     bsdf_rho_hd s w flags sq rx ry = Err AttributeError /\ bsdf_rho_hh s flags sq rx ry rx' ry' = Err AttributeError).
Proof.
  split; [reflexivity|]. split; [reflexivity|]. intros l E M. unfold bsdf_rho_hd, bsdf_rho_hh. rewrite E. cbn [sum_rho].
  change (match_flag (ScaledBDF b k) flags) with (match_flag b flags). rewrite M. split; reflexivity.
Qed.
Print Assumptions C215_scaled_refuted.

(** C216: the highlight is strongest at the mirror direction. *)
Theorem C216_blinn_partial (e : R) (w : vec) : 0 <= e -> unit w -> mdist_D (Blinn e) w <= mdist_D (Blinn e) (mkV 0 0 1).
Proof.
  intros He U. pose proof PI_RGT_0 as HPI. unfold mdist_D, abs_cos_theta. cbn [vz]. rewrite (Rabs_pos_eq 1) by lra.
  apply Rmult_le_compat_l.
  { apply Rmult_le_pos; [lra|]. apply Rlt_le, Rdiv_lt_0_compat; lra. }
  rewrite (np_power_pos 1) by lra. replace (Rpower 1 e) with 1 by (unfold Rpower; now rewrite ln_1, Rmult_0_r, exp_0).
  assert (B : 0 <= Rabs (vz w) <= 1).
  { split; [apply Rabs_pos|]. unfold unit, vdot in U. apply Rabs_le. split; nra. }
  destruct (Req_dec e 0) as [->|N].
  - unfold np_power. destruct (Reqb (Rabs (vz w)) 0); [|unfold Rpower; rewrite Rmult_0_l, exp_0; lra].
    rewrite (proj2 (Reqb_true 0 0)) by reflexivity. lra.
  - apply P_LobeSampling.np_power_unit; lra.
Qed.
Print Assumptions C216_blinn_partial.
Theorem C216_aniso_refuted (ex ey : R) (w : vec) : -1 < ex -> -1 < ey -> unit w -> 0 < Rabs (vz w) < 1 ->
  mdist_D (Aniso ex ey) (mkV 0 0 1) = 0 /\ 0 < mdist_D (Aniso ex ey) w.
Proof.
  intros Hx Hy U B. pose proof PI_RGT_0 as HPI. unfold mdist_D, abs_cos_theta. cbn [vz]. split.
  - rewrite (Rabs_pos_eq 1) by lra. replace (1 - 1 * 1) with 0 by lra. now rewrite (proj2 (Reqb_true 0 0)) by reflexivity.
  - rewrite (proj2 (Reqb_false _ 0)) by nra. rewrite np_power_pos by lra. apply Rmult_lt_0_compat; [|apply exp_pos].
    apply Rmult_lt_0_compat; [apply sqrt_lt_R0; nra|apply Rdiv_lt_0_compat; lra].
Qed.
Print Assumptions C216_aniso_refuted.
Example C216_ex : unit (mkV (3/5) 0 (4/5)) /\ 0 < Rabs (vz (mkV (3/5) 0 (4/5))) < 1.
Proof. unfold unit; cbn. rewrite Rabs_pos_eq; lra. Qed.
