(** Property theorems C113, C131-C136 (what lights, paths and recursive rays contribute).
    Vocabulary: S_Integrator.v, S_Integrator2.v. *)
From Coq Require Import Reals Lra Lia List Bool ZArith.
From Coquelicot Require Import Coquelicot.
From Verif Require Import Base M_Geometry M_MonteCarlo M_Aggregate M_Reflection M_Utility M_Spectrum M_Sampler M_Film M_Light M_Integrator.
From Verif Require Import S_Reflection S_Sampler S_Integrator S_Integrator2 P_Integrator P_Integrator2 P_Integrator3 P_Integrator4 P_Integrator5 Props_Integrator.
Import ListNotations.
Open Scope R_scope.

(** C131: Whitted's direct light, in a scene without medium.  It succeeds with (L, k') exactly if L is the sum of one
    contribution per light, light i sampled with the random numbers k+3i, k+3i+1, k+3i+2, and k' = k + 3 * lights. *)
Theorem C131_whitted_sum (V : Type) (e : env V) (u : nat -> R) (v : V) (r : raydiff) (p n wo : vec) (b : bsdf) (k : nat)
    (L : vec) (k' : nat) : vol e = None ->
  (whitted_local e u v r p n wo b k = Ok (L, k') <->
   exists xs, length xs = length (lights e) /\ L = vsum xs /\ k' = (k + 3 * length (lights e))%nat /\
     forall i l x, nth_error (lights e) i = Some l -> nth_error xs i = Some x ->
       whitted_contrib e p n wo (v_eps e v) (rtime (rd_ray r)) b l (random3 u (k + 3 * i)) x).
Proof.
  intros NV. unfold whitted_local. rewrite (whitted_sum e u NV). split; intros (xs & A & B & C); exists xs; rewrite vadd_spec0_l in *; auto.
Qed.
Print Assumptions C131_whitted_sum.
(** hence it is non-negative if lights and surfaces are *)
Theorem C131_whitted_nonneg (V : Type) (e : env V) (u : nat -> R) (v : V) (r : raydiff) (p n wo : vec) (b : bsdf) (k : nat)
    (L : vec) (k' : nat) : vol e = None ->
  (forall l q eps a t Li wi pdf vis, In l (lights e) -> lt_sample l q eps a t = Ok (Li, wi, pdf, vis) -> nn Li /\ 0 <= pdf) ->
  (forall w wi f, bsdf_f b w wi ALL = Ok f -> nn f) ->
  whitted_local e u v r p n wo b k = Ok (L, k') -> nn L.
Proof.
  intros NV HL HF H. apply (C131_whitted_sum _ e u v r p n wo b k L k' NV) in H as (xs & A & -> & _ & C).
  apply vsum_nn. apply List.Forall_forall. intros x Hx. apply In_nth_error in Hx as (i & Hi).
  assert (Li : (i < length (lights e))%nat) by (rewrite <- A; apply nth_error_Some; congruence).
  destruct (nth_error (lights e) i) as [l|] eqn:Q; [|apply nth_error_None in Q; lia].
  eapply contrib_nn; [| |exact (C i l x Q Hi)].
  - intros Li' wi pdf vis HS. eapply HL; [eapply nth_error_In; exact Q|exact HS].
  - intros wi f Hf. eapply HF; exact Hf.
Qed.
Print Assumptions C131_whitted_nonneg.
Example C131_ex : vol ex_env = None /\ exists L k', whitted_local ex_env (fun _ => 0) tt (mkRD (mkRay (mkV 0 0 1) (mkV 0 0 (-1)) (mkV false false false) (Fin 0) PInf 0%Z 0) false vzero vzero vzero vzero) (mkV 0 0 0) (mkV 0 0 1) (mkV 0 0 1) (mkBSDF (mkV 0 0 1) (mkV 1 0 0) (mkV 0 1 0) (mkV 0 0 1) []) 0 = Ok (L, k').
Proof.
  split; [reflexivity|]. unfold whitted_local; cbn [lights ex_env whitted_lights lt_sample ex_light]. rewrite rand3_eq. cbn [bind].
  destruct (_ || _); [eexists _, _; reflexivity|]. unfold bsdf_f; cbn [bs_bdfs]. cbn.
  destruct (negb _ && _); eexists _, _; reflexivity.
Qed.

(** C132: sampling all lights.  The result is the sum over the lights of the mean of as many estimates as the light has
    samples; estimate j of light i is made with the numbers stored at position j of the arrays requested for light i. *)
Theorem C132_direct_all (V : Type) (e : env V) (u : nat -> R) (s : sample) (lo bo : list offset) (v : V) (r : raydiff)
    (p n wo : vec) (b : bsdf) (k : nat) (L : vec) (k' : nat) :
  direct_all_local e u s lo bo v r p n wo b k = Ok (L, k') ->
  exists xss, length xss = length (lights e) /\ L = vsum (map mean xss) /\
    forall i l xs, nth_error (lights e) i = Some l -> nth_error xss i = Some xs ->
      exists ol ob, nth_error lo i = Some ol /\ nth_error bo i = Some ob /\ length xs = of_n ol /\
      forall j x, nth_error xs j = Some x ->
        exists a c k1 k2, stored s ol j a /\ stored s ob j c /\
          estimate_direct e l p n wo (v_eps e v) (rtime (rd_ray r)) b a c NOSPEC k1 = Ok (x, k2).
Proof.
  unfold direct_all_local, uniform_sample_all_lights. destruct (0 <? length (lights e))%nat eqn:Q.
  - intros H. apply all_lights_means in H as (xss & A & B & C). rewrite vadd_spec0_l in B. exists xss. auto.
  - intros H. apply Nat.ltb_ge in Q. injection H as <- <-. exists []. split; [cbn; lia|]. split; [reflexivity|].
    intros [|i] l xs _ H2; discriminate H2.
Qed.
Print Assumptions C132_direct_all.
(** for point-like lights each estimate is f Li |cos| / pdf, or nothing when occluded, and uses no random numbers *)
Theorem C132_delta_estimate (V : Type) (e : env V) (l : light) (p n wo : vec) (eps time : R) (b : bsdf) (a c : R * R * R)
    (k : nat) (x : vec) (k' : nat) : vol e = None -> lt_delta l = true ->
  (estimate_direct e l p n wo eps time b a c NOSPEC k = Ok (x, k') <-> delta_contrib e p n wo eps time b l a x /\ k' = k).
Proof. intros NV. exact (estimate_delta e (fun _ => 0) NV l p n wo eps time b a c k x k'). Qed.
Print Assumptions C132_delta_estimate.
Example C132_ex : vol ex_env = None /\ lt_delta ex_light = true. Proof. split; reflexivity. Qed.

(** C133: sampling one light.  The result is (number of lights) times one estimate of the light selected by a single
    number x; any x in [0, 1] selects an existing light. *)
Theorem C133_one_light (V : Type) (e : env V) (u : nat -> R) offs (p n wo : vec) (eps time : R) (b : bsdf) (k : nat)
    (L : vec) (k' : nat) : lights e <> [] ->
  uniform_sample_one_light e u offs p n wo eps time b k = Ok (L, k') ->
  exists x a c k1 l Ld,
    match offs with
    | Some (s, no, lo, bo) => (exists l1, nth_error (oneD s) no = Some l1 /\ nth_error l1 0 = Some x) /\
        stored s lo 0 a /\ stored s bo 0 c /\ k1 = k
    | None => x = u k /\ a = random3 u (k + 1) /\ c = random3 u (k + 4) /\ k1 = (k + 7)%nat
    end /\
    (0 <= x <= 1 -> nth_error (lights e) (Z.to_nat (light_index x (length (lights e)))) = Some l) /\
    estimate_direct e l p n wo eps time b a c NOSPEC k1 = Ok (Ld, k') /\
    L = vscale (INR (length (lights e))) Ld.
Proof.
  intros NE H. apply one_light_value in H as (x & k0 & a & c & k1 & l & Ld & H1 & H2 & H3 & H4); [|exact NE].
  exists x, a, c, k1, l, Ld. split; [destruct offs as [[[[s no] lo] bo]|]; tauto|]. split; [|auto].
  intros X. rewrite get1_nth in H2.
  - destruct (nth_error _ _) as [l'|]; [congruence|discriminate].
  - apply light_index_range; [|exact X]. destruct (lights e); [congruence|cbn; lia].
Qed.
Print Assumptions C133_one_light.
Theorem C133_no_light (V : Type) (e : env V) (u : nat -> R) offs (p n wo : vec) (eps time : R) (b : bsdf) (k : nat) :
  lights e = [] -> uniform_sample_one_light e u offs p n wo eps time b k = Ok (spec 0, k).
Proof. intros H. unfold uniform_sample_one_light. now rewrite H. Qed.
Print Assumptions C133_no_light.
(** over the choice of the light, the expectation is the sum over all lights: choosing one is unbiased.  [ests]: the
    estimate each light would give. *)
Theorem C133_unbiased_choice (ests : list vec) (d : vec) : ests <> [] ->
  expected (fun x => vscale (INR (length ests)) (nth (Z.to_nat (light_index x (length ests))) ests d)) (vsum ests).
Proof. apply choice_mean. Qed.
Print Assumptions C133_unbiased_choice.
Example C133_ex : lights ex_env <> [] /\ [spec 1; spec 2] <> []. Proof. split; discriminate. Qed.

(** C134: in a scene without medium, path tracing returns (L, k', casts) exactly if the path starting at the first
    vertex carries L: throughput-weighted emission plus direct light, summed over the vertices (S_Integrator2.carries). *)
Theorem C134_path_sum (V : Type) (e : env V) (u : nat -> R) (md : Z)
    (direct : nat -> V -> raydiff -> vec -> vec -> vec -> bsdf -> nat -> res (vec * nat)) (ps : nat -> res (R * R * R))
    (r : raydiff) (v : V) (k : nat) (L : vec) (k' casts : nat) : vol e = None ->
  ((exists fuel, path_run e u md direct ps fuel r v k = Some (Ok (L, k', casts))) <->
   carries e u md direct ps 0 (spec 1) v r k L k' casts).
Proof.
  intros NV. unfold path_run. split.
  - intros (fuel & H). apply (loop_carries e u md direct ps NV) in H; [|reflexivity].
    cbn [p_bounce p_beta p_v p_r p_k p_L p_calls] in H. destruct H as (Lr & c' & C & -> & ->). now rewrite vadd_spec0_l.
  - intros H. destruct (carries_loop e u md direct ps NV _ _ _ _ _ _ _ _ H false (spec 0) 0%nat eq_refl) as (N & HN).
    exists N. rewrite HN by lia. now rewrite vadd_spec0_l.
Qed.
Print Assumptions C134_path_sum.
(** the direction sample of the first three vertices is the stored one *)
Theorem C134_stored_numbers (s : sample) (po : list path_offs) (i : nat) (a : R * R * R) :
  path_smp_of s po i = Ok a <-> exists o, nth_error po i = Some o /\ stored s (po_path o) 0 a.
Proof.
  unfold path_smp_of, idx. destruct (nth_error po i) as [o|]; cbn [bind].
  - rewrite stored_iff. split; [intros H; exists o; auto|]. intros (o' & Q & H). congruence.
  - split; [discriminate|]. intros (o & H & _). discriminate.
Qed.
Print Assumptions C134_stored_numbers.
(** every run carries something: e.g. a first vertex whose surface scatters nothing *)
Example C134_ex : exists L k', carries
  (mkEnv Datatypes.unit [ex_light] (fun r => (r, Some tt)) (fun _ => false) (fun _ _ => spec 1) (fun _ => 0)
    (fun _ _ => Ok (mkV 0 0 0, mkBSDF (mkV 0 0 1) (mkV 1 0 0) (mkV 0 1 0) (mkV 0 0 1) [])) (fun _ _ => mkV 0 0 1)
    (fun _ _ _ _ _ => (false, vzero, vzero, vzero, vzero)) None)
  (fun _ => 0) 5 (fun _ _ _ _ _ _ _ k => Ok (spec 2, k)) (fun _ => Ok (0, 0, 0)) 0 (spec 1) tt
  (mkRD (mkRay (mkV 0 0 1) (mkV 0 0 (-1)) (mkV false false false) (Fin 0) PInf 0%Z 0) false vzero vzero vzero vzero) 0 L k' 0 /\ L = spec 3.
Proof.
  eexists _, _. split.
  - eapply c_absorbed. unfold here. cbn. eexists _, _, _, (0, 0, 0), _. split; [reflexivity|]. split; [reflexivity|]. split; [reflexivity|].
    split; [left; split; [lia|split; reflexivity]|]. split; [reflexivity|]. right. reflexivity.
  - unfold smul, vadd, spec, vmap2; cbn. f_equal; ring.
Qed.

(** C135: Russian roulette keeps the expected throughput, whenever its luminance is positive *)
Theorem C135_roulette_unbiased (beta : vec) : 0 < rgb_y beta ->
  expected (fun x => match survivor beta x with Some b => b | None => spec 0 end) beta.
Proof. apply roulette_mean. Qed.
Print Assumptions C135_roulette_unbiased.
(** a path survives a number in [0,1] with probability at most one half *)
Theorem C135_at_most_half (beta : vec) (x : R) : 1 / 2 < x -> survivor beta x = None.
Proof.
  intros H. unfold survivor. cbv zeta. pose proof (Rmin_l (1 / 2) (rgb_y beta)).
  destruct (Rltb (Rmin (1 / 2) (rgb_y beta)) x) eqn:Q; [reflexivity|]. Rb. lra.
Qed.
Print Assumptions C135_at_most_half.
Example C135_ex : 0 < rgb_y (spec 1). Proof. unfold rgb_y, spec; cbn. lra. Qed.

(** C136: the recursive integrators (Whitted, direct lighting).  A ray of the wrong time is refused; a ray that leaves
    the scene carries the sum of the lights' background radiance; at the depth limit it carries emission plus local
    light; otherwise emission + local light + specular reflection + specular transmission. *)
Theorem C136_time (V : Type) (e : env V) u md stime local fuel (r : raydiff) (i : V) (k : nat) : rtime (rd_ray r) <> stime ->
  renderer_li e u md stime local (S fuel) r i k = Some (Err AssertionError).
Proof. intros H. cbn [renderer_li]. unfold rtm. destruct (Reqb (rtime (rd_ray r)) stime) eqn:Q; Rb; [contradiction|reflexivity]. Qed.
Print Assumptions C136_time.
Theorem C136_background (V : Type) (e : env V) u md local fuel (r r1 : raydiff) (i : V) (k : nat) :
  hit e r = (r1, None) ->
  let bg := vsum (map (fun l => lt_le l r1) (lights e)) in
  renderer_li e u md (rtime (rd_ray r)) local (S fuel) r i k =
    match vol e with
    | None => Some (Ok (bg, spec 0, i, k, 0%nat))
    | Some (vli, _) => let '(lv, T, k') := vli r1 k in Some (Ok (vadd (smul T bg) lv, T, i, k', 0%nat))
    end.
Proof.
  intros H bg. cbn [renderer_li]. unfold rtm. destruct (Reqb (rtime (rd_ray r)) (rtime (rd_ray r))) eqn:Q; Rb; [|contradiction].
  cbn [negb]. rewrite H. cbn [obind]. unfold sum_le. rewrite fold_lsum, lsum_map. fold bg.
  assert (B : vadd (spec 0) (smul (spec 1) bg) = bg).
  { destruct bg as [x y z]; unfold vadd, smul, spec, vmap2; cbn; f_equal; ring. }
  rewrite B. destruct (vol e) as [[vli vt]|]; reflexivity.
Qed.
Print Assumptions C136_background.
Theorem C136_depth_limit (V : Type) (e : env V) u md stime local rec (r : raydiff) (v : V) (k : nat) (p : vec) (b : bsdf) (Ld : vec) (k1 : nat) :
  v_bsdf e v r = Ok (p, b) -> local v r p (b_dgs_nn e v r) (vneg (rd (rd_ray r))) b k = Ok (Ld, k1) ->
  (md <= rdepth (rd_ray r) + 1)%Z ->
  surf_li e u md local rec r v k = Some (Ok (vadd (v_le e v (vneg (rd (rd_ray r)))) Ld, v, k1, 1%nat)) /\
  forall fuel isect r0, hit e r0 = (r, Some v) -> rtime (rd_ray r0) = stime -> vol e = None ->
    renderer_li e u md stime local (S fuel) r0 isect k = Some (Ok (vadd (v_le e v (vneg (rd (rd_ray r)))) Ld, spec 0, v, k1, 1%nat)).
Proof.
  intros H1 H2 H3.
  assert (S0 : forall rc, surf_li e u md local rc r v k = Some (Ok (vadd (v_le e v (vneg (rd (rd_ray r)))) Ld, v, k1, 1%nat))).
  { intros rc. unfold surf_li. rewrite H1. cbv zeta. unfold rdir. rewrite H2.
    destruct (rdepth (rd_ray r) + 1 <? md)%Z eqn:Q; [apply Z.ltb_lt in Q; lia|reflexivity]. }
  split; [apply S0|]. intros fuel isect r0 Hh Ht NV. cbn [renderer_li]. unfold rtm.
  destruct (Reqb (rtime (rd_ray r0)) stime) eqn:Q; Rb; [|contradiction]. cbn [negb]. rewrite Hh, S0, NV. reflexivity.
Qed.
Print Assumptions C136_depth_limit.
Theorem C136_recursion (V : Type) (e : env V) u md local rec (r : raydiff) (v v1 v2 : V) (k : nat) (p : vec) (b : bsdf)
    (Ld Lr Lt : vec) (k1 k2 k3 c1 c2 : nat) :
  v_bsdf e v r = Ok (p, b) -> local v r p (b_dgs_nn e v r) (vneg (rd (rd_ray r))) b k = Ok (Ld, k1) ->
  (rdepth (rd_ray r) + 1 < md)%Z ->
  specular e u rec false r b p (b_dgs_nn e v r) v k1 = Some (Ok (Lr, v1, k2, c1)) ->
  specular e u rec true r b p (b_dgs_nn e v r) v1 k2 = Some (Ok (Lt, v2, k3, c2)) ->
  surf_li e u md local rec r v k =
    Some (Ok (vadd (vadd (vadd (v_le e v (vneg (rd (rd_ray r)))) Ld) Lr) Lt, v2, k3, (1 + c1 + c2)%nat)).
Proof.
  intros H1 H2 H3 H4 H5. unfold surf_li. rewrite H1. cbv zeta. unfold rdir. rewrite H2. apply Z.ltb_lt in H3. rewrite H3, H4. cbn [obind].
  rewrite H5. reflexivity.
Qed.
Print Assumptions C136_recursion.
(** the recursive ray starts at the surface point, points in the sampled direction, is one deeper, has the same time,
    begins [v_eps] away and has no end *)
Theorem C136_child_ray (p wi : vec) (r : raydiff) (eps : R) :
  let c := child_ray p wi r eps in
  ro (rd_ray c) = p /\ rd (rd_ray c) = wi /\ rdepth (rd_ray c) = (rdepth (rd_ray r) + 1)%Z /\ rtime (rd_ray c) = rtime (rd_ray r) /\
  rmint (rd_ray c) = Fin eps /\ rmaxt (rd_ray c) = PInf /\ rd_has c = false.
Proof. repeat split. Qed.
Print Assumptions C136_child_ray.
Example C136_ex : hit ex_env = (fun r => (r, Some tt)) /\ vol ex_env = None. Proof. split; reflexivity. Qed.

(** C113: with a normal that changes by dn per pixel too, the offset differs from the derivative of the refracted
    direction by twice (g n - eta dwo); so it is right only where that vanishes *)
Theorem C113_transmission_curved_refuted (eta : R) (wo n dwo dn : vec) :
  vdot n n = 1 -> 0 < 1 - eta * eta * (1 - vdot wo n * vdot wo n) ->
  let wi := refract eta wo n in
  let S := sqrt (1 - eta * eta * (1 - vdot wo n * vdot wo n)) in
  let g := (eta - eta * eta * vdot wo n / S) * (vdot dwo n + vdot wo dn) in
  vderiv (fun t => refract eta (moved wo dwo t) (moved n dn t))
    (vadd (vsub (transmit_diff eta wi wo n dwo dn) wi) (vscale 2 (vsub (vscale g n) (vscale eta dwo)))).
Proof. exact (transmit_deriv_gen eta wo n dwo dn). Qed.
Print Assumptions C113_transmission_curved_refuted.
(** the ratio used is that of the surface for rays on the normal's side and its inverse on the other *)
Theorem C113_ratio_partial (eta : R) (wo n : vec) : eta <> 0 ->
  (0 <= vdot wo n -> trans_eta eta wo n = eta) /\ (vdot wo n < 0 -> trans_eta eta wo n = / eta) /\
  (vdot wo n <> 0 -> trans_eta eta wo n * trans_eta eta (vneg wo) n = 1).
Proof.
  intros H. assert (Q : vdot (vneg wo) n = - vdot wo n) by (unfold vdot, vneg, vmap; cbn; ring).
  unfold trans_eta. rewrite Q. split; [|split]; intros C; Rcase; try lra; field; auto.
Qed.
Print Assumptions C113_ratio_partial.
