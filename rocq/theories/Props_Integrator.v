(** Property theorems C52, C53, C103-C113 (integrators and rendering loop).  Vocabulary: S_Integrator.v, S_Sampler.v. *)
From Coq Require Import Reals Lra Lia List Bool ZArith Permutation.
From Verif Require Import Base M_Geometry M_MonteCarlo M_Aggregate M_Reflection M_Utility M_Spectrum M_Sampler M_Film M_Light M_Integrator M_Renderer.
From Verif Require Import S_Reflection S_Sampler S_Integrator P_Reflection P_MonteCarlo P_Sampler P_Integrator P_Integrator2 P_Renderer.
Import ListNotations.
Open Scope R_scope.

(** a small scene for the examples: one surface everywhere (a perfect mirror facing +z), one white point light *)
Definition ex_bsdf : bsdf := mkBSDF (mkV 0 0 1) (mkV 1 0 0) (mkV 0 1 0) (mkV 0 0 1) [SpecularReflection (spec 1) FrFull].
Definition ex_light : light := mkLight true (fun p eps u t => Ok (spec 1, mkV 0 0 1, 1, set_segment p eps (mkV 0 0 9) 0 t))
  (fun _ _ => 0) (fun _ => spec 0).
Definition ex_env : env unit := mkEnv unit [ex_light] (fun r => (r, Some tt)) (fun _ => false) (fun _ _ => spec 1)
  (fun _ => 0) (fun _ _ => Ok (mkV 0 0 0, ex_bsdf)) (fun _ _ => mkV 0 0 1) (fun _ _ _ _ _ => (false, vzero, vzero, vzero, vzero)) None.

(** C52: path tracing ends after at most max_depth + 1 surface interactions, with at most max_depth ray casts, for every
    scene, direct-light estimator and random stream; the answer does not depend on how long one is prepared to wait *)
Theorem C52_path_terminates (V : Type) (e : env V) (u : nat -> R) (md : Z) (s : sample) (po : list path_offs) (r : raydiff)
    (v : V) (k : nat) : (0 <= md)%Z ->
  exists o, (forall fuel, (Z.to_nat md + 1 <= fuel)%nat -> path_li e u md s po fuel r v k = Some o) /\
    forall L k' casts, o = Ok (L, k', casts) -> (Z.of_nat casts <= md)%Z.
Proof.
  intros H. destruct (path_loop_fuel e u md (path_direct e u s po) (path_smp_of s po) (Z.to_nat md + 1)
    (mkP 0 v r false (spec 1) (spec 0) k 0)) as (o & A & B); [exact H|cbn; lia|cbn; lia|].
  exists o. split; [exact A|]. intros L k' c Q. specialize (B _ _ _ Q). cbn in B. lia.
Qed.
Print Assumptions C52_path_terminates.
(** recursive integrators: from a camera ray (depth d), the recursion ends; at most 2^(max_depth - d) - 1 surface
    interactions (1 when max_depth <= d + 1) *)
Theorem C52_recursion_terminates (V : Type) (e : env V) (u : nat -> R) (md : Z) (time : R)
    (local : V -> raydiff -> vec -> vec -> vec -> bsdf -> nat -> res (vec * nat)) (r : raydiff) (isect : V) (k : nat) :
  keeps_depth e ->
  let m := Nat.max 1 (Z.to_nat (md - rdepth (rd_ray r))) in
  exists o, (forall fuel, (m <= fuel)%nat -> renderer_li e u md time local fuel r isect k = Some o) /\
    forall L T i' k' calls, o = Ok (L, T, i', k', calls) -> (calls <= 2 ^ m - 1)%nat.
Proof.
  intros KD m. destruct (renderer_ok e u md time local KD m r isect k m) as (o & A & _ & C); [unfold depth; lia|lia|lia|].
  exists o. split; [|exact C]. intros fuel HF.
  destruct (renderer_ok e u md time local KD m r isect k fuel) as (o' & A' & B' & _); [unfold depth; lia|lia|lia|]. congruence.
Qed.
Print Assumptions C52_recursion_terminates.
Example C52_ex : keeps_depth ex_env. Proof. intros r. reflexivity. Qed.

(** C53: what reaches the film.  The luminance is y = 0.212671 r + 0.715160 g + 0.072169 b. *)
Theorem C53_sane_partial (L : V3 E) :
  let M := sanitise L in
  (M = black \/ M = L) /\ has_nans M = false /\ ey M <> PInf /\ ey M <> NInf /\
  (forall y, ey M = Fin y -> - EPS <= y) /\
  (~ opposite_infinities L -> exists a b c, M = mkV (Fin a) (Fin b) (Fin c)).
Proof.
  intros M. pose proof EPS_pos as EP.
  assert (Y0 : ey black = Fin 0) by (unfold ey, black; cbn; f_equal; ring).
  unfold M. destruct (sanitise_cases L) as [-> | (-> & A & B & C)].
  - split; [auto|]. split; [reflexivity|]. rewrite Y0. split; [discriminate|]. split; [discriminate|]. split.
    + intros y Q. injection Q as <-. lra.
    + intros _. now exists 0, 0, 0.
  - split; [auto|]. split; [exact A|]. split; [exact C|]. split; [intros Q; rewrite Q in B; discriminate|]. split.
    + intros y Q. rewrite Q in B. cbn in B. Rb. lra.
    + intros O. destruct (y_finite L A O C B) as (a & b & c & Q & _). now exists a, b, c.
Qed.
Print Assumptions C53_sane_partial.
(** but opposite infinities make the luminance NaN, which passes every test *)
Theorem C53_infinite_refuted : exists L, sanitise L = L /\ vx L = PInf /\ vy L = NInf /\ ey L = NaN.
Proof.
  exists (mkV PInf NInf (Fin 0)).
  assert (Q : ey (mkV PInf NInf (Fin 0)) = NaN).
  { unfold ey; cbn [vx vy vz emul]. rewrite !esgn_pos by lra. reflexivity. }
  split; [|repeat split; exact Q]. unfold sanitise. rewrite Q. reflexivity.
Qed.
Print Assumptions C53_infinite_refuted.

(** C103: over the pixels [x0,x1) x [y0,y1) the film receives, for every pixel in raster order, exactly
    xSamples*ySamples samples, all located in that pixel, each once, with sanitised radiance; whatever camera, scene
    and integrator answer, as long as they do not raise.  The loop always ends. *)
Theorem C103_each_sample_once (W : Type) cam hitp li vis (x0 x1 y0 y1 xst yst : Z) (jitter : bool) (o c : R)
    (orig : sample) (rn : nat -> rnd) (w : W) :
  (x0 < x1)%Z -> (y0 < y1)%Z ->
  let s := stratified_make (IZR x0) (IZR x1) (IZR y0) (IZR y1) xst yst jitter o c in
  let n := (xSamples s * ySamples s)%nat in
  let wd := Z.to_nat (x1 - x0) in
  let pixels := (wd * Z.to_nat (y1 - y0))%nat in
  (forall k, rnd_ok s (duplicate orig n) (rn k)) ->
  forall fuel, (pixels < fuel)%nat ->
  exists out, task cam hitp li vis s orig rn w fuel = Some out /\
  forall adds, out = Ok adds ->
    length adds = (pixels * n)%nat /\
    (forall a, In a adds -> exists L, snd a = sanitise L) /\
    forall j i, (j < pixels)%nat -> (i < n)%nat ->
      sample_good s (x0 + Z.of_nat (j mod wd)) (y0 + Z.of_nat (j / wd)) (sample_dup orig) (fst (nth (j * n + i) adds (dsmp, black))).
Proof.
  intros HX HY s n wd pixels RN fuel HF.
  destruct (loop_spec cam hitp li vis x0 x1 y0 y1 xst yst jitter o c HX HY orig rn RN pixels 0
     (duplicate orig n) w fuel) as (out & T & P); [reflexivity|exact HF|apply repeat_length|auto|].
  rewrite st_0 in T by assumption. exists out. split; [exact T|].
  intros adds Q. destruct (P adds Q) as (A & B & C). split; [exact A|]. split; [|exact C].
  intros a HI. rewrite Forall_forall in B. exact (B a HI).
Qed.
Print Assumptions C103_each_sample_once.
Example C103_ex : (0 < 3)%Z /\ exists rn, rnd_ok (stratified_make 0 3 0 1 1 1 true 0 1) (duplicate (mkS 0 0 0 0 0 [] [] [] []) 1) rn.
Proof.
  split; [lia|]. exists (mkRnd half half half half half [0]%nat [0]%nat (fun _ _ => half) (fun _ _ => []) (fun _ _ => half) (fun _ _ => half) (fun _ _ => [])).
  assert (HF : in01 (/2)) by (unfold in01; lra). unfold rnd_ok. cbn. split; [unfold half; auto|].
  split; [apply Permutation_refl|]. split; [apply Permutation_refl|]. split; [unfold half; auto|].
  intros i j Hi. destruct i; [|lia]. destruct j; split; apply Permutation_refl.
Qed.

(** C104 *)
Theorem C104_path_nonneg (V : Type) (e : env V) (u : nat -> R) (md : Z) (s : sample) (po : list path_offs) (fuel : nat)
    (r : raydiff) (v : V) (k : nat) (L : vec) (k' casts : nat) :
  physical e -> (forall i, 0 < u i) -> path_li e u md s po fuel r v k = Some (Ok (L, k', casts)) -> nn L.
Proof.
  intros PH U. eapply loop_nn; [exact PH|exact U| |apply nn_spec; lra|apply nn_spec; lra].
  intros bounce v0 r0 p n wo b k0 L0 k1 HB HD. exact (path_direct_nn e u PH s po bounce v0 r0 p n wo b k0 L0 k1 HB HD).
Qed.
Print Assumptions C104_path_nonneg.
Example C104_ex : physical (mkEnv unit [ex_light] (fun r => (r, Some tt)) (fun _ => false) (fun _ _ => spec 1)
  (fun _ => 0) (fun _ _ => Ok (mkV 0 0 0, mkBSDF (mkV 0 0 1) (mkV 1 0 0) (mkV 0 1 0) (mkV 0 0 1) [])) (fun _ _ => mkV 0 0 1)
  (fun _ _ _ _ _ => (false, vzero, vzero, vzero, vzero)) None).
Proof.
  unfold physical; cbn. split; [intros; apply nn_spec; lra|]. split.
  { intros l r [<-|[]]. apply nn_spec; lra. }
  split; [intros; apply nn_spec; lra|]. split.
  { intros v r p b wo u0 u1 uc s Q1 Q2. injection Q1 as <- <-. cbn in Q2. injection Q2 as <-. cbn. split; [apply nn_spec; lra|lra]. }
  split.
  { intros l p eps a t Li wi pdf vis [<-|[]] Q. cbn in Q. injection Q as <- _ _ _. apply nn_spec; lra. }
  intros v r p b wo wi fl f Q1 Q2. injection Q1 as <- <-. unfold bsdf_f in Q2; cbn in Q2. injection Q2 as <-. apply nn_spec; lra.
Qed.

(** C105: superposition.  If two scenes differ only in their light sources, and the direct-light estimate of the scene
    with both is the sum of the estimates, then so is the radiance of every path, for every random stream. *)
Theorem C105_superposition (V : Type) (e1 e2 e : env V) (u : nat -> R) (md : Z)
    (d1 d2 d : nat -> V -> raydiff -> vec -> vec -> vec -> bsdf -> nat -> res (vec * nat)) (ps : nat -> res (R * R * R))
    (fuel : nat) (r : raydiff) (v : V) (k : nat) L1 k1 c1 L2 k2 c2 :
  both_lit e1 e2 e ->
  (forall bounce v r p n wo b k L1 L2 k1 k2,
     d1 bounce v r p n wo b k = Ok (L1, k1) -> d2 bounce v r p n wo b k = Ok (L2, k2) ->
     k1 = k2 /\ d bounce v r p n wo b k = Ok (vadd L1 L2, k1)) ->
  path_run e1 u md d1 ps fuel r v k = Some (Ok (L1, k1, c1)) ->
  path_run e2 u md d2 ps fuel r v k = Some (Ok (L2, k2, c2)) ->
  path_run e u md d ps fuel r v k = Some (Ok (vadd L1 L2, k1, c1)).
Proof.
  intros BL DD. apply loop_super; [exact BL|exact DD|]. unfold lockstep; cbn. repeat split; auto.
  unfold vadd, spec, vmap2; cbn. f_equal; ring.
Qed.
Print Assumptions C105_superposition.
Example C105_ex : both_lit ex_env
  (mkEnv unit [ex_light] (hit ex_env) (hit_p ex_env) (fun _ _ => spec 2) (v_eps ex_env) (v_bsdf ex_env) (b_dgs_nn ex_env) (diffs ex_env) None)
  (mkEnv unit [ex_light; ex_light] (hit ex_env) (hit_p ex_env) (fun _ _ => spec 3) (v_eps ex_env) (v_bsdf ex_env) (b_dgs_nn ex_env) (diffs ex_env) None).
Proof. unfold both_lit; cbn. repeat split; auto; intros; unfold spec, vadd, vmap2; cbn; f_equal; ring. Qed.

(** C106: direct lighting.  For a light at a point or in a direction (delta light) an estimate is exactly
    f * Li * T * |cos| / pdf if the light is visible and 0 if it is occluded *)
Theorem C106_delta_light (V : Type) (e : env V) (l : light) (p n wo wi : vec) (eps time lpdf : R) (b : bsdf) (ls bs : R * R * R)
    (flags : Z) (k : nat) (Li f : vec) (vis : lray) : lt_delta l = true ->
  lt_sample l p eps ls time = Ok (Li, wi, lpdf, vis) -> 0 < lpdf -> is_black Li = false ->
  bsdf_f b wo wi flags = Ok f -> is_black f = false ->
  estimate_direct e l p n wo eps time b ls bs flags k =
    if hit_p e vis then Ok (spec 0, k)
    else let '(T, k') := transmittance e (inr vis) k in Ok (vscale (abs_dot wi n / lpdf) (smul f (smul Li T)), k').
Proof.
  intros A B C D F G. unfold estimate_direct, direct_light_half, direct_bsdf_half. rewrite A, B. cbn [bind].
  destruct (Rltb 0 lpdf) eqn:H; Rb; [|lra]. rewrite D. cbn [andb negb]. rewrite F. cbn [bind]. rewrite G. cbn [negb andb].
  unfold unoccluded. destruct (hit_p e vis); cbn [negb]; [reflexivity|].
  destruct (transmittance e (inr vis) k) as [T k']. reflexivity.
Qed.
Print Assumptions C106_delta_light.
(** the light is chosen uniformly: light i exactly for random numbers in [i/n, (i+1)/n), always an existing one *)
Theorem C106_uniform_choice (x : R) (n i : nat) : (0 < n)%nat -> 0 <= x < 1 ->
  (0 <= light_index x n < Z.of_nat n)%Z /\ (light_index x n = Z.of_nat i <-> INR i / INR n <= x < INR (S i) / INR n).
Proof. exact (light_index_main x n i). Qed.
Print Assumptions C106_uniform_choice.
(** sampling all samples of a light adds up that many independent estimates *)
Theorem C106_averaging (V : Type) (e : env V) (u : nat -> R) (l : light) offs (p n wo : vec) (eps time : R) (b : bsdf) (js : list nat)
    (k : nat) (L : vec) (k' : nat) : all_samples e u l offs p n wo eps time b js (spec 0) k = Ok (L, k') ->
  exists xs, length xs = length js /\ L = vsum xs /\
    Forall (fun x => exists ls bs i i', estimate_direct e l p n wo eps time b ls bs NOSPEC i = Ok (x, i')) xs.
Proof.
  intros H. apply all_samples_sum in H as (xs & A & B & C). exists xs. split; [exact A|]. split; [|exact C]. rewrite B.
  destruct (vsum xs) as [x y z]. unfold vadd, spec, vmap2; cbn. f_equal; ring.
Qed.
Print Assumptions C106_averaging.
Example C106_ex : lt_delta ex_light = true /\ is_black (spec 1) = false /\ (0 < 1)%nat /\ 0 <= 1 / 2 < 1.
Proof.
  split; [reflexivity|]. split; [|split; [lia|lra]]. unfold is_black, spec; cbn. rewrite Rabs_R1.
  assert (Q : Rltb 1 EPS = false) by (apply Rltb_false; unfold EPS; lra). now rewrite Q.
Qed.

(** C107: for lights with an area the estimate should combine light sampling and BSDF sampling.  As called by every
    integrator, the BSDF half contributes nothing, while the light half is still multiplied by its weight: whenever the
    BSDF could have sampled the direction, the estimate is too small by the factor w < 1 *)
Theorem C107_mis_refuted (V : Type) (e : env V) (l : light) (p n wo wi : vec) (eps time lpdf : R) (b : bsdf) (ls : R * R * R)
    (u0 u1 uc : R) (k : nat) (Li f : vec) (vis : lray) (sm : bsdf_smp) : lt_delta l = false ->
  lt_sample l p eps ls time = Ok (Li, wi, lpdf, vis) -> 0 < lpdf -> is_black Li = false ->
  bsdf_f b wo wi NOSPEC = Ok f -> is_black f = false -> hit_p e vis = false -> vol e = None ->
  bsdf_sample b wo u0 u1 uc NOSPEC = Ok sm -> 0 < bsdf_pdf b wo wi NOSPEC ->
  exists w, 0 < w < 1 /\
    estimate_direct e l p n wo eps time b ls (u0, u1, uc) NOSPEC k =
      Ok (vscale w (vscale (abs_dot wi n / lpdf) (smul f Li)), k).
Proof.
  intros A B C D F G H NV BS BP. set (q := bsdf_pdf b wo wi NOSPEC) in *.
  exists (power_heuristic 1 lpdf 1 q). split.
  { unfold power_heuristic. cbn [INR]. rewrite !Rmult_1_l. assert (0 < lpdf * lpdf) by nra. assert (0 < q * q) by nra.
    split; [apply Rdiv_lt_0_compat; lra|]. apply Rmult_lt_reg_r with (lpdf * lpdf + q * q); [lra|].
    unfold Rdiv. rewrite Rmult_assoc, Rinv_l by lra. lra. }
  unfold estimate_direct, direct_light_half. rewrite B. cbn [bind].
  destruct (Rltb 0 lpdf) eqn:K; Rb; [|lra]. rewrite D. cbn [andb negb]. rewrite F. cbn [bind]. rewrite G. cbn [negb andb].
  unfold unoccluded. rewrite H. cbn [negb]. unfold transmittance. rewrite NV, A. cbn [bind].
  rewrite (bsdf_half_ok l p wo b u0 u1 uc _ sm BS). cbn [bind]. do 2 f_equal. fold q.
  unfold vscale, smul, spec, vmap, vmap2; cbn. f_equal; unfold Rdiv; ring.
Qed.
Print Assumptions C107_mis_refuted.

(** C108: the arrays integrators read exist.  After PathIntegrator.request_samples every offset it keeps points to
    arrays of one element, so every read for the first three bounces succeeds on a sample filled as requested; likewise
    for the direct-lighting integrator, with as many elements as the light asks for *)
Theorem C108_path_requests (s0 s' s : sample) (po : list path_offs) : path_request SAMPLE_DEPTH s0 = (s', po) ->
  filled s (n1D s') (n2D s') ->
  length po = SAMPLE_DEPTH /\
  Forall (fun o => readable s (po_light o) 0 /\ readable s (po_bsdf o) 0 /\ readable s (po_path o) 0 /\
                   exists x, (do l <- idx (oneD s) (po_num o); idx l 0) = Ok x) po.
Proof.
  intros H F. destruct (path_request_spec _ _ _ _ H) as (A & _ & B). split; [exact A|].
  eapply Forall_impl; [|exact B]. intros o (N & (L1 & L2) & (B1 & B2) & (P1 & P2)).
  destruct L1, B1, P1. split; [|split; [|split]]; try (eapply readable_ok; eauto; lia).
  destruct F as [F1 _]. rewrite <- F1 in N. apply nth_error_map_length in N as (l & N1 & N2).
  unfold idx. rewrite N1. cbn [bind]. destruct l as [|x l]; [discriminate|]. now exists x.
Qed.
Print Assumptions C108_path_requests.
Theorem C108_direct_requests (ns : list nat) (s0 s' s : sample) (lo bo : list offset) : direct_request ns s0 = (s', lo, bo) ->
  filled s (n1D s') (n2D s') ->
  map of_n lo = ns /\ map of_n bo = ns /\
  Forall (fun o => forall j, (j < of_n o)%nat -> readable s o j) lo /\
  Forall (fun o => forall j, (j < of_n o)%nat -> readable s o j) bo.
Proof.
  intros H F. destruct (direct_request_spec _ _ _ _ _ H) as (A & B & _ & C & D). split; [exact A|]. split; [exact B|].
  split; [eapply Forall_impl; [|exact C]|eapply Forall_impl; [|exact D]]; intros o [X Y] j J; eapply readable_ok; eauto.
Qed.
Print Assumptions C108_direct_requests.
Example C108_ex : exists s' lo bo s, direct_request [2; 1]%nat (mkS 0 0 0 0 0 [] [] [] []) = (s', lo, bo) /\ filled s (n1D s') (n2D s').
Proof.
  destruct (direct_request [2; 1]%nat (mkS 0 0 0 0 0 [] [] [] [])) as [[s' lo] bo] eqn:H.
  exists s', lo, bo, (mkS 0 0 0 0 0 [] [] [[0; 0]; [0; 0]; [0]; [0]] [[(0,0); (0,0)]; [(0,0); (0,0)]; [(0,0)]; [(0,0)]]).
  split; [reflexivity|]. set (z := 0) in H. clearbody z. vm_compute in H. injection H as <- _ _. split; reflexivity.
Qed.

(** C109: the one-light strategy of the direct-lighting integrator cannot even request its samples *)
Theorem C109_one_light_refuted (s : sample) : direct_request_one s = Err AttributeError.
Proof. reflexivity. Qed.
Print Assumptions C109_one_light_refuted.

(** C110: radiance seen through a specular transmitter.  Without a volume integrator it is always black: the recursive
    integrators return emission + local lighting + the specular reflection, whatever lies behind the glass *)
Theorem C110_transmission_refuted (V : Type) (e : env V) (u : nat -> R) (md : Z) (time : R)
    (local : V -> raydiff -> vec -> vec -> vec -> bsdf -> nat -> res (vec * nat)) (fuel : nat) (r : raydiff) (b : bsdf) (p n : vec)
    (i i' : V) (k k' c : nat) (L : vec) : vol e = None ->
  specular e u (renderer_li e u md time local fuel) true r b p n i k = Some (Ok (L, i', k', c)) -> L = spec 0.
Proof. intros NV. apply transmit_black. exact NV. Qed.
Print Assumptions C110_transmission_refuted.
(** the reflected part is right: the radiance of the recursive ray, times f |cos| / pdf *)
Theorem C110_reflection_partial (V : Type) (e : env V) (u : nat -> R) (rec : raydiff -> V -> nat -> option (res (@rout V)))
    (r : raydiff) (b : bsdf) (p n wi : vec) (i : V) (k : nat) (s : bsdf_smp) :
  bsdf_sample b (vneg (rdir r)) (u k) (u (S k)) (u (S (S k))) (Z.lor REFLECTION SPECULAR) = Ok s ->
  0 < sm_pdf s -> is_black (sm_f s) = false -> sm_wi s = Some wi -> vdot wi n <> 0 -> rd_has r = false ->
  forall Li T i' k' c, rec (child_ray p wi r (v_eps e i)) i (S (S (S k))) = Some (Ok (Li, T, i', k', c)) ->
  specular e u rec false r b p n i k =
    Some (Ok (sdiv (vscale (abs_dot wi n) (smul (sm_f s) Li)) (sm_pdf s), i', k', c)).
Proof.
  intros A B C D N H Li T i' k' c RQ. unfold specular. cbv beta iota delta [smp_from_rand]. rewrite A.
  destruct (Rltb 0 (sm_pdf s)) eqn:K; Rb; [|lra]. rewrite C. cbn [andb negb]. rewrite D.
  destruct (Reqb (abs_dot wi n) 0) eqn:K2; Rb.
  { exfalso. apply N. unfold abs_dot in K2. destruct (Req_dec (vdot wi n) 0) as [|X]; [assumption|]. now apply Rabs_no_R0 in X. }
  rewrite H, RQ. reflexivity.
Qed.
Print Assumptions C110_reflection_partial.

(** C111: emission met after a non-specular bounce is already in the direct-light estimate and must not be added again.
    It is added: with max_depth 1, whatever lobe was sampled (in particular a diffuse one), the result is
    Le + Ld + beta (Le' + Ld') *)
Theorem C111_double_count_refuted (V : Type) (e : env V) (u : nat -> R)
    (direct : nat -> V -> raydiff -> vec -> vec -> vec -> bsdf -> nat -> res (vec * nat)) (ps : nat -> res (R * R * R))
    (r r' : raydiff) (v v' : V) (k k1 k2 : nat) (p p' wi Ld Ld' : vec) (b b' : bsdf) (u0 u1 uc u0' u1' uc' : R) (sm sm' : bsdf_smp) (t : Z) :
  v_bsdf e v r = Ok (p, b) -> direct 0%nat v r p (b_dgs_nn e v r) (vneg (rdir r)) b k = Ok (Ld, k1) ->
  ps 0%nat = Ok (u0, u1, uc) -> bsdf_sample b (vneg (rdir r)) u0 u1 uc ALL = Ok sm ->
  spec_is_black (sm_f sm) = false -> sm_pdf sm <> 0 -> sm_wi sm = Some wi ->
  sm_type sm = Some t -> Z.land t SPECULAR = 0%Z ->
  hit e (child_ray p wi r (v_eps e v)) = (r', Some v') -> v_bsdf e v' r' = Ok (p', b') ->
  direct 1%nat v' r' p' (b_dgs_nn e v' r') (vneg (rdir r')) b' k1 = Ok (Ld', k2) ->
  ps 1%nat = Ok (u0', u1', uc') -> bsdf_sample b' (vneg (rdir r')) u0' u1' uc' ALL = Ok sm' -> (sm_pdf sm' = 0) ->
  let beta := sdiv (vscale (abs_dot wi (b_dgs_nn e v r)) (sm_f sm)) (sm_pdf sm) in
  exists k', path_run e u 1 direct ps 2 r v k =
    Some (Ok (vadd (vadd (v_le e v (vneg (rdir r))) Ld) (smul beta (vadd (v_le e v' (vneg (rdir r'))) Ld')), k', 1%nat)).
Proof.
  intros H1 H2 H3 H4 H5 H6 H7 H8 H9 H10 H11 H12 H13 H14 H15 beta. unfold path_run. cbn [path_loop].
  unfold path_step at 1. cbn [p_bounce p_v p_r p_spb p_beta p_L p_k p_calls Nat.eqb orb]. rewrite H1, H2.
  change (0 <? SAMPLE_DEPTH)%nat with true. cbn match. rewrite H3. cbn [bind]. rewrite H4, H5.
  destruct (Reqb (sm_pdf sm) 0) eqn:Q; Rb; [contradiction|]. cbn [orb]. rewrite H7.
  change (SAMPLE_DEPTH <? 0)%nat with false. cbn match. change (Z.of_nat 0 =? 1)%Z with false. cbn [orb]. rewrite H10.
  change (1 <? 0)%nat with false. cbn match.
  unfold path_step. cbn [p_bounce p_v p_r p_spb p_beta p_L p_k p_calls Nat.eqb orb]. rewrite H11, H12.
  change (1 <? SAMPLE_DEPTH)%nat with true. cbn match. rewrite H13. cbn [bind]. rewrite H14.
  destruct (Reqb (sm_pdf sm') 0) eqn:Q2; Rb; [|contradiction]. rewrite orb_true_r.
  eexists. do 3 f_equal. f_equal. fold beta. unfold vadd, smul, spec, vmap2; cbn. f_equal; ring.
Qed.
Print Assumptions C111_double_count_refuted.

(** C112: the differential of a specular reflection is the derivative of the mirrored direction when the incoming
    direction and the normal change by dwo and dn per pixel *)
Theorem C112_reflection_differential (wo n dwo dn : vec) :
  vderiv (fun t => mirror (moved wo dwo t) (moved n dn t)) (vsub (reflect_diff (mirror wo n) wo n dwo dn) (mirror wo n)).
Proof. exact (reflect_deriv wo n dwo dn). Qed.
Print Assumptions C112_reflection_differential.

(** C113: for transmission through a flat surface the code's offset is the exact negative of the derivative of the
    refracted direction *)
Theorem C113_transmission_refuted (eta : R) (wo n dwo : vec) : vdot n n = 1 -> 0 < 1 - eta * eta * (1 - vdot wo n * vdot wo n) ->
  let wi := refract eta wo n in
  vderiv (fun t => refract eta (moved wo dwo t) n) (vneg (vsub (transmit_diff eta wi wo n dwo vzero) wi)).
Proof. intros A B. exact (transmit_deriv eta wo n dwo A B). Qed.
Print Assumptions C113_transmission_refuted.
Example C113_ex : let n := mkV 0 0 1 in let wo := mkV 0 0 1 in
  vdot n n = 1 /\ 0 < 1 - (1/2) * (1/2) * (1 - vdot wo n * vdot wo n) /\
  vx (vsub (transmit_diff (1/2) (refract (1/2) wo n) wo n (mkV 1 0 0) vzero) (refract (1/2) wo n)) = 1 / 2.
Proof.
  cbv zeta. split; [unfold vdot; cbn; ring|]. split; [unfold vdot; cbn; lra|].
  unfold transmit_diff. generalize (refract (1/2) (mkV 0 0 1) (mkV 0 0 1)). intros m. cbv zeta.
  match goal with |- context[vscale ?a vzero] => generalize a end. intros mu.
  match goal with |- context[vadd (vscale mu vzero) (vscale ?a ?b)] => generalize a end. intros dmu.
  unfold vsub, vadd, vscale, vzero, vmap, vmap2; cbn. field.
Qed.
