(** Theorems added after testing against wrong programs: C32, C50, C87, C97 (more about them), C156, C157. *)
From Coq Require Import String.
From Coq Require Import Reals Lra Lia List Bool ZArith Ascii.
From Verif Require Import Base M_Geometry M_Transform M_Utility M_Sampler M_Film M_Spectrum M_Light M_Renderer M_Interface S_Spectrum.
From Verif Require Import S_Geometry S_Light S_Interface P_Geometry P_Light P_Film P_Film2 P_Spectrum4 P_Interface P_Interface2 P_Renderer.
Import ListNotations.
Open Scope list_scope.
Open Scope R_scope.

(** ** C32: samples spaced by half a filter width, anywhere relative to the pixel, have Mitchell weights of sum 1 *)
Theorem C32_mitchell_tiling (B C xw yw t u : R) : 0 < xw -> 0 < yw -> 0 <= t <= 1 -> 0 <= u <= 1 ->
  fold_right Rplus 0 (map (fun i => fold_right Rplus 0 (map (fun j => f_eval (mitchell_filter B C xw yw) ((t + i) * (xw / 2)) ((u + j) * (yw / 2)))
    [-2; -1; 0; 1])) [-2; -1; 0; 1]) = 1.
Proof.
  intros X Y T U. cbn [map fold_right]. unfold mitchell_filter. cbn [f_eval].
  assert (Q : forall w z, 0 < w -> z * (w / 2) * (1 / w) = z * (1 / 2)) by (intros; field; lra).
  rewrite !Q by assumption.
  pose proof (mitchell_unity B C t T) as E1. pose proof (mitchell_unity B C u U) as E2.
  replace (t + -2) with (t - 2) by ring. replace (t + -1) with (t - 1) by ring. replace (u + -2) with (u - 2) by ring. replace (u + -1) with (u - 1) by ring.
  rewrite !Rplus_0_r. set (a := mitchell B C ((t - 2) * (1 / 2))) in *. set (b := mitchell B C ((t - 1) * (1 / 2))) in *. set (c := mitchell B C (t * (1 / 2))) in *.
  set (d := mitchell B C ((t + 1) * (1 / 2))) in *. set (a' := mitchell B C ((u - 2) * (1 / 2))) in *. set (b' := mitchell B C ((u - 1) * (1 / 2))) in *.
  set (c' := mitchell B C (u * (1 / 2))) in *. set (d' := mitchell B C ((u + 1) * (1 / 2))) in *.
  transitivity ((a + b + c + d) * (a' + b' + c' + d')); [ring|]. rewrite E1, E2. ring.
Qed.
Print Assumptions C32_mitchell_tiling.
(** the windowed sinc vanishes at the multiples of width/tau other than 0 *)
Theorem C32_lanczos_zeros (xw yw tau y : R) (k : Z) : 0 < xw -> 0 < tau -> EPS <= Rabs (IZR k / tau) -> (k <> 0)%Z ->
  f_eval (lanczos_filter xw yw tau) (IZR k * (xw / tau)) y = 0.
Proof.
  intros X T A K. unfold lanczos_filter. cbn [f_eval]. replace (IZR k * (xw / tau) * (1 / xw)) with (IZR k / tau) by (field; lra).
  assert (Q : lanczos tau (IZR k / tau) = 0); [|rewrite Q; ring].
  unfold lanczos. cbv zeta. destruct (Rltb _ EPS) eqn:Q1; Rb; [lra|]. destruct (Rltb 1 _); [reflexivity|].
  assert (Q : np_sinc (Rabs (IZR k / tau) * tau) = 0); [|rewrite Q; ring].
  assert (E : Rabs (IZR k / tau) * tau = IZR (Z.abs k)). { unfold Rdiv. rewrite Rabs_mult, (Rabs_right (/ tau)), abs_IZR by (apply Rle_ge, Rlt_le, Rinv_0_lt_compat; lra). field. lra. }
  rewrite E. unfold np_sinc. destruct (Reqb _ 0) eqn:Q2; Rb; [apply eq_IZR in Q2; lia|].
  replace (sin (PI * IZR (Z.abs k))) with 0; [unfold Rdiv; ring|]. symmetry. apply sin_eq_0_1. exists (Z.abs k). ring.
Qed.
Print Assumptions C32_lanczos_zeros.
Lemma sin_low x : 0 <= x <= PI -> x - x ^ 3 / 6 <= sin x.
Proof.
  intros H. destruct (sin_bound x 0) as [A _]; [lra|lra|]. eapply Rle_trans; [|exact A].
  unfold sin_approx, sin_term. cbn. right. field.
Qed.
Lemma sinc_bounds u : 0 < u <= 1 -> 1 - (PI * u) ^ 2 / 6 <= np_sinc u <= 1.
Proof.
  intros H. pose proof PI_RGT_0. unfold np_sinc. destruct (Reqb u 0) eqn:Q; Rb; [lra|].
  assert (P : 0 < PI * u <= PI) by nra. pose proof (sin_low (PI * u) ltac:(lra)) as L. pose proof (sin_lt_x (PI * u) ltac:(lra)) as U.
  set (w := PI * u) in *. split.
  - apply Rmult_le_reg_r with w; [lra|]. replace (sin w / w * w) with (sin w) by (field; lra). replace ((1 - w ^ 2 / 6) * w) with (w - w ^ 3 / 6) by field. exact L.
  - apply Rmult_le_reg_r with w; [lra|]. replace (sin w / w * w) with (sin w) by (field; lra). lra.
Qed.
Lemma sinc_nonneg u : 0 < u <= 1 -> 0 <= np_sinc u.
Proof.
  intros H. pose proof PI_RGT_0. unfold np_sinc. destruct (Reqb u 0) eqn:Q; Rb; [lra|].
  assert (P : 0 < PI * u <= PI) by nra. pose proof (sin_ge_0 (PI * u) ltac:(lra) ltac:(lra)). apply Rmult_le_pos; [lra|]. apply Rlt_le, Rinv_0_lt_compat. lra.
Qed.
Lemma lanczos_lobe tau z : 1 <= tau -> Rabs z * tau <= 1 -> 1 - PI ^ 2 / 6 * (tau ^ 2 + 1) * z ^ 2 <= lanczos tau z <= 1 /\ 0 <= lanczos tau z.
Proof.
  intros T H. unfold lanczos. cbv zeta. pose proof PI_RGT_0. pose proof (Rabs_pos z).
  assert (Z2 : z ^ 2 = Rabs z ^ 2) by (rewrite <- !Rsqr_pow2; apply Rsqr_abs).
  destruct (Rltb _ EPS) eqn:Q1; Rb. { split; [|lra]. split; [|lra]. assert (0 <= PI ^ 2 / 6 * (tau ^ 2 + 1) * z ^ 2); [|lra]. apply Rmult_le_pos; [apply Rmult_le_pos; nra|nra]. }
  unfold EPS in Q1. destruct (Rltb 1 _) eqn:Q2; Rb; [nra|].
  assert (A : 0 < Rabs z * tau <= 1) by nra. assert (B : 0 < Rabs z <= 1) by nra.
  destruct (sinc_bounds _ A) as [A1 A2], (sinc_bounds _ B) as [B1 B2]. pose proof (sinc_nonneg _ A) as A3. pose proof (sinc_nonneg _ B) as B3.
  set (p := np_sinc (Rabs z * tau)) in *. set (q := np_sinc (Rabs z)) in *. rewrite Z2. split; [|nra]. split; [|nra].
  apply Rle_trans with (1 - (1 - p) - (1 - q)); [|nra].
  replace ((PI * (Rabs z * tau)) ^ 2 / 6) with (PI ^ 2 / 6 * tau ^ 2 * Rabs z ^ 2) in A1 by field.
  replace ((PI * Rabs z) ^ 2 / 6) with (PI ^ 2 / 6 * Rabs z ^ 2) in B1 by field. nra.
Qed.
(** and inside the central lobe it lies between 0 and 1, near 1 close to the centre *)
Theorem C32_lanczos_lobe (xw yw tau x y : R) : 0 < xw -> 0 < yw -> 1 <= tau -> Rabs x * tau <= xw -> Rabs y * tau <= yw ->
  let v := f_eval (lanczos_filter xw yw tau) x y in
  0 <= v <= 1 /\ 1 - PI ^ 2 / 6 * (tau ^ 2 + 1) * ((x / xw) ^ 2 + (y / yw) ^ 2) <= v.
Proof.
  intros X Y T HX HY. unfold lanczos_filter. cbn [f_eval]. cbv zeta.
  assert (N0 : forall z w, 0 < w -> Rabs z * tau <= w -> Rabs (z * (1 / w)) * tau <= 1).
  { intros z w W H. rewrite Rabs_mult, (Rabs_right (1 / w)) by (apply Rle_ge, Rlt_le, Rdiv_lt_0_compat; lra). apply Rmult_le_reg_r with w; [lra|]. field_simplify; lra. }
  destruct (lanczos_lobe tau (x * (1 / xw)) T (N0 _ _ X HX)) as [[A1 A2] A3], (lanczos_lobe tau (y * (1 / yw)) T (N0 _ _ Y HY)) as [[B1 B2] B3].
  set (p := lanczos tau (x * (1 / xw))) in *. set (q := lanczos tau (y * (1 / yw))) in *. split; [split; nra|].
  apply Rle_trans with (1 - (1 - p) - (1 - q)); [|nra].
  replace (x / xw) with (x * (1 / xw)) by (field; lra). replace (y / yw) with (y * (1 / yw)) by (field; lra). nra.
Qed.
Print Assumptions C32_lanczos_lobe.
Example C32_ex : Rabs (1 / 2) * 3 <= 2 /\ EPS <= Rabs (2 / 3) /\ 0 <= 1 / 4 <= 1.
Proof. rewrite !Rabs_pos_eq by lra. unfold EPS. lra. Qed.

(** ** C50: a new session starts with the documented defaults and its own identity transforms and graphics state *)
Theorem C50_defaults (h : list call) (o : nat) : phase_after h = UNINIT ->
  let s := run initial h in let s' := fst (exec s (Init o)) in
  exists ro, s_ropt s' = Some ro /\ o_start ro = 0 /\ o_end ro = 1 /\ (forall k, o_param ro k = None) /\
    (o_name ro KFilter = "box" /\ o_name ro KFilm = "image" /\ o_name ro KCamera = "perspective" /\ o_name ro KSampler = "stratified" /\
     o_name ro KAggregator = "simple" /\ o_name ro KRenderer = "sampler" /\ o_name ro KSurface = "directlighting" /\ o_name ro KVolume = "")%string /\
    deref s' (o_c2w ro) = [Some t_identity; Some t_identity].
Proof.
  intros H s s'. assert (P : s_status s = UNINIT) by (unfold s; rewrite run_phase; exact H).
  unfold s'. cbn [exec]. unfold system_init. rewrite P. cbn [fst s_ropt]. eexists. split; [reflexivity|]. cbn [o_start o_end o_param o_name o_c2w default_name].
  repeat (split; [try reflexivity; auto|]); repeat split. unfold deref. cbn [s_heap]. rewrite app_nth2, Nat.sub_diag by lia. reflexivity.
Qed.
Print Assumptions C50_defaults.
(** the options after any history are those its calls set, one after another *)
Definition view (o : ropts) : options := mkOpts (o_start o) (o_end o) (o_name o) (o_param o).
Lemma exec_options s c : (s_status s = UNINIT -> s_ropt s = None) ->
  option_map view (s_ropt (fst (exec s c))) = next_options (s_status s) (option_map view (s_ropt s)) c /\
  (s_status (fst (exec s c)) = UNINIT -> s_ropt (fst (exec s c)) = None).
Proof.
  intros U.
  assert (K : forall x : out, s_ropt (fst x) = s_ropt s -> s_status (fst x) = s_status s ->
    option_map view (s_ropt (fst x)) = option_map view (s_ropt s) /\ (s_status (fst x) = UNINIT -> s_ropt (fst x) = None)).
  { intros x A B. rewrite A, B. split; [reflexivity|exact U]. }
  assert (CC : forall t, s_ropt (fst (trans_concat s t)) = s_ropt s /\ s_status (fst (trans_concat s t)) = s_status s).
  { intros t. unfold trans_concat. destruct (mul_entries _ _). split; reflexivity. }
  destruct c; cbn [exec];
    try (match goal with |- context [next_options _ _ ?c] => change (next_options (s_status s) (option_map view (s_ropt s)) c) with (option_map view (s_ropt s)) end;
         apply K; first [apply CC|reflexivity]).
  - unfold system_init. destruct (s_status s) eqn:P; cbn; (split; [reflexivity|]); try discriminate; rewrite P; discriminate.
  - unfold system_clean. destruct (s_status s) eqn:P; cbn; (split; [|auto]); try reflexivity. rewrite U by reflexivity. reflexivity.
  - change (next_options (s_status s) (option_map view (s_ropt s)) (SetCoord name)) with (option_map view (s_ropt s)).
    unfold set_coordinate_system. destruct (lookup _ _); apply K; reflexivity.
  - unfold set_transformation_time. destruct (s_ropt s) as [o|] eqn:P; cbn; [|split; [rewrite P; reflexivity|intros _; exact P]].
    split; [reflexivity|]. intros Q. specialize (U Q). discriminate.
  - unfold set_option. destruct (s_ropt s) as [o|] eqn:P; cbn; [|split; [rewrite P; reflexivity|intros _; exact P]].
    split; [reflexivity|]. intros Q. specialize (U Q). discriminate.
  - unfold set_camera. destruct (s_ropt s) as [o|] eqn:P; [|cbn; split; [rewrite P; reflexivity|intros _; exact P]].
    destruct (inverses _); cbn; (split; [reflexivity|]; intros Q; specialize (U Q); discriminate).
  - change (next_options (s_status s) (option_map view (s_ropt s)) WorldBegin) with (option_map view (s_ropt s)). cbn. split; [reflexivity|discriminate].
  - change (next_options (s_status s) (option_map view (s_ropt s)) AttrEnd) with (option_map view (s_ropt s)).
    unfold attribute_end. destruct (s_gstack s); [apply K; reflexivity|]. cbn [s_tstack set_gs]. destruct (s_tstack s); apply K; reflexivity.
  - change (next_options (s_status s) (option_map view (s_ropt s)) TransEnd) with (option_map view (s_ropt s)).
    unfold transform_end. destruct (s_tstack s); apply K; reflexivity.
Qed.
Theorem C50_history (h : list call) : option_map view (s_ropt (run initial h)) = options_after h.
Proof.
  assert (G : forall h s, (s_status s = UNINIT -> s_ropt s = None) ->
    option_map view (s_ropt (run s h)) = options_from (s_status s) (option_map view (s_ropt s)) h).
  { clear h. induction h as [|c h IH]; intros s U; [reflexivity|]. cbn [run fold_left options_from].
    destruct (exec_options s c U) as [A B]. change (fold_left (fun s c => fst (exec s c)) h (fst (exec s c))) with (run (fst (exec s c)) h).
    rewrite IH by exact B. rewrite A. f_equal. exact (run_phase [c] s). }
  apply (G h initial). reflexivity.
Qed.
Print Assumptions C50_history.
Example C50_history_ex : exists o, options_after [Init 3; SetTime 2 5; SetCamera "Ortho" (Some 7%nat); SetOption KFilm "A" None; Rotate 1 vzero] = Some o /\
  at_start o = 2 /\ at_end o = 5 /\ called o KCamera = "ortho"%string /\ given o KCamera = Some 7%nat /\ called o KFilm = "a"%string /\ called o KSampler = "stratified"%string.
Proof. eexists. split; [reflexivity|]. repeat split. Qed.
(** the graphics state of a new session is not any earlier one *)
Definition known_states (s : st) : list (option nat) := s_gs s :: s_gstack s.
Lemma concat_known s t : known_states (fst (trans_concat s t)) = known_states s /\ s_gnext (fst (trans_concat s t)) = s_gnext s.
Proof. unfold trans_concat. destruct (mul_entries _ _). split; reflexivity. Qed.
Lemma exec_known s c : (forall g, In g (known_states (fst (exec s c))) -> In g (known_states s) \/ g = Some (s_gnext s)) /\
  ((s_gnext (fst (exec s c)) = s_gnext s /\ forall g, In g (known_states (fst (exec s c))) -> In g (known_states s)) \/ s_gnext (fst (exec s c)) = S (s_gnext s)).
Proof.
  assert (K : forall x : out, known_states (fst x) = known_states s /\ s_gnext (fst x) = s_gnext s ->
    (forall g, In g (known_states (fst x)) -> In g (known_states s) \/ g = Some (s_gnext s)) /\
    ((s_gnext (fst x) = s_gnext s /\ forall g, In g (known_states (fst x)) -> In g (known_states s)) \/ s_gnext (fst x) = S (s_gnext s))).
  { intros x [A B]. rewrite A, B. split; [intros g H; now left|]. left. split; [reflexivity|auto]. }
  destruct c; cbn [exec]; try (apply K; first [apply concat_known|split; reflexivity]).
  - unfold system_init. destruct (s_status s); [|apply K; split; reflexivity|apply K; split; reflexivity]. cbn [fst]. split; [|right; reflexivity].
    unfold known_states; cbn. intros g [<-|H]; [now right|left; now right].
  - apply K. unfold system_clean. destruct (s_status s); split; reflexivity.
  - apply K. unfold set_coordinate_system. destruct (lookup _ _); split; reflexivity.
  - apply K. unfold set_transformation_time. destruct (s_ropt s); split; reflexivity.
  - apply K. unfold set_option. destruct (s_ropt s); split; reflexivity.
  - apply K. unfold set_camera. destruct (s_ropt s); [|split; reflexivity]. destruct (inverses _); split; reflexivity.
  - unfold attribute_begin, known_states; cbn. split; [intros g [<-|[<-|H]]; auto|]. left. split; [reflexivity|]. intros g [<-|[<-|H]]; auto.
  - unfold attribute_end. destruct (s_gstack s) as [|x r] eqn:Q; [apply K; split; reflexivity|]. unfold known_states. rewrite Q.
    cbn [s_tstack set_gs]. destruct (s_tstack s); cbn; (split; [intros g [<-|H]; auto|]; left; split; [reflexivity|]; intros g [<-|H]; auto).
  - apply K. unfold transform_end. destruct (s_tstack s); split; reflexivity.
Qed.
Lemma fresh_inv (h : list call) : let s := run initial h in forall g, In (Some g) (known_states s) -> (g < s_gnext s)%nat.
Proof.
  assert (G : forall h s0, (forall g, In (Some g) (known_states s0) -> (g < s_gnext s0)%nat) -> forall g, In (Some g) (known_states (run s0 h)) -> (g < s_gnext (run s0 h))%nat).
  { clear h. induction h as [|c h IH]; intros s0 H; [exact H|]. cbn. apply IH. intros g HG. destruct (exec_known s0 c) as [A [[B B']|B]]; rewrite B.
    - apply H, B', HG.
    - destruct (A _ HG) as [X|X]; [apply H in X; lia|injection X as ->; lia]. }
  apply G. cbn. intros g [Q|[]]. discriminate.
Qed.
Theorem C50_fresh_state (h : list call) (o : nat) : phase_after h = UNINIT ->
  let s := run initial h in let s' := fst (exec s (Init o)) in
  s_gs s' <> None /\ ~ In (s_gs s') (known_states s) /\ s_gstack s' = s_gstack s.
Proof.
  intros H s s'. assert (P : s_status s = UNINIT) by (unfold s; rewrite run_phase; exact H).
  unfold s'. cbn [exec]. unfold system_init. rewrite P. cbn [fst s_gs s_gstack]. split; [discriminate|]. split; [|reflexivity].
  intros IN. apply (fresh_inv h) in IN. fold s in IN. lia.
Qed.
Print Assumptions C50_fresh_state.
(** option names are kept with the capitals A-Z lowered and every other character as it is *)
Theorem C50_lower (a b : string) (c : ascii) : lower (a ++ String c b) = (lower a ++ String (lower_char c) (lower b))%string /\
  (65 <= nat_of_ascii c <= 90 -> nat_of_ascii (lower_char c) = nat_of_ascii c + 32)%nat /\
  (~ (65 <= nat_of_ascii c <= 90)%nat -> lower_char c = c).
Proof.
  split; [induction a as [|x a IH]; [reflexivity|cbn [append lower]; now rewrite IH]|]. split.
  - intros H. unfold lower_char. cbv zeta. rewrite (proj2 (Nat.leb_le _ _) (proj1 H)), (proj2 (Nat.leb_le _ _) (proj2 H)). cbn [andb].
    apply nat_ascii_embedding. lia.
  - intros H. unfold lower_char. cbv zeta. destruct (65 <=? nat_of_ascii c)%nat eqn:A; [|reflexivity]. destruct (nat_of_ascii c <=? 90)%nat eqn:B; [|reflexivity].
    apply Nat.leb_le in A, B. lia.
Qed.
Print Assumptions C50_lower.
Example C50_lower_ex : lower "ABZ[@z9" = "abz[@z9"%string. Proof. reflexivity. Qed.

(** ** C87: grey colours are a multiple of the white curve.  The other two orders: wrong curves *)
Theorem C87_grey_partial (k x : R) (B : basis) (i : nat) : basis_ok B ->
  nth i (from_rgb_branch k B (mkV x x x)) 0 = Rmax 0 (k * (x * nth i (b_white B) 0)).
Proof.
  intros OK. pose proof (from_rgb_nth k B (mkV x x x) i OK) as Q. destruct (argsort3 (mkV x x x)) as [[lo me] hi].
  assert (V : forall j, vnth (mkV x x x) j = x) by (intros [|[|j]]; reflexivity). rewrite !V in Q. rewrite (proj2 Q). f_equal. f_equal. ring.
Qed.
Print Assumptions C87_grey_partial.
Theorem C87_green_smallest_refuted (k r g b : R) (B : basis) (i : nat) : basis_ok B -> g < r -> r <= b ->
  nth i (from_rgb_branch k B (mkV r g b)) 0 =
  Rmax 0 (k * (g * nth i (b_white B) 0 + (r - g) * nth i (b_red B) 0 + (b - r) * nth i (b_blue B) 0)).
Proof.
  intros OK H1 H2. pose proof (from_rgb_nth k B (mkV r g b) i OK) as Q.
  assert (S : argsort3 (mkV r g b) = (1, 0, 2)%nat).
  { unfold argsort3. cbn [vx vy vz vnth]. replace (Rltb g r) with true by (symmetry; now apply Rltb_true). cbn [vnth vx vy vz].
    replace (Rltb b g) with false by (symmetry; apply Rltb_false; lra). replace (Rltb b r) with false by (symmetry; apply Rltb_false; lra). reflexivity. }
  rewrite S in Q. cbn [vnth vx vy vz] in Q. exact (proj2 Q).
Qed.
Print Assumptions C87_green_smallest_refuted.
Theorem C87_blue_smallest_refuted (k r g b : R) (B : basis) (i : nat) : basis_ok B -> b < r -> r <= g ->
  nth i (from_rgb_branch k B (mkV r g b)) 0 =
  Rmax 0 (k * (b * nth i (b_white B) 0 + (r - b) * nth i (b_green B) 0 + (g - r) * nth i (b_red B) 0)).
Proof.
  intros OK H1 H2. pose proof (from_rgb_nth k B (mkV r g b) i OK) as Q.
  assert (S : argsort3 (mkV r g b) = (2, 0, 1)%nat).
  { unfold argsort3. cbn [vx vy vz vnth]. replace (Rltb g r) with false by (symmetry; apply Rltb_false; lra). cbn [vnth vx vy vz].
    replace (Rltb b r) with true by (symmetry; now apply Rltb_true). reflexivity. }
  rewrite S in Q. cbn [vnth vx vy vz] in Q. exact (proj2 Q).
Qed.
Print Assumptions C87_blue_smallest_refuted.

(** ** C97: the goniophotometric light's samples lead to the light *)
Theorem C97_gonio_partial (l2w : transform) (i p : vec) (file : option picture) (pEps time : R) :
  let pos := light_pos l2w in p <> pos ->
  exists s, gonio_sample_l l2w i file p pEps time = Ok s /\ unit (ls_wi s) /\ vadd p (vscale (vlength (vsub pos p)) (ls_wi s)) = pos /\
    ls_pdf s = 1 /\ tests_segment (ls_vis s) p pos pEps 0 /\ l_time (ls_vis s) = time /\ l_depth (ls_vis s) = 0.
Proof.
  intros pos H. assert (T : light_texels file = None).
  { destruct file as [pic|]; [|reflexivity]. unfold light_texels. destruct pic as [w h|w h chn]; cbn; [reflexivity|].
    destruct (_ || _); reflexivity. }
  unfold gonio_sample_l, gonio_scale. rewrite T. cbn [bind]. eexists. split; [reflexivity|]. cbn [ls_wi ls_pdf ls_vis].
  destruct (toward p pos H) as [U X]. split; [exact U|]. split; [exact X|]. split; [reflexivity|]. split; [now apply segment_main|split; reflexivity].
Qed.
Print Assumptions C97_gonio_partial.

(** ** C157: has_nans tells exactly whether some coefficient is NaN *)
Theorem C157_has_nans (c : list E) : cs_has_nans c = true <-> In NaN c.
Proof.
  unfold cs_has_nans. rewrite existsb_exists. split.
  - intros (x & H & Q). destruct x; try discriminate. exact H.
  - intros H. exists NaN. auto.
Qed.
Print Assumptions C157_has_nans.

(** ** C156: the radiance of a sample.  With the camera's answer (weight, ray) for a sample, [sharpened] is that ray with
    its differentials brought closer by the square root of the number of samples per pixel *)
Definition sharpened (spp : nat) (r0 r : raydiff) : Prop :=
  rd_ray r = rd_ray r0 /\ rd_has r = rd_has r0 /\
  let o := ro (rd_ray r0) in let d := rd (rd_ray r0) in let k := sqrt (INR spp) in
  vscale k (vsub (rd_rxo r) o) = vsub (rd_rxo r0) o /\ vscale k (vsub (rd_ryo r) o) = vsub (rd_ryo r0) o /\
  vscale k (vsub (rd_rxd r) d) = vsub (rd_rxd r0) d /\ vscale k (vsub (rd_ryd r) d) = vsub (rd_ryd r0) d.
Definition radiance {W} (cam : sample -> W -> res (R * raydiff * W)) (hitp : raydiff -> W -> res (bool * W))
    (li : raydiff -> sample -> W -> res (V3 E * W)) (vis : bool) (spp : nat) (smp : sample) (L : V3 E) : Prop :=
  exists w0 wt r0 w1 r hit w2, cam smp w0 = Ok (wt, r0, w1) /\ sharpened spp r0 r /\ hitp r w1 = Ok (hit, w2) /\
    (hit = false \/ wt <= 0 -> L = black) /\
    (hit = true -> 0 < wt -> vis = true -> L = mkV (Fin 1) (Fin 1) (Fin 1)) /\
    (hit = true -> 0 < wt -> vis = false -> exists L0 w3, li r smp w2 = Ok (L0, w3) /\ L = sanitise (vmap (fun x => emul x (Fin wt)) L0)).
Lemma sharpen_ok (spp : nat) (r0 : raydiff) : (0 < spp)%nat -> sharpened spp r0 (scale_differential r0 (1 / sqrt (INR spp))).
Proof.
  intros H. assert (K : 0 < sqrt (INR spp)) by (apply sqrt_lt_R0, lt_0_INR, H). unfold sharpened, scale_differential. cbn [rd_ray rd_has rd_rxo rd_ryo rd_rxd rd_ryd].
  set (k := sqrt (INR spp)) in *. repeat split; unfold vscale, vsub, vadd, vmap, vmap2; cbn [vx vy vz]; f_equal; field; lra.
Qed.
Lemma sanitise_white : sanitise (mkV (Fin 1) (Fin 1) (Fin 1)) = mkV (Fin 1) (Fin 1) (Fin 1).
Proof.
  destruct (sanitise_cases (mkV (Fin 1) (Fin 1) (Fin 1))) as [H|[H _]]; [|exact H]. exfalso. revert H.
  unfold sanitise, has_nans, ey; cbn -[Rltb]. unfold elt, eltb, EPS. cbn -[Rltb].
  destruct (Rltb _ _) eqn:Q; Rb; [lra|]. unfold black. intros H. injection H. lra.
Qed.
Lemma shade_radiance {W} cam hitp li vis spp smp (w : W) L w' : (0 < spp)%nat ->
  shade cam hitp li vis spp smp w = Ok (L, w') -> radiance cam hitp li vis spp smp L.
Proof.
  intros N0. unfold shade, radiance. destruct (cam smp w) as [[[wt r0] w1]|?] eqn:QC; cbn [bind]; [|discriminate].
  set (r := scale_differential r0 _). destruct (hitp r w1) as [[h w2]|?] eqn:QH; cbn [bind]; [|discriminate].
  intros H. exists w, wt, r0, w1, r, h, w2. split; [exact QC|]. split; [now apply sharpen_ok|]. split; [exact QH|].
  destruct vis.
  - injection H as <- <-. split; [|split]; intros A; [|intros B _|discriminate].
    + destruct A as [-> |A]; [apply sanitise_idem_black|]. replace (Rltb 0 wt) with false by (symmetry; now apply Rltb_false). rewrite andb_false_r. apply sanitise_idem_black.
    + rewrite A. replace (Rltb 0 wt) with true by (symmetry; now apply Rltb_true). apply sanitise_white.
  - destruct (h && Rltb 0 wt) eqn:Q.
    + apply andb_true_iff in Q as [-> Q]. Rb. destruct (li r smp w2) as [[L0 w3]|?] eqn:QL; cbn [bind] in H; [|discriminate]. injection H as <- <-.
      split; [intros [?|?]; [discriminate|lra]|]. split; [intros; discriminate|]. intros _ _ _. eauto.
    + injection H as <- <-. split; [intros; apply sanitise_idem_black|]. split; [intros; discriminate|]. intros -> A _.
      rewrite (proj2 (Rltb_true 0 wt) A) in Q. discriminate.
Qed.
Theorem C156_sample_radiance (W : Type) cam hitp li vis (s : sampler) (orig : sample) (rn : nat -> rnd) (w : W) (fuel : nat) (adds : list (sample * V3 E)) :
  (0 < xSamples s * ySamples s)%nat -> task cam hitp li vis s orig rn w fuel = Some (Ok adds) ->
  forall smp L, In (smp, L) adds -> radiance cam hitp li vis (xSamples s * ySamples s) smp L.
Proof.
  intros N0. unfold task. set (spp := (xSamples s * ySamples s)%nat) in *. generalize (duplicate orig (maximum_sample_cnt s)) as smps. generalize 0%nat as k.
  clearbody spp. revert s w adds. induction fuel as [|fuel IH]; intros s w adds k smps H; cbn [task_loop] in H; [discriminate|].
  destruct (generate s smps (rn k)) as [[[[|] smps'] s']|?] eqn:QG; [| |discriminate].
  2:{ injection H as <-. intros ? ? []. }
  destruct (shade_all cam hitp li vis spp smps' w) as [[Ls w']|?] eqn:QS; [|discriminate].
  destruct (task_loop cam hitp li vis spp fuel s' smps' rn (S k) w') as [[rest|?]|] eqn:QT; [|discriminate|discriminate]. injection H as <-.
  intros smp L IN. apply in_app_or in IN as [IN|IN]; [|eapply IH; eauto].
  clear - N0 QS IN. revert w Ls w' QS IN. induction smps' as [|x l IHl]; intros w Ls w' QS IN; cbn [shade_all] in QS.
  { destruct IN. }
  destruct (shade cam hitp li vis spp x w) as [[L1 w1]|?] eqn:Q1; cbn [bind] in QS; [|discriminate].
  destruct (shade_all cam hitp li vis spp l w1) as [[Ls' w2]|?] eqn:Q2; cbn [bind] in QS; [|discriminate]. injection QS as <- <-.
  destruct IN as [IN|IN]; [injection IN as <- <-; eapply shade_radiance; eauto|eapply IHl; eauto].
Qed.
Print Assumptions C156_sample_radiance.
(** a run that delivers a sample: one pixel, one sample, a camera that sees a surface of radiance 2 with weight 1/2 *)
Example C156_ex (smp : sample) (r : raydiff) :
  exists L, shade (fun _ (w : nat) => Ok (/ 2, r, w)) (fun _ w => Ok (true, w)) (fun _ _ w => Ok (mkV (Fin 2) (Fin 2) (Fin 2), S w)) false 4 smp 0%nat = Ok (L, 1%nat).
Proof. unfold shade. cbn [bind]. replace (Rltb 0 (/ 2)) with true by (symmetry; apply Rltb_true; lra). cbn [andb bind]. eexists. reflexivity. Qed.
