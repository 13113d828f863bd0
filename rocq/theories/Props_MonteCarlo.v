(** Property theorems C19-C23, C63 (Monte Carlo).  Specification vocabulary: S_MonteCarlo.v. *)
From Coq Require Import Reals Lra Lia List Bool.
From Verif Require Import Base M_Geometry S_Geometry P_Geometry M_MonteCarlo S_MonteCarlo
  P_MonteCarlo P_Distribution P_Distribution2.
Import ListNotations.
Open Scope R_scope.

(** C19: proved except for the frameless cone sampler, which raises for every input. *)
Theorem C19_domains_partial (u1 u2 : R) : 0 <= u1 <= 1 -> 0 <= u2 <= 1 ->
  unit (uniform_sample_sphere u1 u2) /\
  unit (uniform_sample_hemisphere u1 u2) /\ 0 <= vz (uniform_sample_hemisphere u1 u2) /\
  (let '(x, y) := uniform_sample_disk u1 u2 in x * x + y * y <= 1) /\
  (let '(x, y) := concentric_sample_disk u1 u2 in x * x + y * y <= 1) /\
  (let '(b1, b2) := uniform_sample_triangle u1 u2 in 0 <= b1 /\ 0 <= b2 /\ b1 + b2 <= 1) /\
  (forall ct_max x y z, -1 <= ct_max <= 1 -> frame x y z ->
     let v := uniform_sample_cone u1 u2 ct_max x y z in unit v /\ ct_max <= vdot v z <= 1) /\
  (forall w g, unit w -> -1 < g < 1 -> unit (sample_hg w g u1 u2)).
Proof. exact (domains_main u1 u2). Qed.
Print Assumptions C19_domains_partial.
Example C19_ex : frame (mkV 1 0 0) (mkV 0 1 0) (mkV 0 0 1).
Proof. unfold frame, unit, orth; cbn; lra. Qed.
(** rejection sampling: any stream; a returned point is in the disk, and the loop stops as soon as
    the stream offers a pair in the disk *)
Theorem C206_rejection (rng : nat -> R) :
  (forall fuel x y n, rejection_sample_disk rng fuel = Some (x, y, n) -> x * x + y * y <= 1) /\
  (forall m, (let x := 1 - 2 * rng (2 * m)%nat in let y := 1 - 2 * rng (S (2 * m))%nat in x * x + y * y <= 1) ->
     exists r, rejection_sample_disk rng (S m) = Some r).
Proof. exact (rejection_both rng). Qed.
Print Assumptions C206_rejection.
Theorem C19_cone_without_frame_refuted (u1 u2 ct_max : R) :
  uniform_sample_cone_noframe u1 u2 ct_max = Err AttributeError.
Proof. reflexivity. Qed.
Print Assumptions C19_cone_without_frame_refuted.

(** C20: the samples are unit vectors of the upper hemisphere, but the event "cosine <= c" is an
    interval of first variates of length c, not c^2 as the pdf cos/pi requires. *)
Theorem C20_upper_hemisphere_partial (u1 u2 : R) : 0 <= u1 <= 1 ->
  unit (cosine_sample_hemisphere u1 u2) /\ 0 <= vz (cosine_sample_hemisphere u1 u2).
Proof. exact (cosine_domain u1 u2). Qed.
Print Assumptions C20_upper_hemisphere_partial.
Theorem C20_cosine_law_refuted (c u1 u2 : R) : 0 <= u1 <= 1 -> 0 < c < 1 ->
  (vz (cosine_sample_hemisphere u1 u2) <= c <-> (1 - c) / 2 <= u1 <= (1 + c) / 2) /\
  (1 + c) / 2 - (1 - c) / 2 <> c * c.
Proof. exact (cosine_law_bad c u1 u2). Qed.
Print Assumptions C20_cosine_law_refuted.

(** C21 *)
Theorem C21_heuristics (nf ng : nat) (f g : R) : 0 <= f -> 0 <= g -> 0 < INR nf * f + INR ng * g ->
  0 <= balance_heuristic nf f ng g <= 1 /\ 0 <= power_heuristic nf f ng g <= 1 /\
  balance_heuristic nf f ng g + balance_heuristic ng g nf f = 1 /\
  power_heuristic nf f ng g + power_heuristic ng g nf f = 1.
Proof. exact (heuristics_main nf ng f g). Qed.
Print Assumptions C21_heuristics.
Example C21_ex : 0 <= 2 /\ 0 <= 0 /\ 0 < INR 1 * 2 + INR 3 * 0.
Proof. cbn; lra. Qed.

(** C22 *)
Theorem C198_cdf_table (arr : list R) : table_ok arr ->
  let c := d_cdf (dist1_make arr) in
  length c = S (length arr) /\ nth 0 c 0 = 0 /\ nth (length arr) c 0 = 1 /\
  (forall i j, (i <= j <= length arr)%nat -> nth i c 0 <= nth j c 0) /\
  (forall i, (i <= length arr)%nat -> nth i c 0 = mass arr (INR i / INR (length arr)) / mass arr 1).
Proof. exact (cdf_table arr). Qed.
Print Assumptions C198_cdf_table.
Example C22_ex : table_ok [0; 2; 0; 1].
Proof. split; [repeat constructor; lra|cbn; lra]. Qed.
Theorem C22_sample_cont_partial (arr : list R) (u : R) : table_ok arr -> 0 < u <= 1 ->
  exists x pdf k, dist1_cont (dist1_make arr) u = Ok (Fin x, pdf) /\
    0 < x <= 1 /\ (u < 1 -> x < 1) /\ mass arr x / mass arr 1 = u /\
    (k < length arr)%nat /\ in_cell x k (length arr) /\ pdf = nth k arr 0 / mass arr 1 /\ 0 < pdf.
Proof. exact (dist1_cont_main arr u). Qed.
Print Assumptions C22_sample_cont_partial.
Theorem C22_sample_cont_zero_partial (arr : list R) : table_ok arr -> 0 < nth 0 arr 0 ->
  dist1_cont (dist1_make arr) 0 = Ok (Fin 0, nth 0 arr 0 / mass arr 1).
Proof. exact (dist1_zero_ok arr). Qed.
Print Assumptions C22_sample_cont_zero_partial.
(** Missing part: variate 0 with a leading zero entry yields NaN. *)
Theorem C22_sample_cont_zero_refuted : exists arr, table_ok arr /\
  exists pdf, dist1_cont (dist1_make arr) 0 = Ok (NaN, pdf).
Proof. exact dist1_zero_bad. Qed.
Print Assumptions C22_sample_cont_zero_refuted.
Theorem C198_pdf_integrates (arr : list R) : table_ok arr ->
  rsum (map (fun f => f / mass arr 1 * (1 / INR (length arr))) arr) = 1.
Proof. exact (pdf_integrates arr). Qed.
Print Assumptions C198_pdf_integrates.
Theorem C198_sample_dis (arr : list R) (u : R) : table_ok arr -> 0 < u <= 1 ->
  exists k pdf, dist1_dis (dist1_make arr) u = Ok (k, pdf) /\ (k < length arr)%nat /\
    let F i := mass arr (INR i / INR (length arr)) / mass arr 1 in
    F k < u <= F (S k) /\ pdf = F (S k) - F k /\ pdf = nth k arr 0 / rsum arr /\ 0 < pdf.
Proof. exact (dist1_dis_main arr u). Qed.
Print Assumptions C198_sample_dis.

(** C23 *)
Theorem C199_pdf (arr : list (list R)) (nu i j : nat) (u v : R) : table2_ok arr nu ->
  (i < length arr)%nat -> (j < nu)%nat ->
  INR j <= u * INR nu < INR (S j) -> INR i <= v * INR (length arr) < INR (S i) ->
  dist2_pdf (dist2_make arr) u v = Ok (nth j (nth i arr []) 0 / mean2 arr nu).
Proof. intros H. exact (dist2_pdf_at arr nu H i j u v). Qed.
Print Assumptions C199_pdf.
Example C23_ex : table2_ok [[1; 0]; [0; 0]; [2; 3]] 2.
Proof. repeat split; try lia; [|cbn; lra]. repeat constructor; lra. Qed.
(** sampling, away from the cumulative entries of the marginal: the row index and the density are right *)
Theorem C23_sample_partial (arr : list (list R)) (nu : nat) (u0 u1 : R) : table2_ok arr nu ->
  0 < u0 <= 1 -> 0 < u1 <= 1 ->
  (let rows := map d_raw (map dist1_make arr) in
   forall i, (i <= length arr)%nat -> u1 <> mass rows (INR i / INR (length arr)) / mass rows 1) ->
  exists u i j pdf, dist2_cont (dist2_make arr) u0 u1 = Ok (Fin u, i, pdf) /\
    (i < length arr)%nat /\ (j < nu)%nat /\ 0 < u <= 1 /\ in_cell u j nu /\
    pdf = nth j (nth i arr []) 0 / mean2 arr nu /\ 0 < pdf.
Proof. intros H. exact (dist2_cont_at arr nu H u0 u1). Qed.
Print Assumptions C23_sample_partial.
(** Missing part 1: the second coordinate is the row index, not a point of [0,1). *)
Theorem C23_second_coordinate_refuted : exists arr nu u i pdf, table2_ok arr nu /\
  dist2_cont (dist2_make arr) (/2) (2/3) = Ok (Fin u, i, pdf) /\ (1 < i)%nat /\ ~ 0 <= INR i < 1.
Proof. exact dist2_bad_v. Qed.
Print Assumptions C23_second_coordinate_refuted.
(** Missing part 2: at a cumulative entry the density reported is not the density of the row. *)
Theorem C23_density_refuted : exists arr nu u i pdf, table2_ok arr nu /\
  dist2_cont (dist2_make arr) (/2) (/4) = Ok (Fin u, i, pdf) /\
  dist2_pdf (dist2_make arr) u ((INR i + /2) / INR (length arr)) <> Ok pdf.
Proof. exact dist2_bad_pdf. Qed.
Print Assumptions C23_density_refuted.

(** C63: the laws of the samplers, as exact relations between variate and sample.  For a
    quantity q = q(u1) to have cumulative distribution F it suffices that F(q(u1)) = u1 or 1 - u1. *)
Theorem C63_sampling_laws (u1 u2 : R) : 0 <= u1 <= 1 -> 0 <= u2 <= 1 ->
  (* sphere: z uniform on [-1,1]; hemisphere: z uniform on [0,1] *)
  (1 + vz (uniform_sample_sphere u1 u2)) / 2 = 1 - u1 /\
  vz (uniform_sample_hemisphere u1 u2) = u1 /\
  (* disk: squared radius uniform; concentric: radius <= c iff both mapped variates are *)
  (let '(x, y) := uniform_sample_disk u1 u2 in x * x + y * y = u1) /\
  (forall c, 0 <= c -> let '(x, y) := concentric_sample_disk u1 u2 in
     x * x + y * y <= c * c <-> Rabs (2 * u1 - 1) <= c /\ Rabs (2 * u2 - 1) <= c) /\
  (* triangle: area of the sub-triangle cut off, then uniform along the cut *)
  (let '(b1, b2) := uniform_sample_triangle u1 u2 in (1 - b1) * (1 - b1) = u1 /\ b2 = u2 * (1 - b1)) /\
  (* cone: cosine uniform on [ct_max, 1] *)
  (forall ct_max x y z, -1 <= ct_max <= 1 -> frame x y z ->
     vdot (uniform_sample_cone u1 u2 ct_max x y z) z = ct_max + u1 * (1 - ct_max)) /\
  (* Henyey-Greenstein: the cumulative distribution of the cosine under the density
     (1-g^2) / (2 (1+g^2-2g c)^(3/2)) on [-1,1], evaluated at the sample, is the variate *)
  (forall w g, unit w -> -1 < g < 1 -> EPS <= Rabs g ->
     let c := vdot (sample_hg w g u1 u2) w in
     -1 <= c <= 1 /\ (1 - g * g) / (2 * g) * (/ sqrt (1 + g * g - 2 * g * c) - / (1 + g)) = u1) /\
  (forall w g, unit w -> Rabs g < EPS -> (1 + vdot (sample_hg w g u1 u2) w) / 2 = 1 - u1).
Proof. exact (laws_main u1 u2). Qed.
Print Assumptions C63_sampling_laws.
Example C63_ex : EPS <= Rabs (/2) /\ unit (mkV 0 (3/5) (4/5)).
Proof. unfold EPS, unit; cbn. rewrite Rabs_pos_eq; lra. Qed.
