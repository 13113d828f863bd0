From Coq Require Import Reals Lra Lia List ZArith Bool Psatz.
From Verif Require Import Base M_Geometry S_Geometry P_Geometry M_Transform M_MonteCarlo S_MonteCarlo P_MonteCarlo
  M_Film M_Shapes P_Normals M_Reflection S_Reflection P_Reflection P_Reciprocity P_Fresnel.
Import ListNotations.
Open Scope R_scope.

Lemma np_power_unit x e : 0 <= x <= 1 -> 0 < e -> 0 <= np_power x e <= 1.
Proof.
  intros H He. unfold np_power. destruct (Reqb x 0) eqn:C; Rb.
  - destruct (Reqb e 0); lra.
  - split; [left; apply exp_pos|]. replace 1 with (Rpower 1 e) by (unfold Rpower; rewrite ln_1, Rmult_0_r; apply exp_0).
    apply Rle_Rpower_l; lra.
Qed.
Lemma np_power_nonneg x e : 0 <= np_power x e.
Proof.
  unfold np_power. destruct (Reqb x 0); [destruct (Reqb e 0); lra|]. left; apply exp_pos.
Qed.
Lemma sph_unit st ct phi : st * st = 1 - ct * ct -> unit (spherical_direction st ct phi).
Proof. intros H. unfold spherical_direction; vc. pose proof (cs1 phi). nra. Qed.
Lemma st_of ct : 0 <= ct <= 1 -> sqrt (pmax 0 (1 - ct * ct)) * sqrt (pmax 0 (1 - ct * ct)) = 1 - ct * ct.
Proof. intros H. apply sqrt_pmax_sq. nra. Qed.
Lemma first_quad_ct ex ey u1 u2 : -1 < ex -> -1 < ey -> 0 <= u2 <= 1 -> 0 <= snd (first_quad ex ey u1 u2) <= 1.
Proof.
  intros A B H. unfold first_quad. cbv zeta. cbn [snd]. apply np_power_unit; [exact H|].
  match goal with |- context [cos ?p] => set (phi := p) end. pose proof (cs1 phi) as Q.
  apply Rdiv_lt_0_compat; [lra|].
  assert (0 <= cos phi * cos phi) by nra. assert (0 <= sin phi * sin phi) by nra.
  set (c := cos phi * cos phi) in *. set (s := sin phi * sin phi) in *.
  replace (ex * cos phi * cos phi) with (ex * c) by (unfold c; ring).
  replace (ey * sin phi * sin phi) with (ey * s) by (unfold s; ring).
  change (c + s = 1) in Q. clearbody c s. destruct (Rlt_dec 0 c).
  - assert (0 < (ex + 1) * c) by (apply Rmult_lt_0_compat; lra). assert (0 <= (ey + 1) * s) by (apply Rmult_le_pos; lra). lra.
  - assert (0 <= (ex + 1) * c) by (apply Rmult_le_pos; lra). assert (0 < (ey + 1) * s) by (apply Rmult_lt_0_compat; lra). lra.
Qed.
Lemma vneg1_unit v : unit v -> unit (vscale (-1) v).
Proof. vc; intros; lra. Qed.
Lemma mdist_half_spec d wo u1 u2 : dist_ok d -> 0 <= u1 <= 1 -> 0 <= u2 <= 1 ->
  let '(wh, ct) := mdist_half d wo u1 u2 in unit wh /\ Rabs (vz wh) = ct /\ (vz wo <> 0 -> 0 <= vz wo * vz wh).
Proof.
  intros D H1 H2. unfold mdist_half.
  match goal with |- let '(_, _) := (let '(_, _) := ?x in _) in _ => assert (R : 0 <= snd x <= 1); [|destruct x as [phi ct]] end.
  { destruct d as [e|ex ey]; cbn [dist_ok] in D.
    - cbn [snd]. apply np_power_unit; [exact H1|]. apply Rdiv_lt_0_compat; lra.
    - destruct D as [D1 D2]. destruct (Rltb u1 (1/4)); [now apply first_quad_ct|].
      destruct (Rltb u1 (1/2)); [|destruct (Rltb u1 (3/4))];
      match goal with |- context [first_quad ?a ?b ?c ?e] => pose proof (first_quad_ct a b c e D1 D2 H2) as Q;
        destruct (first_quad a b c e); exact Q end. }
  cbn [snd] in R. cbv zeta. pose proof (sph_unit _ ct phi (st_of ct R)) as U.
  set (st := sqrt (pmax 0 (1 - ct * ct))) in *.
  assert (Z0 : vz (spherical_direction st ct phi) = ct) by reflexivity.
  destruct (Rleb (vz wo * vz (spherical_direction st ct phi)) 0) eqn:C; Rb.
  - split; [now apply vneg1_unit|]. split.
    + unfold vscale, vmap; cbn [vz]. rewrite Z0. replace (-1 * ct) with (- ct) by ring. rewrite Rabs_Ropp. apply Rabs_pos_eq; lra.
    + intros _. unfold vscale, vmap; cbn [vz]. rewrite Z0 in *. lra.
  - split; [exact U|]. split; [rewrite Z0; apply Rabs_pos_eq; lra|]. intros _. lra.
Qed.
Lemma reflect_unit wo wh : unit wo -> unit wh -> unit (reflect_about wo wh).
Proof.
  intros A B. unfold reflect_about. destruct wo as [a b c], wh as [x y z]. vc.
  set (k := a * x + b * y + c * z).
  replace ((- a + 2 * k * x) * (- a + 2 * k * x) + (- b + 2 * k * y) * (- b + 2 * k * y) + (- c + 2 * k * z) * (- c + 2 * k * z))
    with ((a*a+b*b+c*c) + 4*k*k*(x*x+y*y+z*z) - 4*k*(a*x+b*y+c*z)) by ring.
  rewrite A, B. fold k. ring.
Qed.
Lemma reflect_sum wo wh : vadd wo (reflect_about wo wh) = vscale (2 * vdot wo wh) wh.
Proof. unfold reflect_about. apply V3_eq; vc; ring. Qed.
Lemma normalize_pos_scale k v : 0 < k -> unit v -> normalize (vscale k v) = v.
Proof.
  intros K U. assert (L : vlength (vscale k v) = k).
  { unfold vlength, sq_length, vscale, vmap; cbn [vx vy vz].
    replace (k * vx v * (k * vx v) + k * vy v * (k * vy v) + k * vz v * (k * vz v))
      with (k * k * (vx v * vx v + vy v * vy v + vz v * vz v)) by ring. unfold unit in U. rewrite U, Rmult_1_r.
    apply sqrt_square. lra. }
  unfold normalize. rewrite L. replace (Reqb k 0) with false by (symmetry; apply Reqb_false; lra).
  destruct v; apply V3_eq; vc; field; lra.
Qed.
Lemma mdist_sample_main d wo u1 u2 : dist_ok d -> unit wo -> 0 <= u1 <= 1 -> 0 <= u2 <= 1 ->
  let '(pdf, wi) := mdist_sample d wo u1 u2 in
  unit wi /\ 0 <= pdf /\ (pdf <> 0 -> pdf = mdist_pdf d wo wi).
Proof.
  intros D U H1 H2. pose proof (mdist_half_spec d wo u1 u2 D H1 H2) as M.
  unfold mdist_sample. destruct (mdist_half d wo u1 u2) as [wh ct]. destruct M as (W & C & _).
  pose proof (reflect_unit wo wh U W) as RU. pose proof PI_RGT_0 as P.
  assert (NS : 0 < vdot wo wh -> normalize (vadd wo (reflect_about wo wh)) = wh).
  { intros K. rewrite reflect_sum. apply normalize_pos_scale; [lra|exact W]. }
  destruct d as [e|ex ey]; cbv zeta; cbn [dist_ok] in D.
  - destruct (Rleb (vdot wo wh) 0) eqn:K; Rb.
    + split; [exact RU|]. split; [lra|]. intros N; now contradiction N.
    + split; [exact RU|]. assert (Q : 0 < 2 * PI * 4 * vdot wo wh) by (apply Rmult_lt_0_compat; lra).
      split.
      * apply Rmult_le_pos; [apply Rmult_le_pos; [lra|apply np_power_nonneg]|]. left; now apply Rinv_0_lt_compat.
      * intros _. unfold mdist_pdf. rewrite (NS K).
        replace (Rleb (vdot wo wh) 0) with false by (symmetry; apply Rleb_false; exact K).
        unfold abs_cos_theta. now rewrite C.
  - destruct (Rltb 0 (1 - abs_cos_theta wh * abs_cos_theta wh) && Rltb 0 (vdot wo wh)) eqn:K.
    + apply andb_true_iff in K. destruct K as [K1 K2]. split; [exact RU|]. split.
      * apply Rmult_le_pos; [|left; apply Rinv_0_lt_compat; Rb; lra].
        apply Rmult_le_pos; [|apply np_power_nonneg].
        apply Rmult_le_pos; [apply sqrt_pos|]. left. apply Rdiv_lt_0_compat; lra.
      * intros _. unfold mdist_pdf. pose proof K2 as K3. Rb. rewrite (NS K3). cbv zeta.
        apply Rltb_true in K1. apply Rltb_true in K3. rewrite K1, K3. reflexivity.
    + split; [exact RU|]. split; [lra|]. intros N; now contradiction N.
Qed.

(** ** Lobe level *)
Lemma cosine_side_spec wo u1 u2 : 0 <= u1 <= 1 ->
  unit (cosine_side wo u1 u2) /\ (0 <= vz wo * vz (cosine_side wo u1 u2)) /\
  Rabs (vz (cosine_side wo u1 u2)) = Rabs (1 - 2 * u1).
Proof.
  intros H. destruct (cosine_domain u1 u2 H) as [U Z0]. pose proof (proj2 (cosine_main u1 u2 H)) as Q.
  unfold cosine_side. cbv zeta. destruct (Rltb (vz wo) 0) eqn:C; Rb.
  - split; [vc; lra|]. cbn [vz]. split; [nra|]. replace (vz (cosine_sample_hemisphere u1 u2) * -1) with (- vz (cosine_sample_hemisphere u1 u2)) by ring.
    rewrite Rabs_Ropp, Q. apply Rabs_Rabsolu.
  - split; [exact U|]. split; [nra|]. rewrite Q. apply Rabs_Rabsolu.
Qed.
Lemma table_get data a b c : table_shape data a b c -> exists v,
  (do x <- get1 data 0; do y <- get1 x 0; get1 y 0) = Ok v.
Proof.
  intros (A & B & C & L & F). destruct data as [|m data]; [cbn in L; lia|].
  apply Forall_inv in F. destruct F as [L2 F2]. destruct m as [|r m]; [cbn in L2; lia|].
  apply Forall_inv in F2. rename F2 into L3. destruct r as [|v r]; [cbn in L3; lia|]. exists v.
  unfold get1, np_index. cbn. destruct (length data), (length m), (length r); reflexivity.
Qed.
Lemma plain_f_total b wo wi : plain b -> lobe_ok b -> exists f, bdf_f b wo wi = Ok f.
Proof.
  destruct b; cbn [plain lobe_ok bdf_f]; intros P L; try contradiction; eauto.
  unfold rehalf_f. destruct L as (L1 & L2 & L3 & L4). rewrite rehalf_index_zero by assumption.
  eapply table_get. split; [exact L1|split; [exact L2|split; [exact L3|exact L4]]].
Qed.
Lemma abs_pdf_nonneg wi : 0 <= abs_cos_theta wi * (1 / PI).
Proof.
  apply Rmult_le_pos; [apply Rabs_pos|]. pose proof PI_RGT_0. left; apply Rdiv_lt_0_compat; lra.
Qed.
Lemma base_pdf_nonneg wo wi : 0 <= base_pdf wo wi.
Proof. unfold base_pdf. destruct (Rltb 0 (vz wo * vz wi)); [apply abs_pdf_nonneg|lra]. Qed.
Lemma mdist_pdf_nonneg d wo wi : dist_ok d -> 0 <= mdist_pdf d wo wi.
Proof.
  intros D. unfold mdist_pdf. cbv zeta. pose proof PI_RGT_0 as P. destruct d as [e|ex ey]; cbn [dist_ok] in D.
  - destruct (Rleb _ 0) eqn:C; Rb; [lra|]. apply Rmult_le_pos; [apply Rmult_le_pos; [lra|apply np_power_nonneg]|].
    left; apply Rinv_0_lt_compat. apply Rmult_lt_0_compat; lra.
  - match goal with |- 0 <= (if ?c then _ else _) => destruct c eqn:C end; [|lra].
    apply andb_true_iff in C. destruct C as [_ C]. Rb.
    apply Rmult_le_pos; [|left; apply Rinv_0_lt_compat; lra].
    apply Rmult_le_pos; [|apply np_power_nonneg]. apply Rmult_le_pos; [apply sqrt_pos|]. left; apply Rdiv_lt_0_compat; lra.
Qed.
Lemma bdf_pdf_nonneg b wo wi : lobe_ok b -> 0 <= bdf_pdf b wo wi.
Proof.
  destruct b; cbn [lobe_ok bdf_pdf]; intros L; try apply base_pdf_nonneg; try lra.
  - destruct (Rleb _ 0); [lra|now apply mdist_pdf_nonneg].
  - destruct (Rleb _ 0); [lra|]. pose proof (abs_pdf_nonneg wi). pose proof (mdist_pdf_nonneg d wo wi L). lra.
Qed.
Lemma plain_sample_main b wo u1 u2 : plain b -> lobe_ok b -> unit wo -> 0 <= u1 <= 1 -> 0 <= u2 <= 1 ->
  exists pdf wi f, bdf_sample b wo u1 u2 = Ok (pdf, Some (wi, f)) /\ unit wi /\ 0 <= pdf /\
    (0 < vz wo * vz wi -> pdf <> 0 -> pdf = bdf_pdf b wo wi /\ bdf_f b wo wi = Ok f) /\
    (vz wo * vz wi <= 0 -> pdf = 0 \/ f = spec 0).
Proof.
  intros P L U H1 H2.
  assert (Base : forall v1, 0 <= v1 <= 1 -> let wi := cosine_side wo v1 u2 in exists f, bdf_f b wo wi = Ok f /\
    unit wi /\ (vz wo * vz wi <= 0 -> bdf_pdf b wo wi = 0)).
  { intros v1 V wi. destruct (plain_f_total b wo wi P L) as [f F]. exists f. split; [exact F|].
    destruct (cosine_side_spec wo v1 u2 V) as (A & B & _). fold wi in A, B. split; [exact A|]. intros N.
    assert (Z0 : vz wo * vz wi = 0) by lra.
    destruct b; cbn [plain bdf_pdf] in *; try contradiction;
      try (unfold base_pdf; rewrite Z0; replace (Rltb 0 0) with false by (symmetry; apply Rltb_false; lra); reflexivity).
    - rewrite Rmult_comm, Z0. replace (Rleb 0 0) with true by (symmetry; apply Rleb_true; lra). reflexivity.
    - rewrite Z0. replace (Rleb 0 0) with true by (symmetry; apply Rleb_true; lra). reflexivity. }
  pose proof (bdf_pdf_nonneg b) as PN.
  destruct b; cbn [plain] in P; try contradiction; cbn [bdf_sample].
  1,2,5: (unfold base_sample; destruct (Base u1 H1) as (f & F & UA & UB); cbv zeta in *; rewrite F; cbn [bind];
    eexists; eexists; eexists; split; [reflexivity|]; split; [exact UA|]; split; [now apply PN|];
    split; [intros _ _; split; [reflexivity|exact F]|intros N; left; now apply UB]).
  - pose proof (mdist_sample_main d wo u1 u2 L U H1 H2) as M. destruct (mdist_sample d wo u1 u2) as [pdf wi].
    destruct M as (A & B & C). destruct (Rleb (vz wi * vz wo) 0) eqn:K; Rb.
    + exists pdf, wi, (spec 0). split; [reflexivity|]. split; [exact A|]. split; [exact B|]. split; [intros; lra|now right].
    + cbn [bdf_f bind]. exists pdf, wi. eexists. split; [reflexivity|]. split; [exact A|]. split; [exact B|].
      split; [|intros; lra]. intros _ N. split; [|reflexivity]. cbn [bdf_pdf].
      replace (Rleb (vz wi * vz wo) 0) with false by (symmetry; apply Rleb_false; exact K). now apply C.
  - destruct (Rltb u1 (1/2)) eqn:K0; Rb.
    + destruct (Base (2 * u1) ltac:(lra)) as (f & F & A & B). cbv zeta in *. rewrite F. cbn [bind].
      eexists; eexists; eexists; split; [reflexivity|]; split; [exact A|]; split; [now apply PN|];
      split; [intros _ _; split; [reflexivity|exact F]|intros N; left; now apply B].
    + pose proof (mdist_sample_main d wo (2 * (u1 - 1/2)) u2 L U ltac:(lra) H2) as M.
      destruct (mdist_sample d wo (2 * (u1 - 1/2)) u2) as [pdf wi]. destruct M as (A & B & C).
      destruct (Rleb (vz wo * vz wi) 0) eqn:K; Rb.
      * exists pdf, wi, (spec 0). split; [reflexivity|]. split; [exact A|]. split; [exact B|]. split; [intros; lra|now right].
      * cbn [bdf_f bind]. eexists; exists wi; eexists. split; [reflexivity|]. split; [exact A|]. split; [now apply PN|].
        split; [|intros; lra]. intros _ _. split; reflexivity.
Qed.

(** the one-sample reflectance estimate of a Lambertian surface is exactly its reflectance *)
Lemma lambert_estimate r wo u1 u2 : vz wo <> 0 -> 0 <= u1 <= 1 -> u1 <> 1/2 ->
  exists pdf wi f, bdf_sample (Lambertian r) wo u1 u2 = Ok (pdf, Some (wi, f)) /\ 0 < pdf /\
    sdiv (vscale (Rabs (vz wi)) f) pdf = r.
Proof.
  intros Z0 H N. destruct (cosine_side_spec wo u1 u2 H) as (U & S & A).
  cbn [bdf_sample]. unfold base_sample. cbv zeta. cbn [bdf_f bind]. set (wi := cosine_side wo u1 u2) in *.
  eexists; eexists; eexists. split; [reflexivity|].
  assert (AP : 0 < Rabs (vz wi)) by (rewrite A; apply Rabs_pos_lt; lra).
  assert (ZP : 0 < vz wo * vz wi).
  { destruct S as [S|S]; [exact S|]. symmetry in S. apply Rmult_integral in S. destruct S as [S|S]; [contradiction|].
    rewrite S, Rabs_R0 in AP. lra. }
  cbn [bdf_pdf]. unfold base_pdf. replace (Rltb 0 (vz wo * vz wi)) with true by (symmetry; now apply Rltb_true).
  unfold abs_cos_theta. pose proof PI_RGT_0 as P. split; [apply Rmult_lt_0_compat; [exact AP|apply Rdiv_lt_0_compat; lra]|].
  unfold sdiv, vscale, vmap; cbn [vx vy vz]. destruct r as [r1 r2 r3]; apply V3_eq; cbn [vx vy vz]; field; lra.
Qed.
