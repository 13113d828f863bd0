(** One light chosen at random, recursive integrators, non-negativity, differentials of transmitted rays. *)
From Coq Require Import Reals Lra Lia List Bool ZArith.
From Coquelicot Require Import Coquelicot.
From Verif Require Import Base M_Geometry M_MonteCarlo M_Aggregate M_Reflection M_Utility M_Spectrum M_Sampler M_Film M_Light M_Integrator.
From Verif Require Import S_Integrator S_Integrator2 P_Integrator P_Integrator2 P_Integrator3 P_Integrator4.
Import ListNotations.
Open Scope R_scope.

Lemma one_light_value {V} (e : env V) u offs p n wo eps time b k L k' : lights e <> [] ->
  uniform_sample_one_light e u offs p n wo eps time b k = Ok (L, k') ->
  exists x k0 a c k1 l Ld, 
    match offs with
    | Some (s, no, lo, bo) => (exists l1, nth_error (oneD s) no = Some l1 /\ nth_error l1 0 = Some x) /\ k0 = k /\
        stored s lo 0 a /\ stored s bo 0 c /\ k1 = k
    | None => x = u k /\ k0 = (k + 1)%nat /\ a = random3 u (k + 1) /\ c = random3 u (k + 4) /\ k1 = (k + 7)%nat
    end /\
    get1 (lights e) (light_index x (length (lights e))) = Ok l /\
    estimate_direct e l p n wo eps time b a c NOSPEC k1 = Ok (Ld, k') /\
    L = vscale (INR (length (lights e))) Ld.
Proof.
  intros NE. unfold uniform_sample_one_light.
  destruct (length (lights e) =? 0)%nat eqn:Q0. { apply Nat.eqb_eq in Q0. destruct (lights e); [congruence|discriminate]. }
  destruct offs as [[[[s no] lo] bo]|].
  - unfold idx at 1. destruct (nth_error (oneD s) no) as [l1|] eqn:Q1; cbn [bind]; [|discriminate].
    unfold idx at 1. destruct (nth_error l1 0) as [x|] eqn:Q2; cbn [bind]; [|discriminate].
    destruct (get1 (lights e) (light_index x (length (lights e)))) as [l|?] eqn:Q3; cbn [bind]; [|discriminate].
    destruct (smp_from_sample s lo 0) as [a|?] eqn:Q4; cbn [bind]; [|discriminate].
    destruct (smp_from_sample s bo 0) as [c|?] eqn:Q5; cbn [bind]; [|discriminate].
    destruct (estimate_direct e l p n wo eps time b a c NOSPEC k) as [[Ld k2]|?] eqn:Q6; cbn [bind]; [|discriminate].
    intros H. injection H as <- <-. exists x, k, a, c, k, l, Ld. cbn [fst snd]. rewrite <- !stored_iff. eauto 10.
  - cbn [bind]. destruct (get1 (lights e) (light_index (u k) (length (lights e)))) as [l|?] eqn:Q3; cbn [bind]; [|discriminate].
    rewrite rand3_eq. rewrite rand3_eq. cbn [bind].
    replace (S k + 3 + 3)%nat with (k + 7)%nat by lia. replace (S k + 3)%nat with (k + 4)%nat by lia. replace (S k) with (k + 1)%nat by lia.
    destruct (estimate_direct e l p n wo eps time b (random3 u (k + 1)) (random3 u (k + 4)) NOSPEC (k + 7)) as [[Ld k2]|?] eqn:Q6; cbn [bind]; [|discriminate].
    intros H. injection H as <- <-. exists (u k), (k + 1)%nat, (random3 u (k + 1)), (random3 u (k + 4)), (k + 7)%nat, l, Ld. cbn [fst snd]. auto 10.
Qed.

(** expectation over the choice *)
Fixpoint rsum (g : nat -> R) (n : nat) : R := match n with O => 0 | S m => rsum g m + g m end.
Lemma choice_int n (g : nat -> R) : (0 < n)%nat ->
  is_RInt (fun x => INR n * g (Z.to_nat (light_index x n))) 0 1 (rsum g n).
Proof.
  intros N. assert (PN : 0 < INR n) by now apply lt_0_INR.
  assert (K : forall m, (m <= n)%nat -> is_RInt (fun x => INR n * g (Z.to_nat (light_index x n))) 0 (INR m / INR n) (rsum g m)).
  { induction m as [|m IH]; intros Hm.
    - cbn [rsum INR]. unfold Rdiv. rewrite Rmult_0_l. apply (is_RInt_point (V := R_NormedModule)).
    - cbn [rsum]. apply (is_RInt_Chasles (V := R_NormedModule) _ 0 (INR m / INR n) (INR (S m) / INR n)); [apply IH; lia|].
      assert (D : INR m / INR n < INR (S m) / INR n).
      { unfold Rdiv. apply Rmult_lt_compat_r; [now apply Rinv_0_lt_compat|]. rewrite S_INR. lra. }
      apply (is_RInt_ext (fun _ => INR n * g m)).
      + intros x [H1 H2]. rewrite Rmin_left in H1 by lra. rewrite Rmax_right in H2 by lra.
        assert (X : 0 <= x < 1).
        { split.
          - assert (0 <= INR m / INR n) by (apply Rmult_le_pos; [apply pos_INR|left; now apply Rinv_0_lt_compat]). lra.
          - assert (INR (S m) / INR n <= 1).
            { apply Rmult_le_reg_r with (INR n); [lra|]. unfold Rdiv. rewrite Rmult_assoc, Rinv_l by lra. rewrite Rmult_1_l, Rmult_1_r. now apply le_INR. }
            lra. }
        destruct (light_index_main x n m N X) as [_ [_ E1]]. rewrite E1 by lra. now rewrite Nat2Z.id.
      + assert (QE : (INR (S m) / INR n - INR m / INR n) * (INR n * g m) = g m) by (rewrite S_INR; field; lra).
        pose proof (const_int (INR n * g m) (INR m / INR n) (INR (S m) / INR n)) as C. now rewrite QE in C. }
  specialize (K n (le_n n)). replace (INR n / INR n) with 1 in K by (field; lra). exact K.
Qed.
Lemma rsum_ext f g n : (forall i, (i < n)%nat -> f i = g i) -> rsum f n = rsum g n.
Proof. induction n as [|n IH]; cbn; intros H; [reflexivity|]. rewrite IH, H by (intros; try apply H; lia). reflexivity. Qed.
Lemma rsum_shift g n : rsum g (S n) = g 0%nat + rsum (fun i => g (S i)) n.
Proof. induction n as [|n IH]; [cbn; ring|]. change (rsum g (S (S n))) with (rsum g (S n) + g (S n)). rewrite IH. cbn. ring. Qed.
Lemma rsum_vsum (c : vec -> R) (d : vec) ls : c (spec 0) = 0 -> (forall a b, c (vadd a b) = c a + c b) ->
  rsum (fun i => c (nth i ls d)) (length ls) = c (vsum ls).
Proof.
  intros Z0 A. induction ls as [|x ls IH]; [cbn; auto|]. cbn [length]. rewrite rsum_shift. cbn [nth]. rewrite IH.
  unfold vsum; cbn [fold_right]. now rewrite A.
Qed.
Lemma choice_mean (ls : list vec) (d : vec) : ls <> [] ->
  expected (fun x => vscale (INR (length ls)) (nth (Z.to_nat (light_index x (length ls))) ls d)) (vsum ls).
Proof.
  intros N. assert (P : (0 < length ls)%nat) by (destruct ls; [congruence|cbn; lia]).
  split; [|split].
  - rewrite <- (rsum_vsum (fun v => vx v) d); [|reflexivity|reflexivity]. exact (choice_int (length ls) (fun i => vx (nth i ls d)) P).
  - rewrite <- (rsum_vsum (fun v => vy v) d); [|reflexivity|reflexivity]. exact (choice_int (length ls) (fun i => vy (nth i ls d)) P).
  - rewrite <- (rsum_vsum (fun v => vz v) d); [|reflexivity|reflexivity]. exact (choice_int (length ls) (fun i => vz (nth i ls d)) P).
Qed.

(** ** non-negativity of the recursive integrators *)
Lemma contrib_nn {V} (e : env V) p n wo eps time b l a x :
  (forall Li wi pdf vis, lt_sample l p eps a time = Ok (Li, wi, pdf, vis) -> nn Li /\ 0 <= pdf) ->
  (forall wi f, bsdf_f b wo wi ALL = Ok f -> nn f) ->
  whitted_contrib e p n wo eps time b l a x -> nn x.
Proof.
  intros HL HF (Li & wi & pdf & vis & Q & H). destruct (HL _ _ _ _ Q) as [N1 N2].
  destruct H as [(_ & N3 & f & F & [(_ & _ & ->)|(_ & ->)])|(_ & ->)]; try (apply nn_spec; lra).
  apply nn_scale; [|apply nn_mul; [now apply (HF wi)|exact N1]].
  apply Rmult_le_pos; [apply Rabs_pos|]. left. apply Rinv_0_lt_compat. lra.
Qed.
Lemma vsum_nn xs : List.Forall nn xs -> nn (vsum xs).
Proof. induction 1; cbn; [apply nn_spec; lra|now apply nn_add]. Qed.

(** ** differential of the transmitted direction, normal varying *)
Lemma sqrt_deriv_at g c1 : derivable_pt_lim g 0 c1 -> 0 < g 0 ->
  derivable_pt_lim (fun t => sqrt (g t)) 0 (c1 / (2 * sqrt (g 0))).
Proof.
  intros D P. replace (c1 / (2 * sqrt (g 0))) with (/ (2 * sqrt (g 0)) * c1) by (unfold Rdiv; ring).
  apply (derivable_pt_lim_comp g sqrt 0 c1 (/ (2 * sqrt (g 0))) D). now apply derivable_pt_lim_sqrt.
Qed.
Lemma transmit_deriv_gen eta wo n dwo dn : vdot n n = 1 -> 0 < 1 - eta * eta * (1 - vdot wo n * vdot wo n) ->
  let wi := refract eta wo n in
  let S := sqrt (1 - eta * eta * (1 - vdot wo n * vdot wo n)) in
  let g := (eta - eta * eta * vdot wo n / S) * (vdot dwo n + vdot wo dn) in
  vderiv (fun t => refract eta (moved wo dwo t) (moved n dn t))
    (vadd (vsub (transmit_diff eta wi wo n dwo dn) wi) (vscale 2 (vsub (vscale g n) (vscale eta dwo)))).
Proof.
  intros N1 P wi S g. set (c0 := vdot wo n) in *. set (c1 := vdot dwo n + vdot wo dn) in *. set (c2 := vdot dwo dn).
  pose proof (sqrt_lt_R0 _ P) as SP. fold S in SP.
  assert (DOT : forall t, vdot (moved wo dwo t) (moved n dn t) = c0 + c1 * t + c2 * t ^ 2).
  { intros t. unfold c0, c1, c2, moved, vdot, vadd, vscale, vmap, vmap2; cbn. ring. }
  assert (WN : vdot wi n = - S).
  { unfold wi, refract. fold c0. fold S. transitivity (- eta * c0 + (eta * c0 - S) * vdot n n).
    - unfold c0, vdot, vadd, vscale, vmap, vmap2; cbn. ring.
    - rewrite N1. ring. }
  assert (RD : vadd (vsub (transmit_diff eta wi wo n dwo dn) wi) (vscale 2 (vsub (vscale g n) (vscale eta dwo))) =
    vadd (vadd (vscale (- eta) dwo) (vscale (eta * c1 - eta * eta * c0 * c1 / S) n)) (vscale (eta * c0 - S) dn)).
  { unfold transmit_diff. rewrite WN. replace (vdot (vneg wo) n) with (- c0) by (unfold c0, vdot, vneg, vmap; cbn; ring).
    replace (dDN_of n wo dwo dn) with c1 by (unfold dDN_of, c1; ring). unfold g.
    generalize wi. intros m. clearbody c1.
    unfold vadd, vsub, vneg, vscale, vmap, vmap2; cbn. f_equal; field; lra. }
  rewrite RD.
  set (k := fun t => 1 - eta * eta * (1 - (c0 + c1 * t + c2 * t ^ 2) * (c0 + c1 * t + c2 * t ^ 2))).
  assert (K0 : k 0 = 1 - eta * eta * (1 - c0 * c0)) by (unfold k; ring).
  assert (DK : derivable_pt_lim k 0 (2 * eta * eta * c0 * c1)).
  { unfold k. apply is_derive_Reals. auto_derive; [auto|]. ring. }
  pose proof (sqrt_deriv_at k _ DK ltac:(rewrite K0; exact P)) as DS. rewrite K0 in DS. fold S in DS.
  assert (G : forall w0 w1 n0 n1 f,
    (forall t, f t = - eta * (w0 + t * w1) + (eta * (c0 + c1 * t + c2 * t ^ 2) - sqrt (k t)) * (n0 + t * n1)) ->
    derivable_pt_lim f 0 (- eta * w1 + (eta * c1 - eta * eta * c0 * c1 / S) * n0 + (eta * c0 - S) * n1)).
  { intros w0 w1 n0 n1 f Hf.
    assert (DA : derivable_pt_lim (fun t => - eta * (w0 + t * w1) + eta * (c0 + c1 * t + c2 * t ^ 2) * (n0 + t * n1)) 0
       (- eta * w1 + eta * c1 * n0 + eta * c0 * n1)).
    { apply is_derive_Reals. auto_derive; [auto|]. ring. }
    assert (DB : derivable_pt_lim (fun t => - (n0 + t * n1)) 0 (- n1)).
    { apply is_derive_Reals. auto_derive; [auto|]. ring. }
    pose proof (derivable_pt_lim_mult _ _ _ _ _ DB DS) as DM.
    pose proof (derivable_pt_lim_plus _ _ _ _ _ DA DM) as DD.
    assert (EQ : - eta * w1 + (eta * c1 - eta * eta * c0 * c1 / S) * n0 + (eta * c0 - S) * n1 =
      - eta * w1 + eta * c1 * n0 + eta * c0 * n1 + (- n1 * sqrt (k 0) + - (n0 + 0 * n1) * (2 * eta * eta * c0 * c1 / (2 * S)))).
    { rewrite K0. fold S. field. lra. }
    rewrite EQ. eapply dlim_ext; [|exact DD]. intros t. rewrite Hf. unfold plus_fct, mult_fct. ring. }
  split; [apply (G (vx wo) _ (vx n))|split; [apply (G (vy wo) _ (vy n))|apply (G (vz wo) _ (vz n))]]; intros t; unfold refract; rewrite DOT;
    unfold moved, vadd, vscale, vmap, vmap2; cbn [vx vy vz]; reflexivity.
Qed.
