(** Albedo estimates (for Props_Microfacet.v). *)
From Coq Require Import Reals Lra Lia List ZArith Bool.
From Verif Require Import Base M_Geometry S_Geometry M_MonteCarlo P_MonteCarlo M_Reflection S_Reflection M_Sampler M_Rho S_Rho.
Import ListNotations.
Open Scope R_scope.

Lemma vadd_0_l v : vadd (spec 0) v = v. Proof. apply V3_eq; cbn; ring. Qed.
Lemma vadd_0_r v : vadd v (mkV 0 0 0) = v. Proof. apply V3_eq; cbn; ring. Qed.
Lemma vadd_assoc a b c : vadd (vadd a b) c = vadd a (vadd b c). Proof. apply V3_eq; cbn; ring. Qed.
Lemma rho_hd_loop_spec b w (draw : R * R -> R * option (vec * vec)) l acc :
  (forall u, In u l -> bdf_sample b w (fst u) (snd u) = Ok (draw u)) ->
  rho_hd_loop b w l acc = Ok (vadd acc (total (fun u => weight 1 (draw u)) l)).
Proof.
  revert acc. induction l as [|[u1 u2] l IH]; intros acc H; cbn [rho_hd_loop total].
  - now rewrite vadd_0_r.
  - pose proof (H (u1, u2) (or_introl eq_refl)) as E. cbn [fst snd] in E. rewrite E. cbn [bind].
    assert (H' : forall u, In u l -> bdf_sample b w (fst u) (snd u) = Ok (draw u)) by (intros; apply H; now right).
    destruct (draw (u1, u2)) as [pdf [[wi f]|]]; cbn [weight]; rewrite IH by exact H'; f_equal.
    + destruct (Rltb 0 pdf) eqn:B; [apply Rltb_true in B|apply Rltb_false in B]; destruct (Rlt_dec 0 pdf); try lra.
      * rewrite vadd_assoc. f_equal. f_equal. unfold abs_cos_theta. apply V3_eq; cbn; field; lra.
      * f_equal. apply V3_eq; cbn; ring.
    + f_equal. apply V3_eq; cbn; ring.
Qed.
Lemma rho_hh_loop_spec b (draw : R * R -> R * R -> R * option (vec * vec)) l : forall (s1 s2 : list (R * R)) i acc,
  (forall a u, In (a, u) l -> bdf_sample b (uniform_sample_hemisphere (fst a) (snd a)) (fst u) (snd u) = Ok (draw a u)) ->
  (forall k a u, nth_error l k = Some (a, u) -> nth_error s1 (i + k) = Some a /\ nth_error s2 (i + k) = Some u) ->
  rho_hh_loop b i (length l) s1 s2 acc =
    Ok (vadd acc (total (fun p => weight (2 * PI * Rabs (fst (fst p))) (draw (fst p) (snd p))) l)).
Proof.
  pose proof PI_RGT_0 as HPI. induction l as [|[[a1 a2] [b1 b2]] l IH]; intros s1 s2 i acc H N; cbn [rho_hh_loop total length].
  - now rewrite vadd_0_r.
  - destruct (N 0%nat _ _ eq_refl) as [N1 N2]. rewrite Nat.add_0_r in N1, N2. rewrite N1, N2.
    pose proof (H (a1, a2) (b1, b2) (or_introl eq_refl)) as E. cbn [fst snd] in E. cbv zeta. rewrite E. cbn [bind fst snd].
    assert (H' : forall a u, In (a, u) l -> bdf_sample b (uniform_sample_hemisphere (fst a) (snd a)) (fst u) (snd u) = Ok (draw a u))
      by (intros; apply H; now right).
    assert (N' : forall k a u, nth_error l k = Some (a, u) -> nth_error s1 (S i + k) = Some a /\ nth_error s2 (S i + k) = Some u).
    { intros k a u E'. specialize (N (S k) a u E'). now replace (S i + k)%nat with (i + S k)%nat by lia. }
    destruct (draw (a1, a2) (b1, b2)) as [pdf [[wi f]|]]; cbn [weight]; rewrite IH by auto; f_equal.
    + destruct (Rltb 0 pdf) eqn:B; [apply Rltb_true in B|apply Rltb_false in B]; destruct (Rlt_dec 0 pdf); try lra.
      * rewrite vadd_assoc. f_equal. f_equal. unfold abs_cos_theta, uniform_sample_hemisphere. cbv zeta.
        apply V3_eq; cbn; field; lra.
      * f_equal. apply V3_eq; cbn; ring.
    + f_equal. apply V3_eq; cbn; ring.
Qed.
(** lobes whose estimates are Monte Carlo averages *)
Definition averaged (b : bdf) : Prop :=
  match b with Lambertian _ | BRDF2BTDF _ | ScaledBDF _ _ => False | _ => True end.
Lemma rho_hd_mean b w samples draw : averaged b ->
  (forall u, In u samples -> bdf_sample b w (fst u) (snd u) = Ok (draw u)) ->
  bdf_rho_hd b w samples = Ok (mean (fun u => weight 1 (draw u)) samples).
Proof.
  intros A H. pose proof (rho_hd_loop_spec b w draw samples (spec 0) H) as L.
  assert (G : (do r <- rho_hd_loop b w samples (spec 0); Ok (sdiv r (INR (length samples)))) =
              Ok (mean (fun u => weight 1 (draw u)) samples)).
  { rewrite L. cbn [bind]. f_equal. rewrite vadd_0_l. unfold mean. apply V3_eq; cbn; unfold Rdiv; ring. }
  destruct b; try contradiction; exact G.
Qed.
Lemma nth_error_combine {A B} (l1 : list A) (l2 : list B) k a b :
  nth_error (combine l1 l2) k = Some (a, b) -> nth_error l1 k = Some a /\ nth_error l2 k = Some b.
Proof.
  revert l2 k. induction l1 as [|x l1 IH]; intros [|y l2] [|k]; cbn; try discriminate.
  - intros E. injection E as -> ->. auto.
  - apply IH.
Qed.
Lemma rho_hh_mean b s1 s2 draw : averaged b -> length s1 = length s2 ->
  (forall a u, In (a, u) (combine s1 s2) -> bdf_sample b (uniform_sample_hemisphere (fst a) (snd a)) (fst u) (snd u) = Ok (draw a u)) ->
  bdf_rho_hh b (length s1) s1 s2 =
    Ok (mean (fun p => weight (2 * Rabs (fst (fst p))) (draw (fst p) (snd p))) (combine s1 s2)).
Proof.
  intros A E H. pose proof PI_RGT_0 as HPI.
  pose proof (rho_hh_loop_spec b draw (combine s1 s2) s1 s2 0 (spec 0) H (nth_error_combine s1 s2)) as L.
  assert (EL : length (combine s1 s2) = length s1) by (rewrite combine_length, E; lia).
  rewrite EL in L.
  assert (G : (do r <- rho_hh_loop b 0 (length s1) s1 s2 (spec 0); Ok (sdiv r (PI * INR (length s1)))) =
     Ok (mean (fun p => weight (2 * Rabs (fst (fst p))) (draw (fst p) (snd p))) (combine s1 s2))).
  { rewrite L. cbn [bind]. f_equal. rewrite vadd_0_l. unfold mean. rewrite EL.
    assert (T : forall l : list ((R * R) * (R * R)), total (fun p => weight (2 * PI * Rabs (fst (fst p))) (draw (fst p) (snd p))) l =
       vscale PI (total (fun p => weight (2 * Rabs (fst (fst p))) (draw (fst p) (snd p))) l)).
    { induction l as [|p l IH]; cbn [total]; [apply V3_eq; cbn; ring|]. rewrite IH.
      replace (weight (2 * PI * Rabs (fst (fst p))) (draw (fst p) (snd p))) with
        (vscale PI (weight (2 * Rabs (fst (fst p))) (draw (fst p) (snd p)))).
      - apply V3_eq; cbn; ring.
      - destruct (draw (fst p) (snd p)) as [pdf [[wi f]|]]; cbn [weight]; [destruct (Rlt_dec 0 pdf)|];
          apply V3_eq; cbn; try ring; field; lra. }
    rewrite T. set (t := total _ _). destruct (Req_dec (INR (length s1)) 0) as [Z0|Z0].
    - destruct s1 as [|x s1]; [|cbn [length] in Z0; rewrite S_INR in Z0; pose proof (pos_INR (length s1)); lra].
      subst t. cbn [combine total]. apply V3_eq; cbn; unfold Rdiv; ring.
    - apply V3_eq; cbn; field; split; auto; lra. }
  destruct b; try contradiction; exact G.
Qed.
(** BSDF sums *)
Lemma sum_rho_spec rho l flags acc (r : bdf -> vec) : (forall b, In b l -> match_flag b flags = true -> rho b = Ok (r b)) ->
  sum_rho rho l flags acc = Ok (vadd acc (total r (filter (fun b => match_flag b flags) l))).
Proof.
  revert acc. induction l as [|b l IH]; intros acc H; cbn [sum_rho filter total]; [now rewrite vadd_0_r|].
  destruct (match_flag b flags) eqn:M.
  - rewrite (H b) by (auto; now left). cbn [bind total]. rewrite IH by (intros; apply H; auto; now right). now rewrite vadd_assoc.
  - apply IH. intros; apply H; auto; now right.
Qed.
