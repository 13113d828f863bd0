(** Proofs about what lights and paths contribute. *)
From Coq Require Import Reals Lra Lia List Bool ZArith.
From Coquelicot Require Import Coquelicot.
From Verif Require Import Base M_Geometry M_MonteCarlo M_Aggregate M_Reflection M_Utility M_Spectrum M_Sampler M_Film M_Light M_Integrator.
From Verif Require Import S_Integrator S_Integrator2 P_Integrator P_Integrator2.
Import ListNotations.
Open Scope R_scope.

Lemma black_iff s : spec_is_black s = false <-> bright s.
Proof.
  unfold spec_is_black, bright. fold EPS. rewrite !andb_false_iff, !Rltb_false. unfold EPS. tauto.
Qed.
Lemma black_iff_t s : spec_is_black s = true <-> ~ bright s.
Proof. rewrite <- black_iff. destruct (spec_is_black s); split; congruence. Qed.
Lemma nonblack_iff s : is_black s = false <-> nonblack s.
Proof. unfold is_black, nonblack. rewrite !andb_false_iff, !Rltb_false. unfold EPS. tauto. Qed.
Lemma nonblack_iff_t s : is_black s = true <-> ~ nonblack s.
Proof. rewrite <- nonblack_iff. destruct (is_black s); split; congruence. Qed.
Lemma rand3_eq u k : smp_from_rand u k = (random3 u k, (k + 3)%nat).
Proof. unfold smp_from_rand, random3. repeat f_equal; lia. Qed.
Lemma vadd_spec0_r v : vadd v (spec 0) = v.
Proof. destruct v as [x y z]; unfold vadd, spec, vmap2; cbn; f_equal; ring. Qed.
Lemma vadd_spec0_l v : vadd (spec 0) v = v.
Proof. destruct v as [x y z]; unfold vadd, spec, vmap2; cbn; f_equal; ring. Qed.
Lemma vadd_ass a b c : vadd (vadd a b) c = vadd a (vadd b c).
Proof. destruct a, b, c; unfold vadd, vmap2; cbn; f_equal; ring. Qed.
Lemma smul_1 v : smul (spec 1) v = v.
Proof. destruct v as [x y z]; unfold smul, spec, vmap2; cbn; f_equal; ring. Qed.

Section Local.
Context {V : Type} (e : env V) (u : nat -> R).
Hypothesis NV : vol e = None.
Lemma no_medium r k : transmittance e r k = (spec 1, k).
Proof. unfold transmittance. now rewrite NV. Qed.

Lemma whitted_sum p n wo eps time b : forall ls L0 k L k',
  whitted_lights e u ls p n wo eps time b L0 k = Ok (L, k') <->
  exists xs, length xs = length ls /\ L = vadd L0 (vsum xs) /\ k' = (k + 3 * length ls)%nat /\
    forall i l x, nth_error ls i = Some l -> nth_error xs i = Some x ->
      whitted_contrib e p n wo eps time b l (random3 u (k + 3 * i)) x.
Proof.
  induction ls as [|l ls IH]; intros L0 k L k'.
  - cbn [whitted_lights length]. split.
    + intros H. injection H as <- <-. exists []. split; [reflexivity|]. split; [cbn; now rewrite vadd_spec0_r|]. split; [lia|].
      intros [|i] l x H; discriminate H.
    + intros (xs & A & -> & -> & _). destruct xs; [|discriminate]. cbn. rewrite vadd_spec0_r. do 2 f_equal. lia.
  - cbn [whitted_lights]. rewrite rand3_eq.
    (* the contribution of the first light *)
    assert (G : (exists x, whitted_contrib e p n wo eps time b l (random3 u k) x /\
        whitted_lights e u ls p n wo eps time b (vadd L0 x) (k + 3) = Ok (L, k')) <->
      (do s <- lt_sample l p eps (random3 u k) time;
       let '(Li, wi, pdf, vis) := s in
       if spec_is_black Li || Reqb pdf 0 then whitted_lights e u ls p n wo eps time b L0 (k + 3)
       else
         do f <- bsdf_f b wo wi ALL;
         if negb (spec_is_black f) && unoccluded (hit_p e) vis then
           let '(T, k2) := transmittance e (inr vis) (k + 3) in
           whitted_lights e u ls p n wo eps time b
             (vadd L0 (sdiv (smul (vscale (abs_dot wi n) (smul f Li)) T) pdf)) k2
         else whitted_lights e u ls p n wo eps time b L0 (k + 3)) = Ok (L, k')).
    { unfold whitted_contrib. destruct (lt_sample l p eps (random3 u k) time) as [[[[Li wi] pdf] vis]|y]; cbn [bind].
      2: { split; [intros (x & (? & ? & ? & ? & Q & _) & _); discriminate Q|discriminate]. }
      destruct (spec_is_black Li || Reqb pdf 0) eqn:Q1.
      - assert (D : ~ bright Li \/ pdf = 0) by (apply orb_prop in Q1 as [Q1|Q1]; [left; now apply black_iff_t|right; now Rb]).
        split.
        + intros (x & (Li' & wi' & pdf' & vis' & QQ & H) & W). injection QQ as <- <- <- <-.
          destruct H as [(H1 & H2 & _)|(_ & ->)]; [tauto|]. now rewrite vadd_spec0_r in W.
        + intros W. exists (spec 0). split; [|now rewrite vadd_spec0_r]. exists Li, wi, pdf, vis. split; [reflexivity|]. right. tauto.
      - apply orb_false_elim in Q1 as [Q1 Q2]. apply black_iff in Q1. Rb.
        destruct (bsdf_f b wo wi ALL) as [f|y] eqn:Qf; cbn [bind].
        2: { split; [|discriminate]. intros (x & (Li' & wi' & pdf' & vis' & QQ & H) & W). injection QQ as <- <- <- <-.
             destruct H as [(_ & _ & f & H & _)|(H & _)]; [congruence|tauto]. }
        rewrite no_medium. unfold unoccluded. destruct (spec_is_black f) eqn:Q3; cbn [negb andb].
        + apply black_iff_t in Q3. split.
          * intros (x & (Li' & wi' & pdf' & vis' & QQ & H) & W). injection QQ as <- <- <- <-.
            destruct H as [(_ & _ & f' & H & H')|(H & _)]; [|tauto]. rewrite Qf in H. injection H as <-.
            destruct H' as [(H' & _)|(_ & ->)]; [tauto|]. now rewrite vadd_spec0_r in W.
          * intros W. exists (spec 0). split; [|now rewrite vadd_spec0_r]. exists Li, wi, pdf, vis. split; [reflexivity|]. left.
            split; [auto|]. split; [auto|]. exists f. split; [auto|]. right. tauto.
        + apply black_iff in Q3. destruct (hit_p e vis) eqn:Q4; cbn [negb].
          * split.
            -- intros (x & (Li' & wi' & pdf' & vis' & QQ & H) & W). injection QQ as <- <- <- <-.
               destruct H as [(_ & _ & f' & H & H')|(H & _)]; [|tauto].
               destruct H' as [(_ & H' & _)|(_ & ->)]; [congruence|]. now rewrite vadd_spec0_r in W.
            -- intros W. exists (spec 0). split; [|now rewrite vadd_spec0_r]. exists Li, wi, pdf, vis. split; [reflexivity|]. left.
               split; [auto|]. split; [auto|]. exists f. split; [auto|]. right. tauto.
          * assert (QE : sdiv (smul (vscale (abs_dot wi n) (smul f Li)) (spec 1)) pdf = vscale (Rabs (vdot wi n) / pdf) (smul f Li)).
            { destruct f as [f1 f2 f3], Li as [l1 l2 l3]. unfold sdiv, smul, vscale, spec, vmap, vmap2, abs_dot; cbn. f_equal; field; auto. }
            rewrite QE. split.
            -- intros (x & (Li' & wi' & pdf' & vis' & QQ & H) & W). injection QQ as <- <- <- <-.
               destruct H as [(_ & _ & f' & H & H')|(H & _)]; [|tauto]. rewrite Qf in H. injection H as <-.
               destruct H' as [(_ & _ & ->)|([H'|H'] & _)]; [exact W|tauto|congruence].
            -- intros W. eexists. split; [|exact W]. exists Li, wi, pdf, vis. split; [reflexivity|]. left.
               split; [auto|]. split; [auto|]. exists f. split; [auto|]. left. auto. }
    rewrite <- G. clear G. split.
    + intros (x & C & W). apply IH in W as (xs & A & -> & -> & D). exists (x :: xs). split; [cbn; congruence|]. split.
      { unfold vsum; cbn [fold_right]. now rewrite vadd_ass. } split; [cbn [length]; lia|].
      intros [|i] l' x' H1 H2; cbn in H1, H2.
      * injection H1 as <-. injection H2 as <-. now rewrite Nat.mul_0_r, Nat.add_0_r.
      * replace (k + 3 * S i)%nat with (k + 3 + 3 * i)%nat by lia. now apply D.
    + intros ([|x xs] & A & -> & -> & D); [discriminate|]. exists x. split.
      { specialize (D 0%nat l x eq_refl eq_refl). now rewrite Nat.mul_0_r, Nat.add_0_r in D. }
      apply IH. exists xs. split; [cbn in A; congruence|]. split; [unfold vsum; cbn [fold_right]; now rewrite vadd_ass|].
      split; [cbn [length]; lia|]. intros i l' x' H1 H2. specialize (D (S i) l' x' H1 H2).
      now replace (k + 3 + 3 * i)%nat with (k + 3 * S i)%nat by lia.
Qed.

(** the shared estimator, for delta lights *)
Lemma estimate_delta l p n wo eps time b a c k x k' : lt_delta l = true ->
  (estimate_direct e l p n wo eps time b a c NOSPEC k = Ok (x, k') <-> delta_contrib e p n wo eps time b l a x /\ k' = k).
Proof.
  intros D. unfold estimate_direct, direct_bsdf_half, direct_light_half, delta_contrib. rewrite D.
  destruct (lt_sample l p eps a time) as [[[[Li wi] pdf] vis]|y]; cbn [bind].
  2: { split; [discriminate|]. intros ((? & ? & ? & ? & Q & _) & _). discriminate Q. }
  destruct (Rltb 0 pdf) eqn:Q1; Rb; cbn [andb].
  2: { cbn [bind]. split.
       - intros H. injection H as <- <-. split; [|reflexivity]. exists Li, wi, pdf, vis. split; [reflexivity|]. right. tauto.
       - intros ((Li' & wi' & pdf' & vis' & QQ & H) & ->). injection QQ as <- <- <- <-.
         destruct H as [(_ & H & _)|(_ & ->)]; [lra|reflexivity]. }
  destruct (is_black Li) eqn:Q2; cbn [negb].
  { apply nonblack_iff_t in Q2. cbn [bind]. split.
       - intros H. injection H as <- <-. split; [|reflexivity]. exists Li, wi, pdf, vis. split; [reflexivity|]. right. tauto.
       - intros ((Li' & wi' & pdf' & vis' & QQ & H) & ->). injection QQ as <- <- <- <-.
         destruct H as [(H & _)|(_ & ->)]; [tauto|reflexivity]. }
  apply nonblack_iff in Q2.
  destruct (bsdf_f b wo wi NOSPEC) as [f|y] eqn:Qf; cbn [bind].
  2: { split; [discriminate|]. intros ((Li' & wi' & pdf' & vis' & QQ & H) & ->). injection QQ as <- <- <- <-.
       destruct H as [(_ & _ & f & H & _)|([H|H] & _)]; [congruence|tauto|lra]. }
  unfold unoccluded. rewrite no_medium. destruct (is_black f) eqn:Q3; cbn [negb andb bind].
  - apply nonblack_iff_t in Q3. split.
    + intros H. injection H as <- <-. split; [|reflexivity]. exists Li, wi, pdf, vis. split; [reflexivity|]. left.
      split; [auto|]. split; [auto|]. exists f. tauto.
    + intros ((Li' & wi' & pdf' & vis' & QQ & H) & ->). injection QQ as <- <- <- <-.
      destruct H as [(_ & _ & f' & H & H')|([H|H] & _)]; [|tauto|lra]. rewrite Qf in H. injection H as <-.
      destruct H' as [(H' & _)|(_ & ->)]; [tauto|reflexivity].
  - apply nonblack_iff in Q3. destruct (hit_p e vis) eqn:Q4; cbn [negb bind].
    + split.
      * intros H. injection H as <- <-. split; [|reflexivity]. exists Li, wi, pdf, vis. split; [reflexivity|]. left.
        split; [auto|]. split; [auto|]. exists f. tauto.
      * intros ((Li' & wi' & pdf' & vis' & QQ & H) & ->). injection QQ as <- <- <- <-.
        destruct H as [(_ & _ & f' & H & H')|([H|H] & _)]; [|tauto|lra].
        destruct H' as [(_ & H' & _)|(_ & ->)]; [congruence|reflexivity].
    + assert (QE : vscale (abs_dot wi n / pdf) (smul f (smul Li (spec 1))) = vscale (Rabs (vdot wi n) / pdf) (smul f Li)).
      { destruct f as [f1 f2 f3], Li as [l1 l2 l3]. unfold smul, vscale, spec, vmap, vmap2, abs_dot; cbn. f_equal; ring. }
      rewrite QE. split.
      * intros H. injection H as <- <-. split; [|reflexivity]. exists Li, wi, pdf, vis. split; [reflexivity|]. left.
        split; [auto|]. split; [auto|]. exists f. split; [auto|]. left. auto.
      * intros ((Li' & wi' & pdf' & vis' & QQ & H) & ->). injection QQ as <- <- <- <-.
        destruct H as [(_ & _ & f' & H & H')|([H|H] & _)]; [|tauto|lra]. rewrite Qf in H. injection H as <-.
        destruct H' as [(_ & _ & ->)|([H'|H'] & _)]; [reflexivity|tauto|congruence].
Qed.
End Local.

Lemma stored_iff s o j a : smp_from_sample s o j = Ok a <-> stored s o j a.
Proof.
  unfold smp_from_sample, stored, idx. destruct (nth_error (twoD s) (of_dir o)) as [l2|]; cbn [bind].
  2: { split; [discriminate|]. intros (? & ? & H & _). discriminate. }
  destruct (nth_error l2 j) as [[q1 q2]|] eqn:Q2; cbn [bind].
  2: { split; [discriminate|]. intros (l & l' & H & _ & H2 & _). injection H as <-. congruence. }
  destruct (nth_error (oneD s) (of_com o)) as [l1|]; cbn [bind].
  2: { split; [discriminate|]. intros (? & ? & _ & H & _). discriminate. }
  destruct (nth_error l1 j) as [c|] eqn:Q1; cbn [bind].
  2: { split; [discriminate|]. intros (l & l' & _ & H & _ & H2). injection H as <-. congruence. }
  cbn [fst snd]. split.
  - intros H. injection H as <-. exists l2, l1. cbn. auto.
  - intros (l & l' & A & B & C & D). injection A as <-. injection B as <-. rewrite Q2 in C. rewrite Q1 in D.
    destruct a as [[a1 a2] a3]. cbn in *. congruence.
Qed.

Section All.
Context {V : Type} (e : env V) (u : nat -> R).
(** the estimates of one light *)
Lemma all_samples_stored l s lo bo p n wo eps time b : forall js L0 k L k',
  all_samples e u l (Some (s, lo, bo)) p n wo eps time b js L0 k = Ok (L, k') ->
  exists xs, length xs = length js /\ L = vadd L0 (vsum xs) /\
    forall i j x, nth_error js i = Some j -> nth_error xs i = Some x ->
      exists a c i1 i2, stored s lo j a /\ stored s bo j c /\ estimate_direct e l p n wo eps time b a c NOSPEC i1 = Ok (x, i2).
Proof.
  induction js as [|j js IH]; intros L0 k L k' H; cbn [all_samples] in H.
  - injection H as <- <-. exists []. split; [reflexivity|]. split; [cbn; now rewrite vadd_spec0_r|]. intros [|i] j x Q; discriminate Q.
  - destruct (smp_from_sample s lo j) as [a|?] eqn:A; cbn [bind] in H; [|discriminate].
    destruct (smp_from_sample s bo j) as [c|?] eqn:C; cbn [bind] in H; [|discriminate].
    destruct (estimate_direct e l p n wo eps time b a c NOSPEC k) as [[x k1]|?] eqn:Q; cbn [bind] in H; [|discriminate].
    apply IH in H as (xs & B1 & -> & B2). exists (x :: xs). split; [cbn; congruence|]. split.
    + unfold vsum; cbn [fold_right]. now rewrite vadd_ass.
    + intros [|i] j' x' H1 H2; cbn in H1, H2.
      * injection H1 as <-. injection H2 as <-. exists a, c, k, k1. rewrite <- !stored_iff. auto.
      * eapply B2; eauto.
Qed.
Lemma nth_error_seq0 n i : (i < n)%nat -> nth_error (seq 0 n) i = Some i.
Proof.
  intros H. rewrite (nth_error_nth' (seq 0 n) 0%nat) by (now rewrite seq_length). now rewrite seq_nth.
Qed.
Lemma all_lights_means s lo bo p n wo eps time b : forall ls i0 L0 k L k',
  all_lights e u ls i0 (Some (s, lo, bo)) p n wo eps time b L0 k = Ok (L, k') ->
  exists xss, length xss = length ls /\ L = vadd L0 (vsum (map mean xss)) /\
    forall i l xs, nth_error ls i = Some l -> nth_error xss i = Some xs ->
      exists ol ob, nth_error lo (i0 + i) = Some ol /\ nth_error bo (i0 + i) = Some ob /\ length xs = of_n ol /\
      forall j x, nth_error xs j = Some x ->
        exists a c i1 i2, stored s ol j a /\ stored s ob j c /\ estimate_direct e l p n wo eps time b a c NOSPEC i1 = Ok (x, i2).
Proof.
  induction ls as [|l ls IH]; intros i0 L0 k L k' H; cbn [all_lights] in H.
  - injection H as <- <-. exists []. split; [reflexivity|]. split; [cbn; now rewrite vadd_spec0_r|]. intros [|i] l x Q; discriminate Q.
  - unfold idx in H. destruct (nth_error lo i0) as [ol|] eqn:A; cbn [bind] in H; [|discriminate].
    destruct (nth_error bo i0) as [ob|] eqn:C; cbn [bind] in H; [|discriminate].
    destruct (all_samples e u l (Some (s, ol, ob)) p n wo eps time b (seq 0 (of_n ol)) (spec 0) k) as [[Ld k1]|?] eqn:Q; cbn [bind] in H; [|discriminate].
    apply all_samples_stored in Q as (xs & X1 & -> & X2). rewrite seq_length in X1. rewrite vadd_spec0_l in H.
    apply IH in H as (xss & B1 & -> & B2). exists (xs :: xss). split; [cbn; congruence|]. split.
    + cbn [map]. unfold vsum at 3; cbn [fold_right]. fold (vsum (map mean xss)). rewrite <- vadd_ass. do 2 f_equal. unfold mean. rewrite X1.
      destruct (vsum xs) as [x y z]. unfold sdiv, vscale, vmap, Rdiv; cbn. f_equal; ring.
    + intros [|i] l' xs' H1 H2; cbn in H1, H2.
      * injection H1 as <-. injection H2 as <-. rewrite Nat.add_0_r. exists ol, ob. split; [auto|]. split; [auto|]. split; [auto|].
        intros j x Hj. eapply X2; [|exact Hj]. apply nth_error_seq0. rewrite <- X1. apply nth_error_Some. congruence.
      * replace (i0 + S i)%nat with (S i0 + i)%nat by lia. eapply B2; eauto.
Qed.

(** the chosen light *)
Lemma light_index_range x n : (0 < n)%nat -> 0 <= x <= 1 -> (0 <= light_index x n < Z.of_nat n)%Z.
Proof.
  intros N X. unfold light_index. assert (PN : 0 < INR n) by now apply lt_0_INR.
  assert (0 <= Zfloor (x * INR n))%Z by (apply Zfloor_ge; nra). lia.
Qed.
Lemma get1_nth {A} (l : list A) (z : Z) : (0 <= z < Z.of_nat (length l))%Z ->
  get1 l z = match nth_error l (Z.to_nat z) with Some a => Ok a | None => Err IndexError end.
Proof.
  intros H. unfold get1, np_index.
  destruct (0 <=? z)%Z eqn:Q1; [|apply Z.leb_gt in Q1; lia].
  destruct (z <? Z.of_nat (length l))%Z eqn:Q2; [|apply Z.ltb_ge in Q2; lia]. reflexivity.
Qed.
End All.
