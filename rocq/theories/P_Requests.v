(** Proofs about sample requests. *)
From Coq Require Import Reals Lia List ZArith.
From Verif Require Import Base M_Sampler S_Sampler.
Import ListNotations.

Lemma requests_grow rs : forall s is s', requests s rs = (is, s') ->
  length is = length rs /\ (exists l, n1D s' = n1D s ++ l) /\ (exists l, n2D s' = n2D s ++ l) /\
  (forall i, (i < length rs)%nat ->
     let '(b, n) := nth i rs (true, 0%nat) in
     if b then nth_error (n1D s') (nth i is 0%nat) = Some n /\ (length (n1D s) <= nth i is 0%nat)%nat
     else nth_error (n2D s') (nth i is 0%nat) = Some n /\ (length (n2D s) <= nth i is 0%nat)%nat).
Proof.
  induction rs as [|[b n] rs IH]; intros s is s' E.
  - cbn in E. injection E as <- <-. repeat split; try (now exists []; rewrite app_nil_r). cbn; intros; lia.
  - cbn [requests] in E. destruct (if b then add_1d s n else add_2d s n) as [s1 i0] eqn:E1.
    destruct (requests s1 rs) as [is1 s2] eqn:E2. injection E as <- <-.
    destruct (IH _ _ _ E2) as (L&(l1&N1)&(l2&N2)&P).
    assert (Q : if b then n1D s1 = n1D s ++ [n] /\ n2D s1 = n2D s /\ i0 = length (n1D s)
                else n2D s1 = n2D s ++ [n] /\ n1D s1 = n1D s /\ i0 = length (n2D s)).
    { destruct b; unfold add_1d, add_2d in E1; injection E1 as <- <-; cbn; rewrite app_length; cbn; repeat split; auto; lia. }
    split; [cbn; lia|].
    destruct b; destruct Q as (Q1&Q2&Q3); rewrite Q1 in *; rewrite Q2 in *.
    + split; [exists ([n] ++ l1); rewrite N1, <- app_assoc; reflexivity|]. split; [eauto|].
      intros [|i] Hi.
      * cbn. subst i0. split; auto. rewrite N1, <- app_assoc. rewrite nth_error_app2, Nat.sub_diag by lia. reflexivity.
      * specialize (P i ltac:(cbn in Hi; lia)). cbn [nth]. destruct (nth i rs (true, 0%nat)) as [[|] m]; auto.
        rewrite app_length in P; cbn in P. split; [apply P|lia].
    + split; [eauto|]. split; [exists ([n] ++ l2); rewrite N2, <- app_assoc; reflexivity|].
      intros [|i] Hi.
      * cbn. subst i0. split; auto. rewrite N2, <- app_assoc. rewrite nth_error_app2, Nat.sub_diag by lia. reflexivity.
      * specialize (P i ltac:(cbn in Hi; lia)). cbn [nth]. destruct (nth i rs (true, 0%nat)) as [[|] m]; auto.
        rewrite app_length in P; cbn in P. split; [apply P|lia].
Qed.
Lemma requests_lt rs : forall s is s' i j, requests s rs = (is, s') -> (i < j < length rs)%nat ->
  fst (nth i rs (true, 0%nat)) = fst (nth j rs (true, 0%nat)) -> (nth i is 0 < nth j is 0)%nat.
Proof.
  induction rs as [|[b n] rs IH]; intros s is s' i j E Hij F; [cbn in Hij; lia|].
  cbn [requests] in E. destruct (if b then add_1d s n else add_2d s n) as [s1 i0] eqn:E1.
  destruct (requests s1 rs) as [is1 s2] eqn:E2. injection E as <- <-.
  destruct j as [|j]; [lia|]. destruct i as [|i].
  - destruct (requests_grow _ _ _ _ E2) as (_&_&_&P). specialize (P j ltac:(cbn in Hij; lia)). cbn [nth] in *.
    cbn [fst] in F. destruct (nth j rs (true, 0%nat)) as [b' m]; cbn [fst] in F; subst b'.
    destruct b; unfold add_1d, add_2d in E1; injection E1 as <- <-; cbn in P; rewrite app_length in *; cbn in *; lia.
  - cbn [nth] in *. eapply IH; eauto. cbn in Hij; lia.
Qed.
Lemma requests_main rs s is s' cnt : requests s rs = (is, s') ->
  length is = length rs /\
  (forall i, (i < length rs)%nat -> let '(b, n) := nth i rs (true, 0%nat) in
     nth_error (if b then n1D s' else n2D s') (nth i is 0%nat) = Some n) /\
  (forall i j, (i < length rs)%nat -> (j < length rs)%nat -> i <> j ->
     fst (nth i rs (true, 0%nat)) = fst (nth j rs (true, 0%nat)) -> nth i is 0%nat <> nth j is 0%nat) /\
  length (duplicate s' cnt) = cnt /\
  (forall d, In d (duplicate s' cnt) -> n1D d = n1D s' /\ n2D d = n2D s' /\
     length (oneD d) = length (n1D s') /\ length (twoD d) = length (n2D s')).
Proof.
  intros E. destruct (requests_grow _ _ _ _ E) as (L&_&_&P). split; auto. split.
  { intros i Hi. specialize (P i Hi). destruct (nth i rs (true, 0%nat)) as [[|] n]; apply P. }
  split.
  { intros i j Hi Hj N F. destruct (Nat.lt_total i j) as [H|[H|H]]; [|lia|].
    - pose proof (requests_lt _ _ _ _ _ _ E (conj H Hj) F). lia.
    - pose proof (requests_lt _ _ _ _ _ _ E (conj H Hi) (eq_sym F)). lia. }
  unfold duplicate. split; [apply repeat_length|]. intros d H. apply repeat_spec in H. subst d. cbn.
  rewrite !repeat_length. auto.
Qed.
