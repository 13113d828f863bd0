(** Proofs about Distribution2D. *)
From Coq Require Import Reals Lra Lia List Bool ZArith Psatz.
From Verif Require Import Base M_MonteCarlo S_MonteCarlo P_Distribution.
Import ListNotations.
Open Scope R_scope.

Lemma clip_index_in x n k : (k < n)%nat -> INR k <= x < INR (S k) -> clip_index x n = k.
Proof.
  intros Hk H. unfold clip_index. rewrite (Zfloor_unique x (Z.of_nat k)).
  - rewrite Z.max_l by lia. rewrite Z.min_l by lia. apply Nat2Z.id.
  - rewrite <- INR_IZR_INZ. rewrite S_INR in H. lra.
Qed.
Lemma clip_index_lt x n : (0 < n)%nat -> (clip_index x n < n)%nat.
Proof. intros. unfold clip_index. lia. Qed.
Lemma row_at arr nu i d : table2_ok arr nu -> (i < length arr)%nat ->
  length (nth i arr d) = nu /\ Forall (fun x => 0 <= x) (nth i arr d).
Proof. intros (_&H&_) Hi. rewrite Forall_forall in H. apply H. now apply nth_In. Qed.

Section D2.
  Variables (arr : list (list R)) (nu : nat).
  Hypothesis OK : table2_ok arr nu.
  Let margs := map d_raw (map dist1_make arr).
  Lemma nu_pos : 0 < INR nu.
  Proof. apply lt_0_INR. apply OK. Qed.
  Lemma margs_len : length margs = length arr.
  Proof. unfold margs. now rewrite !map_length. Qed.
  Lemma margs_nth i : (i < length arr)%nat -> nth i margs 0 = rsum (nth i arr []) / INR nu.
  Proof.
    intros Hi. unfold margs. rewrite map_map.
    rewrite nth_indep with (d' := (fun x => d_raw (dist1_make x)) []) by (now rewrite map_length).
    rewrite (map_nth (fun x => d_raw (dist1_make x))). rewrite raw_eq.
    now rewrite (proj1 (row_at arr nu i [] OK Hi)).
  Qed.
  Lemma margs_sum : rsum margs = rsum (map rsum arr) / INR nu.
  Proof.
    unfold margs. rewrite map_map. destruct OK as (_&F&_). pose proof nu_pos as P. clear OK margs.
    induction F as [|r l [L _] F IH]; [cbn; unfold Rdiv; ring|].
    cbn [map]. change (rsum (d_raw (dist1_make r) :: map (fun x => d_raw (dist1_make x)) l))
      with (d_raw (dist1_make r) + rsum (map (fun x => d_raw (dist1_make x)) l)).
    change (rsum (rsum r :: map rsum l)) with (rsum r + rsum (map rsum l)).
    rewrite IH, raw_eq, L. field. lra.
  Qed.
  Lemma margs_ok : table_ok margs.
  Proof.
    split.
    - apply Forall_forall. intros x Hx. apply (In_nth _ _ 0) in Hx as (i&Hi&<-). rewrite margs_len in Hi.
      rewrite margs_nth by auto. apply Rmult_le_pos; [apply rsum_nonneg; now apply (row_at arr nu)|].
      left; apply Rinv_0_lt_compat, nu_pos.
    - rewrite margs_sum. apply Rdiv_lt_0_compat; [apply OK|apply nu_pos].
  Qed.
  Lemma nv_pos : (0 < length arr)%nat.
  Proof. rewrite <- margs_len. apply table_len, margs_ok. Qed.
  Lemma marg_raw : d_raw (dist1_make margs) = mean2 arr nu.
  Proof.
    rewrite raw_eq, margs_sum, margs_len. unfold mean2. pose proof nu_pos.
    pose proof (INR_len_pos arr nv_pos). field. lra.
  Qed.
  Lemma mean2_pos : 0 < mean2 arr nu.
  Proof. rewrite <- marg_raw. apply raw_pos, margs_ok. Qed.
  Lemma cond_at i : (i < length arr)%nat -> nth_res (d_cond (dist2_make arr)) i = Ok (dist1_make (nth i arr [])).
  Proof.
    intros Hi. unfold dist2_make; cbn [d_cond].
    rewrite (nth_res_ok _ i (dist1_make [])) by (now rewrite map_length).
    now rewrite map_nth.
  Qed.

  Lemma dist2_pdf_at i j u v : (i < length arr)%nat -> (j < nu)%nat ->
    INR j <= u * INR nu < INR (S j) -> INR i <= v * INR (length arr) < INR (S i) ->
    dist2_pdf (dist2_make arr) u v = Ok (nth j (nth i arr []) 0 / mean2 arr nu).
  Proof.
    intros Hi Hj Hu Hv. unfold dist2_pdf.
    rewrite cond_at by (pose proof nv_pos; lia). cbn [bind].
    change (d_marg (dist2_make arr)) with (dist1_make margs).
    unfold d_cnt. change (d_func (dist1_make margs)) with margs.
    change (d_func (dist1_make (nth 0 arr []))) with (nth 0 arr []).
    rewrite margs_len.
    rewrite (proj1 (row_at arr nu 0 [] OK nv_pos)).
    rewrite (clip_index_in _ nu j Hj Hu), (clip_index_in _ _ i Hi Hv).
    rewrite cond_at by auto. cbn [bind]. change (d_func (dist1_make (nth i arr []))) with (nth i arr []).
    destruct (row_at arr nu i [] OK Hi) as [RL RF].
    rewrite (nth_res_ok _ j 0) by (now rewrite RL). cbn [bind].
    rewrite (nth_res_ok _ i 0) by (now rewrite margs_len). cbn [bind].
    rewrite marg_raw. pose proof mean2_pos as MP. pose proof nu_pos as NP.
    rewrite raw_eq, RL, margs_nth by auto.
    destruct (Reqb _ 0) eqn:Z; Rb.
    - apply Rmult_integral in Z as [Z|Z]; [|lra].
      assert (SZ : rsum (nth i arr []) = 0).
      { apply (f_equal (Rmult (INR nu))) in Z. replace (INR nu * (rsum (nth i arr []) / INR nu)) with (rsum (nth i arr [])) in Z by (field; lra). lra. }
      assert (E0 : nth j (nth i arr []) 0 = 0).
      { rewrite <- RL in Hj. set (r := nth i arr []) in *. clearbody r. clear - RF SZ Hj. revert j Hj.
        induction RF as [|x l Hx F IH]; intros j Hj; cbn [length] in Hj; [lia|].
        change (rsum (x :: l)) with (x + rsum l) in SZ. pose proof (rsum_nonneg l F).
        destruct j; cbn; [lra|]. apply IH; [lra|lia]. }
      rewrite E0. f_equal. unfold Rdiv; ring.
    - f_equal. assert (SN : rsum (nth i arr []) <> 0).
      { intros E. apply Z. rewrite E. unfold Rdiv; ring. }
      field. repeat split; auto; lra.
  Qed.

  Lemma dist2_cont_at u0 u1 : 0 < u0 <= 1 -> 0 < u1 <= 1 ->
    (forall i, (i <= length arr)%nat -> u1 <> mass margs (INR i / INR (length arr)) / mass margs 1) ->
    exists u i j pdf, dist2_cont (dist2_make arr) u0 u1 = Ok (Fin u, i, pdf) /\
      (i < length arr)%nat /\ (j < nu)%nat /\ 0 < u <= 1 /\ in_cell u j nu /\
      pdf = nth j (nth i arr []) 0 / mean2 arr nu /\ 0 < pdf.
  Proof.
    intros H0 H1 NB. destruct (cont_form margs u1 margs_ok H1) as (i&du&L&D&_&F0&D1&M&C).
    rewrite margs_len in L.
    assert (DN : du <> 1).
    { intros E. apply D1 in E. destruct (cdf_table margs margs_ok) as (_&_&_&_&CM).
      rewrite CM in E by (rewrite margs_len; lia). rewrite margs_len in E. apply (NB (S i)); [lia|auto]. }
    rewrite margs_nth in F0 by auto.
    destruct (row_at arr nu i [] OK L) as [RL RF].
    assert (RS : 0 < rsum (nth i arr [])).
    { pose proof nu_pos. apply Rmult_lt_reg_r with (/ INR nu); [now apply Rinv_0_lt_compat|]. lra. }
    assert (RO : table_ok (nth i arr [])) by (split; auto).
    destruct (cont_form _ u0 RO H0) as (j&dv&Lj&Dj&_&Fj&_&_&Cj).
    destruct (dist1_cont_main _ u0 RO H0) as (u'&pdf'&k&E'&R1&_). rewrite Cj in E'. injection E' as EU EP.
    unfold dist2_cont. change (d_marg (dist2_make arr)) with (dist1_make margs). rewrite C. cbn [bind].
    unfold d_cnt. change (d_func (dist1_make margs)) with margs. rewrite margs_len.
    pose proof (INR_len_pos arr nv_pos) as NV.
    rewrite (clip_index_in _ (length arr) i L).
    2:{ rewrite S_INR. replace ((du + INR i) * / INR (length arr) * INR (length arr)) with (du + INR i) by (field; lra). lra. }
    rewrite cond_at by auto. cbn [bind]. rewrite Cj. cbn [bind].
    rewrite RL in Lj. pose proof nu_pos as NU.
    eexists _, i, j, _. split; [reflexivity|]. split; auto. split; auto.
    rewrite EU. split; auto. split.
    { rewrite <- EU, RL. unfold in_cell. rewrite S_INR. unfold Rdiv. pose proof (Rinv_0_lt_compat _ NU).
      split; apply Rmult_le_compat_r; lra. }
    rewrite marg_raw, raw_eq, RL, margs_nth by auto. pose proof mean2_pos. split; [field; lra|].
    apply Rmult_lt_0_compat; apply Rdiv_lt_0_compat; auto.
  Qed.
End D2.

Lemma dist2_bad_v : exists arr nu u i pdf, table2_ok arr nu /\
  dist2_cont (dist2_make arr) (/2) (2/3) = Ok (Fin u, i, pdf) /\ (1 < i)%nat /\ ~ 0 <= INR i < 1.
Proof.
  set (A := [[1]; [1]; [1]; [1]]).
  assert (OK : table2_ok A 1).
  { repeat split; try lia; [|cbn; lra]. repeat constructor; lra. }
  destruct (cont_form (map d_raw (map dist1_make A)) (2/3) (margs_ok A 1 OK) ltac:(lra)) as (i&du&L&D&_&F0&D1&M&C).
  rewrite margs_len in L. cbn [length A] in L.
  assert (VM : map d_raw (map dist1_make A) = [1;1;1;1]).
  { unfold A. cbn [map]. rewrite raw_eq. cbn. replace ((1 + 0) / 1) with 1 by field. reflexivity. }
  rewrite VM in *.
  assert (I2 : i = 2%nat).
  { destruct i as [|[|[|[|i]]]]; auto; try lia; exfalso; cbn in M, F0; lra. }
  subst i. cbn in M. assert (DU : du = 2/3) by lra.
  assert (E : dist2_cont (dist2_make A) (/2) (2/3) = Ok (Fin (/2), 2%nat, 1)).
  { unfold dist2_cont. change (d_marg (dist2_make A)) with (dist1_make (map d_raw (map dist1_make A))).
    rewrite VM, C. cbn [bind]. unfold d_cnt. change (d_func (dist1_make [1;1;1;1])) with [1;1;1;1].
    rewrite (clip_index_in _ (length [1;1;1;1]) 2); [|cbn; lia|rewrite DU; cbn; lra].
    rewrite (cond_at A 2) by (cbn; lia). cbn [bind]. change (nth 2 A []) with [1].
    assert (T1 : table_ok [1]) by (split; [repeat constructor; lra|cbn; lra]).
    destruct (cont_form [1] (/2) T1 ltac:(lra)) as (j&dv&Lj&Dj&_&_&_&Mj&Cj).
    assert (j = 0)%nat as -> by (cbn in Lj; lia). cbn in Mj.
    rewrite Cj. cbn [bind]. rewrite !raw_eq. cbn. 
    replace dv with (/2) by lra. apply f_equal. apply f_equal2; [apply f_equal2; [apply f_equal; field|reflexivity]|field]. }
  exists A, 1%nat, (/2), 2%nat, 1. split; auto. split; auto. split; [lia|]. cbn. lra.
Qed.
(** A variate equal to a cumulative entry selects the next row but reports the previous row's
    marginal density. *)
Lemma dist2_bad_pdf : exists arr nu u i pdf, table2_ok arr nu /\
  dist2_cont (dist2_make arr) (/2) (/4) = Ok (Fin u, i, pdf) /\
  dist2_pdf (dist2_make arr) u ((INR i + /2) / INR (length arr)) <> Ok pdf.
Proof.
  set (A := [[1]; [3]]).
  assert (OK : table2_ok A 1).
  { repeat split; try lia; [|cbn; lra]. repeat constructor; lra. }
  destruct (cont_form (map d_raw (map dist1_make A)) (/4) (margs_ok A 1 OK) ltac:(lra)) as (i&du&L&D&_&F0&D1&M&C).
  rewrite margs_len in L. cbn [length A] in L.
  assert (VM : map d_raw (map dist1_make A) = [1;3]).
  { unfold A. cbn [map]. rewrite !raw_eq. cbn. replace ((1 + 0) / 1) with 1 by field.
    replace ((3 + 0) / 1) with 3 by field. reflexivity. }
  rewrite VM in *.
  assert (I0 : i = 0%nat).
  { destruct i as [|[|i]]; auto; try lia. exfalso. cbn in M. lra. }
  subst i. cbn in M. assert (DU : du = 1) by lra.
  assert (E : dist2_cont (dist2_make A) (/2) (/4) = Ok (Fin (/2), 1%nat, 1 / 2)).
  { unfold dist2_cont. change (d_marg (dist2_make A)) with (dist1_make (map d_raw (map dist1_make A))).
    rewrite VM, C. cbn [bind]. unfold d_cnt. change (d_func (dist1_make [1;3])) with [1;3].
    rewrite (clip_index_in _ (length [1;3]) 1); [|cbn; lia|rewrite DU; cbn; lra].
    rewrite (cond_at A 1) by (cbn; lia). cbn [bind]. change (nth 1 A []) with [3].
    assert (T1 : table_ok [3]) by (split; [repeat constructor; lra|cbn; lra]).
    destruct (cont_form [3] (/2) T1 ltac:(lra)) as (j&dv&Lj&Dj&_&_&_&Mj&Cj).
    assert (j = 0)%nat as -> by (cbn in Lj; lia). cbn in Mj.
    rewrite Cj. cbn [bind]. rewrite !raw_eq. cbn. 
    replace dv with (/2) by lra. apply f_equal. apply f_equal2; [apply f_equal2; [apply f_equal; field|reflexivity]|field]. }
  exists A, 1%nat, (/2), 1%nat, (1/2). split; auto. split; auto.
  rewrite (dist2_pdf_at A 1 OK 1 0); [|cbn; lia|lia|cbn; lra|cbn; lra].
  intros Q. injection Q as Q. unfold mean2 in Q. cbn in Q. lra.
Qed.
